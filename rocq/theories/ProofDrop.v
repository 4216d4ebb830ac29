(** C33: dropping short arms and short spectra. *)
From Coq Require Import ZArith String List Bool Arith Lia Qcanon.
From Verif Require Import Num NpList NpListFacts Exn Dict ModelSpectrum ModelMasks SpecSpectrum SpecDrop
  ProofSpectrum1 ProofSpectrum2.
Import ListNotations.
Local Open Scope nat_scope.

Definition gone := (@None (list Qc), @None (list num), @None (list num), @None (list num),
                    @None (list num), @None (list (list num)), @None (list num)).
Lemma dget_mut3 arm a r r1 r2 r3 (h : list (dict arr)) :
  r = r1 \/ r = r2 \/ r = r3 ->
  r < length h -> r1 < length h -> r2 < length h -> r3 < length h ->
  dget a (nth r (upd r3 (dpop arm) (upd r2 (dpop arm) (upd r1 (dpop arm) h))) []) =
  if String.eqb a arm then None else dget a (nth r h []).
Proof.
  intros H L L1 L2 L3. rewrite nth_upd3 by assumption. cbn zeta.
  destruct (Nat.eqb_spec r r1), (Nat.eqb_spec r r2), (Nat.eqb_spec r r3); rewrite ?dget_dpop;
    destruct (String.eqb a arm); try easy; tauto.
Qed.
Lemma drop_arm_state arm s a :
  wff (s_f s) -> arm_state (drop_arm arm s) a = if String.eqb a arm then gone else arm_state s a.
Proof.
  intros [A B C N F I S W]. unfold arm_state, drop_arm, gone, fivar, fivar_sm, fweight.
  cbn [s_f set_cont set_f s_cont fw ff fr hp ri rs rw mut_ref set_fr set_ff set_fw].
  rewrite !dget_mut3 by tauto. rewrite !dget_dpop. now destruct (String.eqb a arm).
Qed.
Lemma drop_list_state l s a :
  wff (s_f s) ->
  arm_state (fold_left (fun acc arm => drop_arm arm acc) l s) a =
  if existsb (String.eqb a) l then gone else arm_state s a.
Proof.
  revert s. induction l as [|x l IH]; intros s W; cbn; [easy|].
  rewrite IH by now apply drop_arm_wff. rewrite drop_arm_state by easy.
  destruct (String.eqb a x), (existsb (String.eqb a) l); easy.
Qed.

Lemma int_above x n : (0 <= x)%Qc -> ((n <? qtrunc x + 1)%Z = false <-> (x < zq n)%Qc).
Proof.
  intro H. destruct (qtrunc_spec_nonneg x H) as (H1 & H2).
  rewrite Z.ltb_ge. split; intro L.
  - assert (zq (qtrunc x) + 1 <= zq n)%Qc as K.
    { rewrite <- zq_1, <- zq_plus. now apply zq_le. }
    eapply Qclt_le_trans; [exact H2|exact K].
  - assert (zq (qtrunc x) < zq n)%Qc as K by (eapply Qcle_lt_trans; [exact H1|exact L]).
    apply (proj1 (zq_lt _ _)) in K. clear - K. lia.
Qed.

Lemma drop_short_spec dwave lya1 lya2 skip s :
  proper s -> (0 <= skip * forest_pixels s dwave lya1 lya2)%Qc ->
  forall arm,
    let s' := drop_short_arms dwave lya1 lya2 skip s in
    (dget arm (fw (s_f s)) = None -> arm_state s' arm = arm_state s arm) /\
    (dget arm (fw (s_f s)) <> None ->
      ((skip * forest_pixels s dwave lya1 lya2 < arm_good_pixels s arm)%Qc -> arm_state s' arm = arm_state s arm) /\
      ((arm_good_pixels s arm <= skip * forest_pixels s dwave lya1 lya2)%Qc -> arm_state s' arm = gone)).
Proof.
  intros P H arm. pose proof (proper_wff s P) as W. cbn zeta. unfold drop_short_arms.
  rewrite drop_list_state by easy. unfold npixels_min, arm_good_pixels, good_pixels.
  fold (forest_pixels s dwave lya1 lya2). set (x := (skip * forest_pixels s dwave lya1 lya2)%Qc) in *.
  set (short := fun arm0 => match dget arm0 (fivar (s_f s)) with Some iv => _ | None => false end).
  assert (existsb (String.eqb arm) (filter short (dkeys (fivar (s_f s))))
          = match dget arm (fivar (s_f s)) with
            | Some iv => (Z.of_nat (count npos iv) <? qtrunc x + 1)%Z | None => false end) as ->.
  { destruct (dget arm (fivar (s_f s))) as [iv|] eqn:E.
    - destruct (Z.of_nat (count npos iv) <? qtrunc x + 1)%Z eqn:Q.
      + apply existsb_exists. exists arm. split; [|apply String.eqb_refl].
        apply filter_In. split; [apply dget_In; eauto|]. unfold short. now rewrite E.
      + apply not_true_iff_false. intro C. apply existsb_exists in C as (y & Hy & Ey).
        apply String.eqb_eq in Ey. subst y. apply filter_In in Hy as (_ & Hy).
        unfold short in Hy. rewrite E in Hy. congruence.
    - apply not_true_iff_false. intro C. apply existsb_exists in C as (y & Hy & Ey).
      apply String.eqb_eq in Ey. subst y. apply filter_In in Hy as (_ & Hy).
      unfold short in Hy. rewrite E in Hy. discriminate. }
  destruct (dget arm (fivar (s_f s))) as [iv|] eqn:E.
  - change (filter (fun x0 => nltb n0 x0) iv) with (filter npos iv). fold (count npos iv).
    split; [|intros _; split].
    + intro C. pose proof (wf_iv _ W arm) as L. unfold len_at, deref in L. unfold fivar in E.
      rewrite E, C in L. discriminate.
    + intro C. apply int_above in C; [|easy]. now rewrite C.
    + intro C. destruct (Z.of_nat (count npos iv) <? qtrunc x + 1)%Z eqn:Q; [easy|].
      apply int_above in Q; [|easy]. apply Qclt_not_le in Q. contradiction.
  - split; [easy|]. intro C. exfalso. apply C.
    pose proof (wf_iv _ W arm) as L. unfold len_at, deref in L. unfold fivar in E.
    rewrite E in L. now destruct (dget arm (fw (s_f s))).
Qed.

Lemma real_size_sum s :
  zq (Z.of_nat (get_real_size s)) = qsum (map good_pixels (dvals (fivar (s_f s)))).
Proof.
  unfold get_real_size.
  assert (forall l n, zq (Z.of_nat (fold_left (fun acc iv => acc + count npos iv) l n))
    = (zq (Z.of_nat n) + qsum (map good_pixels l))%Qc) as H.
  { induction l as [|x l IH]; intro n; cbn [fold_left map]; [unfold qsum; cbn [fold_right]; ring|].
    rewrite IH, qsum_cons, Nat2Z.inj_add, zq_plus.
    unfold good_pixels.
    change (filter (fun x0 => nltb n0 x0) x) with (filter npos x). fold (count npos x). ring. }
  rewrite H. change (zq (Z.of_nat 0)) with 0%Qc. ring.
Qed.

Lemma remove_short_spec dwave lya1 lya2 skip l s :
  In s (remove_short_spectra dwave lya1 lya2 skip l) <->
  In s l /\ (skip = 0%Qc \/
    (skip * forest_pixels s dwave lya1 lya2 < qsum (map good_pixels (dvals (fivar (s_f s)))))%Qc).
Proof.
  unfold remove_short_spectra. destruct (qeqb skip 0) eqn:E.
  - apply qeqb_true in E. tauto.
  - apply qeqb_false in E. rewrite filter_In. unfold is_long. rewrite qltb_true, real_size_sum.
    unfold forest_pixels. tauto.
Qed.
