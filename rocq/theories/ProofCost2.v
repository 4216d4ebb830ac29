(** The flux of masked pixels does not influence the continuum fit. *)
From Coq Require Import Field ZArith String List Bool Arith Lia Qcanon.
From Verif Require Import Num NpList NpListFacts Exn Dict ModelSpectrum ModelContinuum ModelCost SpecSpectrum SpecMasks SpecWeights
  SpecStack ProofWeights ProofCoadd ProofStack ProofSpectrum1 SpecContinuum ProofContinuum SpecCost ProofCost.
Import ListNotations.
Local Open Scope nat_scope.

Lemma zero_times_inf : nmul n0 PInf = NaN /\ nmul n0 NInf = NaN.
Proof. split; reflexivity. Qed.
Lemma masked_weight e v c :
  weight_formula n0 e v c = NaN \/ (weight_formula n0 e v c = n0 /\ exists q, c = Fin q).
Proof.
  unfold weight_formula.
  assert (nmul n0 (nmul v (nsq c)) = NaN \/ (nmul n0 (nmul v (nsq c)) = n0 /\ exists q, c = Fin q)) as K.
  { assert (forall x, nmul n0 (Fin x) = n0) as Z by (intro x; unfold n0; cbn [nmul]; f_equal; ring).
    assert (forall a p n, infsgn a p n = NaN \/ infsgn a p n = p \/ infsgn a p n = n) as I
      by (intros a p n; unfold infsgn; destruct (qeqb a 0); [auto|destruct (qltb 0 a); auto]).
    destruct v as [v| | |], c as [c| | |]; unfold nsq; cbn [nmul]; try (left; reflexivity); try (right; split; [apply Z|eauto]);
      match goal with |- context [infsgn ?a ?p ?n] => destruct (I a p n) as [->|[->| ->]]; left; reflexivity end. }
  destruct K as [->|[-> Q]].
  - left. destruct e; reflexivity.
  - destruct e as [e| | |].
    + assert (nadd (Fin e) n0 = Fin e) as -> by (unfold n0; cbn [nadd]; f_equal; ring).
      unfold ndiv, n0. destruct (qeqb e 0); [left; reflexivity|right; split; [|exact Q]].
      f_equal. unfold Qcdiv. ring.
    + left. reflexivity.
    + right. split; [reflexivity|exact Q].
    + right. split; [reflexivity|exact Q].
Qed.

(** weight times squared residual of a masked pixel *)
Lemma masked_term e v c f g :
  nmul (weight_formula n0 e v c) (nsq (nsub (Fin f) c)) = nmul (weight_formula n0 e v c) (nsq (nsub (Fin g) c)).
Proof.
  destruct (masked_weight e v c) as [->|(-> & q & ->)]; [reflexivity|].
  unfold nsq, nsub, n0. cbn [nadd nneg nmul]. f_equal. ring.
Qed.

(** the fluxes of an arm agree where the smoothed ivar is not zero *)
Definition agree (iv f g : arr) : Prop :=
  length f = length iv /\ length g = length iv /\
  forall k x y, nth_error f k = Some x -> nth_error g k = Some y ->
    x = y \/ (nth_error iv k = Some n0 /\ (exists p, x = Fin p) /\ exists q, y = Fin q).
Lemma agree_tail i iv x f y g : agree (i :: iv) (x :: f) (y :: g) -> agree iv f g.
Proof.
  intros (L1 & L2 & H). split; [now injection L1|]. split; [now injection L2|]. intros k a b Ha Hb. exact (H (S k) a b Ha Hb).
Qed.

Lemma chi_agree varlss eta w iv c f g wt : length iv = length w -> length c = length w -> agree iv f g ->
  weight_arm varlss eta w iv c = Ok wt ->
  rbind (zip2 (fun x y => nsq (nsub x y)) f c) (fun d2 => ndot wt d2) =
  rbind (zip2 (fun x y => nsq (nsub x y)) g c) (fun d2 => ndot wt d2).
Proof.
  intros L1 L2 (Lf & Lg & A) E. destruct (weight_arm_nth varlss eta w iv c L1 L2) as (r & E' & Lr & H).
  rewrite E in E'. injection E' as <-.
  rewrite !zip2_eq by lia. cbn [rbind]. unfold ndot. rewrite !zip2_eq by (rewrite map2_length; lia). cbn [rmap]. f_equal. f_equal.
  apply nth_error_ext; [rewrite !map2_length; lia|]. intro k. rewrite !nth_error_map2.
  destruct (nth_error wt k) as [t|] eqn:Et; [|reflexivity].
  assert (k < length w) as Hk by (rewrite <- Lr; now apply nth_error_Some_lt in Et).
  destruct (nth_error w k) as [x|] eqn:Ex; [|apply nth_error_None in Ex; lia].
  destruct (nth_error iv k) as [i|] eqn:Ei; [|apply nth_error_None in Ei; lia].
  destruct (nth_error c k) as [y|] eqn:Ey; [|apply nth_error_None in Ey; lia].
  destruct (nth_error f k) as [p|] eqn:Ep; [|apply nth_error_None in Ep; lia].
  destruct (nth_error g k) as [q|] eqn:Eq; [|apply nth_error_None in Eq; lia].
  f_equal. rewrite (H k x i y Ex Ei Ey) in Et. injection Et as <-.
  destruct (A k p q Ep Eq) as [->|(Z & (p' & ->) & (q' & ->))]; [reflexivity|].
  rewrite Ei in Z. injection Z as ->. apply masked_term.
Qed.

Lemma a0_agree iv f g : agree iv f g -> ndot f iv = ndot g iv.
Proof.
  intros (Lf & Lg & A). unfold ndot. rewrite !zip2_eq by lia. cbn [rmap]. f_equal. f_equal.
  apply nth_error_ext; [rewrite !map2_length; lia|]. intro k. rewrite !nth_error_map2.
  destruct (nth_error f k) as [p|] eqn:Ep; destruct (nth_error g k) as [q|] eqn:Eq; try reflexivity.
  - destruct (nth_error iv k) as [i|] eqn:Ei; [|reflexivity]. f_equal.
    destruct (A k p q Ep Eq) as [->|(Z & (p' & ->) & (q' & ->))]; [reflexivity|].
    rewrite Ei in Z. injection Z as ->. unfold n0. cbn [nmul]. f_equal. ring.
  - apply nth_error_Some_lt in Ep. apply nth_error_None in Eq. lia.
  - apply nth_error_Some_lt in Eq. apply nth_error_None in Ep. lia.
Qed.

Lemma cost_agree meanflux varlss eta meancont slope nlog x z w f g iv : length iv = length w -> agree iv f g ->
  cost_arm meanflux varlss eta meancont slope nlog x z w f iv = cost_arm meanflux varlss eta meancont slope nlog x z w g iv.
Proof.
  intros L A. rewrite !cost_arm_eq. cbv zeta.
  set (est := map2 nmul _ (map meanflux w)).
  assert (length est = length w) as Le by (unfold est; rewrite map2_length, !map_length; lia).
  destruct (weight_arm varlss eta w iv est) as [wt|] eqn:E; [|reflexivity]. cbn [rbind].
  pose proof (chi_agree varlss eta w iv est f g wt L Le A E) as K.
  destruct (zip2 (fun f0 c => nsq (nsub f0 c)) f est) as [d1|]; destruct (zip2 (fun f0 c => nsq (nsub f0 c)) g est) as [d2|];
    cbn [rbind] in K |- *; try rewrite K; try reflexivity; try (rewrite <- K; reflexivity); congruence.
Qed.

Section Masked.
Variable d : dict arr.
Variable s : spec.
Hypothesis R1 : fit_ready s.
Hypothesis R2 : fit_ready (with_flux d s).
Hypothesis D : differs_where_masked d s.

Lemma arm_agree arm w : dget arm (fw (s_f s)) = Some w -> exists iv f g,
  dget arm (fivar_sm (s_f s)) = Some iv /\ dget arm (ff (s_f s)) = Some f /\ dget arm d = Some g /\
  length iv = length w /\ agree iv f g.
Proof.
  intro Ew. destruct R1 as ((Al & _) & _ & _ & Ff & _). destruct R2 as ((Al2 & _) & _ & _ & Ff2 & _).
  destruct (Al arm) as (A1 & _ & A3 & _). destruct (Al2 arm) as (B1 & _).
  cbn [with_flux set_f set_ff s_f fw ff] in B1, Ff2.
  assert (len_at (fw (s_f s)) arm = Some (length w)) as L0 by (unfold len_at; now rewrite Ew).
  rewrite L0 in A1, A3, B1. apply len_some in A1 as (f & Ef & Lf). apply len_some in A3 as (iv & Ei & Li).
  apply len_some in B1 as (g & Eg & Lg). exists iv, f, g. repeat (split; [assumption|]).
  split; [congruence|]. split; [congruence|]. intros k x y Hx Hy. specialize (D arm k). unfold at_pix in D.
  rewrite Ef, Eg, Ei in D. destruct D as [K|K].
  - left. congruence.
  - right. split; [exact K|]. split; [exact (Ff arm f x Ef (nth_error_In _ _ Hx))|exact (Ff2 arm g y Eg (nth_error_In _ _ Hy))].
Qed.

Lemma In_fw arm w : In (arm, w) (fw (s_f s)) -> dget arm (fw (s_f s)) = Some w.
Proof. intro H. apply In_pair_dget; [|exact H]. destruct R1 as ((_ & N & _) & _). exact N. Qed.

Lemma a0_masked : get_a0 (with_flux d s) = get_a0 s.
Proof.
  unfold get_a0. cbn [with_flux set_f s_f set_ff ff]. change (fivar_sm (s_f (with_flux d s))) with (fivar_sm (s_f s)).
  f_equal. apply for_each_ext. intros [arm iv] acc Hin. cbn [fst snd].
  assert (NoDup (dkeys (fivar_sm (s_f s)))) as Nd by apply R1. apply In_pair_dget in Hin; [|exact Nd].
  destruct (dget arm (fw (s_f s))) as [w|] eqn:Ew.
  - destruct (arm_agree arm w Ew) as (iv' & f & g & Ei & Ef & Eg & L & A). rewrite Hin in Ei. injection Ei as <-.
    unfold rget. rewrite Ef, Eg. cbn [of_option rbind]. now rewrite (a0_agree iv f g A).
  - exfalso. destruct R1 as ((Al & _) & _). destruct (Al arm) as (_ & _ & A3 & _). unfold len_at in A3. rewrite Ew, Hin in A3. discriminate.
Qed.

Lemma cost_masked meanflux varlss eta meancont slope nlog x :
  costfn meanflux varlss eta meancont slope nlog (with_flux d s) x = costfn meanflux varlss eta meancont slope nlog s x.
Proof.
  unfold costfn. cbn [with_flux set_f s_f set_ff ff fw]. apply for_each_ext. intros [arm w] acc Hin. cbn [fst snd].
  apply In_fw in Hin. destruct (arm_agree arm w Hin) as (iv & f & g & Ei & Ef & Eg & L & A).
  change (fivar_sm (set_ff d (s_f s))) with (fivar_sm (s_f s)). unfold rget. rewrite Ei, Ef, Eg. cbn [of_option rbind].
  change (s_z (set_f (set_ff d (s_f s)) s)) with (s_z s).
  now rewrite (cost_agree meanflux varlss eta meancont slope nlog x (s_z s) w f g iv L A).
Qed.

Lemma weight_masked varlss eta :
  set_forest_weight varlss eta (with_flux d s) = rmap (with_flux d) (set_forest_weight varlss eta s).
Proof.
  unfold set_forest_weight. change (s_valid (with_flux d s)) with (s_valid s). change (s_cont (with_flux d s)) with (s_cont s).
  destruct (negb (s_valid s) || negb (dtrue (s_cont s))); [reflexivity|].
  change (fw (s_f (with_flux d s))) with (fw (s_f s)). change (fivar_sm (s_f (with_flux d s))) with (fivar_sm (s_f s)).
  match goal with |- rbind ?a _ = _ => destruct a end; reflexivity.
Qed.

Lemma tail_masked varlss eta : (s_valid s = true -> cont_matches s) ->
  rbind (set_forest_weight varlss eta (with_flux d s)) calc_continuum_chi2 =
  rmap (with_flux d) (rbind (set_forest_weight varlss eta s) calc_continuum_chi2).
Proof.
  intro CM. rewrite weight_masked. destruct (set_forest_weight varlss eta s) as [s2|e] eqn:E; [|reflexivity]. cbn [rmap rbind].
  unfold calc_continuum_chi2. change (s_valid (with_flux d s2)) with (s_valid s2). change (s_cont (with_flux d s2)) with (s_cont s2).
  destruct (negb (s_valid s2) || negb (dtrue (s_cont s2))) eqn:B; [reflexivity|].
  apply orb_false_iff in B as (B1 & B2). apply negb_false_iff in B1, B2.
  assert (s_valid s2 = s_valid s /\ s_cont s2 = s_cont s) as (Ev & Ec).
  { unfold set_forest_weight in E. destruct (negb (s_valid s) || negb (dtrue (s_cont s))); [injection E as <-; split; reflexivity|].
    match type of E with rbind ?a _ = _ => destruct a end; [|discriminate]. cbn [rbind] in E. injection E as <-. split; reflexivity. }
  rewrite Ev in B1. rewrite Ec in B2.
  assert (s_cont s <> []) as Nc by (intro K; rewrite K in B2; discriminate).
  assert (proper s) as P by apply R1.
  destruct (stored_weights varlss eta s s2 P (CM B1) B1 Nc E) as (O & W).
  destruct O as (O1 & O2 & O3 & O4 & _). change (fw (s_f (with_flux d s2))) with (fw (s_f s2)).
  change (fweight (s_f (with_flux d s2))) with (fweight (s_f s2)). change (ff (s_f (with_flux d s2))) with d.
  match goal with |- rbind ?a _ = rmap _ (rbind ?b _) => assert (a = b) as -> end;
    [|match goal with |- rbind ?a _ = _ => destruct a; reflexivity end].
  apply for_each_ext. intros [arm w] acc Hin. cbn [fst snd]. rewrite O1 in Hin. apply In_fw in Hin.
  destruct (W arm w Hin) as (c & iv & fl & wt & Ec' & Ei & Ef & Et & Ew & L1 & L2 & L3 & L4).
  destruct (arm_agree arm w Hin) as (iv' & f & g & Ei' & Ef' & Eg & L & A).
  rewrite Ei in Ei'. injection Ei' as <-. rewrite Ef in Ef'. injection Ef' as <-.
  unfold rget. rewrite Ec, O2, Ec', Et, Ef, Eg. cbn [of_option rbind].
  pose proof (chi_agree varlss eta w iv c fl g wt L L1 A Ew) as K.
  destruct (zip2 (fun x y => nsq (nsub x y)) fl c) as [d1|]; destruct (zip2 (fun x y => nsq (nsub x y)) g c) as [d2|];
    cbn [rbind] in K |- *; try rewrite K; try reflexivity; try (rewrite <- K; reflexivity); congruence.
Qed.
End Masked.

Lemma picca_arms_len meanflux meancont slope x z arms : NoDup (dkeys arms) -> forall cont0 cont,
  picca_arms meanflux meancont slope x z arms cont0 = (true, cont) ->
  forall arm, len_at cont arm = match dget arm arms with Some w => Some (length w) | None => len_at cont0 arm end.
Proof.
  induction arms as [|[a w] arms IH]; intros Nd cont0 cont E arm; cbn [picca_arms] in E.
  - injection E as <-. reflexivity.
  - destruct (existsb _ _); [discriminate|]. inversion Nd as [|? ? N1 N2]; subst.
    rewrite (IH N2 _ _ E arm). cbn [dget]. destruct (String.eqb_spec arm a) as [->|Ne].
    + destruct (dget a arms) as [w'|] eqn:Ea; [exfalso; apply N1; apply (proj2 (Dict.dget_In _ _)); eauto|].
      unfold len_at. rewrite dget_dset_same. cbn [option_map]. rewrite map2_length, !map_length. f_equal. lia.
    + destruct (dget arm arms); [reflexivity|]. unfold len_at. now rewrite dget_dset_other.
Qed.

Lemma masked_thm : forall meanflux varlss eta meancont slope nlog opt, (forall x0, extensional (fun f => opt f x0)) ->
  forall d s xcov, fit_ready s -> fit_ready (with_flux d s) -> differs_where_masked d s ->
  picca_fit meanflux varlss eta meancont slope (minimize meanflux varlss eta meancont slope nlog opt) (with_flux d s) xcov =
  rmap (fun r => (with_flux d (fst r), snd r))
    (picca_fit meanflux varlss eta meancont slope (minimize meanflux varlss eta meancont slope nlog opt) s xcov).
Proof.
  intros meanflux varlss eta meancont slope nlog opt X d s xcov R1 R2 D. unfold picca_fit.
  rewrite (a0_masked d s R1 R2 D). destruct (get_a0 s) as [a0|e]; [|reflexivity]. cbn [rbind].
  assert (minimize meanflux varlss eta meancont slope nlog opt (with_flux d s) a0 =
          minimize meanflux varlss eta meancont slope nlog opt s a0) as ->.
  { unfold minimize, start. change (s_x (with_flux d s)) with (s_x s). destruct (s_x s) as [|y l]; [reflexivity|]. cbn [rbind].
    apply (X _ _ _). intro x. apply (cost_masked d s R1 R2 D). }
  destruct (minimize meanflux varlss eta meancont slope nlog opt s a0) as [r|e]; [|reflexivity]. cbn [rbind].
  change (s_z (with_flux d s)) with (s_z s). change (fw (s_f (with_flux d s))) with (fw (s_f s)).
  assert (exists s1, (if m_valid r then let '(ok, cont) := picca_arms meanflux meancont slope (m_x r) (s_z s) (fw (s_f s)) [] in
                 set_cont cont (set_valid ok s) else set_valid false s) = s1 /\
    (if m_valid r then let '(ok, cont) := picca_arms meanflux meancont slope (m_x r) (s_z s) (fw (s_f s)) [] in
                 set_cont cont (set_valid ok (with_flux d s)) else set_valid false (with_flux d s)) = with_flux d s1 /\
    fit_ready s1 /\ fit_ready (with_flux d s1) /\ differs_where_masked d s1 /\ (s_valid s1 = true -> cont_matches s1)) as
    (s1 & -> & -> & Q1 & Q2 & D1 & CM).
  { destruct (m_valid r).
    - destruct (picca_arms meanflux meancont slope (m_x r) (s_z s) (fw (s_f s)) []) as [ok cont] eqn:E.
      eexists. split; [reflexivity|]. split; [reflexivity|]. split; [exact R1|]. split; [exact R2|]. split; [exact D|].
      cbn [set_cont set_valid s_valid]. intros ->. intros arm Ha. cbn [set_cont set_valid s_f s_cont] in Ha |- *.
      assert (NoDup (dkeys (fw (s_f s)))) as Nd by (destruct R1 as ((_ & N & _) & _); exact N).
      rewrite (picca_arms_len _ _ _ _ _ _ Nd _ _ E arm). unfold len_at. destruct (dget arm (fw (s_f s))); [reflexivity|contradiction].
    - eexists. split; [reflexivity|]. split; [reflexivity|]. split; [exact R1|]. split; [exact R2|]. split; [exact D|]. discriminate. }
  pose proof (tail_masked d s1 Q1 Q2 D1 varlss eta CM) as T.
  destruct (set_forest_weight varlss eta s1) as [s2|e]; cbn [rbind rmap] in T |- *.
  - destruct (set_forest_weight varlss eta (with_flux d s1)) as [s2'|e']; cbn [rbind] in T |- *.
    + rewrite T. destruct (calc_continuum_chi2 s2) as [s3|e3]; cbn [rbind rmap]; [|reflexivity].
      change (s_valid (with_flux d s3)) with (s_valid s3). destruct (s_valid s3); reflexivity.
    + destruct (calc_continuum_chi2 s2) as [s3|e3]; cbn [rmap] in T; [discriminate T|]. cbn [rbind rmap]. congruence.
  - destruct (set_forest_weight varlss eta (with_flux d s1)) as [s2'|e']; cbn [rbind] in T |- *.
    + rewrite T. reflexivity.
    + congruence.
Qed.
