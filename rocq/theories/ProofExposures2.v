(** Proofs about exposures inheriting the continuum, continued. *)
From Coq Require Import ZArith String List Bool Arith Lia Qcanon Field.
From Verif Require Import Num NpList NpListFacts Exn Dict ModelSpectrum ModelExposures SpecSpectrum SpecWeights
  ProofSpectrum1 ProofCoadd3 SpecExposures ProofExposures.
Import ListNotations.
Local Open Scope nat_scope.

Lemma NoDup_dget {A} (d : dict A) a w : NoDup (dkeys d) -> In (a, w) d -> dget a d = Some w.
Proof.
  induction d as [|[b v] d IH]; [easy|]. cbn [dkeys map fst]. intros N H. inversion N as [|? ? N1 N2]; subst.
  cbn [dget]. destruct H as [E|H].
  - injection E as <- <-. now rewrite String.eqb_refl.
  - destruct (String.eqb_spec a b) as [->|]; [|now apply IH]. exfalso. apply N1. now apply (in_map fst) in H.
Qed.

Lemma expo_parts dw coadd s s' :
  NoDup (dkeys (fw (s_f s))) -> match_exposure dw coadd s = Ok s' -> s_valid s' = true ->
  s_valid coadd = true /\ forall arm w', dget arm (fw (s_f s')) = Some w' ->
    exists w wc cc i1 i2 j1 j2 c', dget arm (fw (s_f s)) = Some w /\ dget arm (fw (s_f coadd)) = Some wc /\
      dget arm (s_cont coadd) = Some cc /\ cut dw w wc i1 i2 j1 j2 /\ w' = pyslice i1 i2 w /\
      c' = pyslice j1 j2 cc /\ dget arm (s_cont s') = Some c' /\ length c' = length w'.
Proof.
  intros N E V. unfold match_exposure in E.
  set (s0 := set_cont _ _) in E. cbn [s_f set_cont set_chi2 set_x set_valid] in E.
  destruct (match_loop dw coadd (fw (s_f s)) s0 s' N) as (A & B & C & _); [|exact E|].
  { intros a w H. split; [now apply NoDup_dget|reflexivity]. }
  apply C in V as [V1 V2]. split; [exact V1|]. intros arm w' Hw'.
  destruct (dget arm (fw (s_f s))) as [w|] eqn:Ew.
  - apply dget_In_pair in Ew as Hin.
    destruct (B arm w Hin) as (wc & cc & i1 & i2 & j1 & j2 & B1 & B2 & B3 & B4 & B5).
    exists w, wc, cc, i1, i2, j1, j2, (pyslice j1 j2 cc). rewrite B5. repeat (split; [tauto||congruence|]).
    symmetry. apply (V2 arm); [now apply (in_map fst) in Hin|exact Hw'|exact B5].
  - exfalso. assert (~ In arm (map fst (fw (s_f s)))) as Hn by now apply dget_None.
    destruct (A arm Hn) as [A1 _]. unfold s0 in A1. cbn [s_f set_cont set_chi2 set_x set_valid] in A1. congruence.
Qed.

Lemma expo_inherits dw coadd s s' :
  (0 < dw)%Qc -> NoDup (dkeys (fw (s_f s))) -> on_grid dw s -> on_grid dw coadd -> has_continuum coadd ->
  match_exposure dw coadd s = Ok s' -> s_valid s' = true ->
  inherits (fq 1 2 * dw) coadd s' /\
  ((forall arm w wc, dget arm (fw (s_f s)) = Some w -> dget arm (fw (s_f coadd)) = Some wc -> exists d, shifted dw d wc w) ->
   inherits 0 coadd s').
Proof.
  intros Hdw N G Gc HC E V. destruct (expo_parts dw coadd s s' N E V) as [_ P].
  split; [|intro Hs]; intros arm w' Hw'; destruct (P arm w' Hw') as (w & wc & cc & i1 & i2 & j1 & j2 & c' & P1 & P2 & P3 & P4 & -> & -> & P7 & P8);
    exists (pyslice j1 j2 cc), wc, cc; repeat (split; [assumption|]); intros k x v Hx Hv;
    (assert (length cc = length wc) as L by (destruct (HC arm wc P2) as (c & H1 & H2); congruence));
    destruct (cut_pixel dw w wc i1 i2 j1 j2 cc k x v Hdw (G arm w P1) (Gc arm wc P2) L P4 Hx Hv) as (m & y & Y1 & Y2 & Y3 & Y4);
    exists m, y; repeat (split; [assumption|]).
  - exact Y3.
  - destruct (Hs arm w wc P1 P2) as (d & Hd). rewrite (Y4 d Hd). split; qlra.
Qed.

Lemma for_each_err {A B} (body : A -> B -> res B) x l : (forall s, exists e, body x s = Err e) -> In x l ->
  forall s, exists e, for_each l body s = Err e.
Proof.
  intros Hx. induction l as [|a l IH]; intros Hin s; [easy|]. cbn [for_each]. destruct Hin as [->|Hin].
  - destruct (Hx s) as (e & ->). now exists e.
  - destruct (body a s) as [s1|e]; cbn [rbind]; [now apply IH|now exists e].
Qed.
Lemma expo_missing_arm dw coadd s arm w :
  dget arm (fw (s_f s)) = Some w -> dget arm (fw (s_f coadd)) = None ->
  exists e, match_exposure dw coadd s = Err e.
Proof.
  intros Hw Hc. unfold match_exposure. apply for_each_err with (arm, w).
  - intro s1. unfold match_arm. rewrite Hc. now eexists.
  - cbn [s_f set_cont set_chi2 set_x set_valid]. now apply dget_In_pair.
Qed.

(** ** all arrays are cut *)
Definition refs_ok (f : forest) : Prop := ri f < length (hp f) /\ rs f < length (hp f) /\ rw f < length (hp f).
Definition arm_aligned (s : spec) (arm : string) : Prop :=
    len_at (ff (s_f s)) arm = len_at (fw (s_f s)) arm /\
    len_at (fivar (s_f s)) arm = len_at (fw (s_f s)) arm /\
    len_at (fivar_sm (s_f s)) arm = len_at (fw (s_f s)) arm /\
    len_at (fweight (s_f s)) arm = len_at (fw (s_f s)) arm.
Definition same_arrays (a : string) (s s' : spec) : Prop :=
  dget a (fw (s_f s')) = dget a (fw (s_f s)) /\ dget a (ff (s_f s')) = dget a (ff (s_f s)) /\
  dget a (fivar (s_f s')) = dget a (fivar (s_f s)) /\ dget a (fivar_sm (s_f s')) = dget a (fivar_sm (s_f s)) /\
  dget a (fweight (s_f s')) = dget a (fweight (s_f s)).
Definition same_refs (f f' : forest) : Prop := ri f' = ri f /\ rs f' = rs f /\ rw f' = rw f.

Lemma slice_idem {A} j (l : list A) : slice 0 j (slice 0 j l) = slice 0 j l.
Proof. unfold slice. cbn [skipn]. rewrite firstn_firstn. f_equal. lia. Qed.
Lemma len_at_some {A B} (d : dict (list A)) (d' : dict (list B)) arm w :
  len_at d arm = len_at d' arm -> dget arm d' = Some w -> exists l, dget arm d = Some l /\ length l = length w.
Proof.
  unfold len_at. intros H E. rewrite E in H. cbn in H. destruct (dget arm d) as [l|]; [|discriminate].
  exists l. split; [easy|]. now injection H.
Qed.

Lemma slice_z_full arm i1 i2 s wv : (0 <= i1)%Z -> (0 <= i2)%Z -> refs_ok (s_f s) ->
  arm_aligned s arm -> dget arm (fw (s_f s)) = Some wv ->
  exists s', spec_slice_z arm i1 i2 s = Ok s' /\ refs_ok (s_f s') /\ same_refs (s_f s) (s_f s') /\
    (forall a, a <> arm -> same_arrays a s s') /\
    (i1 = 0%Z \/ unaliased (s_f s) -> cut_to arm (Z.to_nat i1) (Z.to_nat i2) s s').
Proof.
  intros H1 H2 (R1 & R2 & R3) (A1 & A2 & A3 & A4) Hw. unfold spec_slice_z.
  rewrite (proj2 (rget_Ok arm (fw (s_f s)) wv) Hw). cbn [rbind].
  destruct (len_at_some _ _ _ _ A1 Hw) as (fl & Ef & Lf). destruct (len_at_some _ _ _ _ A2 Hw) as (iv & Ei & Li).
  destruct (len_at_some _ _ _ _ A3 Hw) as (sm & Es & Ls). destruct (len_at_some _ _ _ _ A4 Hw) as (wt & Et & Lt).
  destruct ((i1 =? 0)%Z && (i2 =? Z.of_nat (length wv))%Z) eqn:C.
  { apply andb_true_iff in C as [C1 C2]. apply Z.eqb_eq in C1, C2. subst.
    exists s. split; [easy|]. split; [now repeat split|]. split; [now repeat split|]. split; [now repeat split|].
    intros _. unfold cut_to. rewrite Hw, Ef, Ei, Es, Et. cbn [option_map]. rewrite Nat2Z.id.
    change (Z.to_nat 0) with 0. rewrite !slice_all by lia. now repeat split. }
  rewrite (proj2 (rget_Ok arm (ff (s_f s)) fl) Ef). cbn [rbind].
  unfold fivar, fivar_sm, fweight in *. cbn [fw ff ri rs rw hp mut_ref set_ff set_fw].
  rewrite (proj2 (rget_Ok arm _ iv) Ei). cbn [rbind fw ff ri rs rw hp mut_ref set_ff set_fw fivar fivar_sm fweight]. unfold fivar_sm, fweight. cbn [rbind fw ff ri rs rw hp mut_ref set_ff set_fw].
  set (sm' := if Nat.eqb (rs (s_f s)) (ri (s_f s)) then pyslice i1 i2 iv else sm).
  set (h := hp (s_f s)) in *. set (ri0 := ri (s_f s)) in *. set (rs0 := rs (s_f s)) in *. set (rw0 := rw (s_f s)) in *.
  assert (dget arm (nth rs0 (upd ri0 (dset arm (pyslice i1 i2 iv)) h) []) = Some sm') as Es'.
  { rewrite nth_upd by assumption. unfold sm'. destruct (Nat.eqb rs0 ri0); [apply dget_dset_same|exact Es]. }
  rewrite (proj2 (rget_Ok arm _ sm') Es'). cbn [rbind].
  set (wt' := if Nat.eqb rw0 rs0 then pyslice i1 i2 sm' else if Nat.eqb rw0 ri0 then pyslice i1 i2 iv else wt).
  assert (dget arm (nth rw0 (upd rs0 (dset arm (pyslice i1 i2 sm')) (upd ri0 (dset arm (pyslice i1 i2 iv)) h)) []) = Some wt') as Et'.
  { rewrite !nth_upd by (rewrite ?upd_length; assumption). unfold wt'.
    destruct (Nat.eqb rw0 rs0); [apply dget_dset_same|]. destruct (Nat.eqb rw0 ri0); [apply dget_dset_same|exact Et]. }
  rewrite (proj2 (rget_Ok arm _ wt') Et'). cbn [rbind].
  eexists. split; [reflexivity|].
  match goal with |- context [s_f (match ?x with Some c => set_cont _ (set_f ?g _) | None => _ end)] =>
    assert (s_f (match x with Some c => set_cont (dset arm (pyslice i1 i2 c) (s_cont (set_f g s))) (set_f g s) | None => set_f g s end) = g) as Eg
      by (destruct x; reflexivity); rewrite !Eg; set (f5 := g) in *
  end.
  set (h' := upd rw0 (dset arm (pyslice i1 i2 wt')) (upd rs0 (dset arm (pyslice i1 i2 sm')) (upd ri0 (dset arm (pyslice i1 i2 iv)) h))) in *.
  assert (hp f5 = h' /\ ri f5 = ri0 /\ rs f5 = rs0 /\ rw f5 = rw0 /\ fw f5 = dset arm (pyslice i1 i2 wv) (fw (s_f s)) /\
    ff f5 = dset arm (pyslice i1 i2 fl) (ff (s_f s))) as (G1 & G2 & G3 & G4 & G5 & G6).
  { unfold f5. match goal with |- context [match ?x with Some _ => _ | None => _ end] => destruct x end; now repeat split. }
  assert (length h' = length h) as Lh by (unfold h'; now rewrite !upd_length).
  assert (forall r, r < length h -> forall a, a <> arm -> dget a (nth r h' []) = dget a (nth r h [])) as Go.
  { intros r Hr a Ha. unfold h'. rewrite nth_upd3 by assumption. cbn zeta.
    destruct (Nat.eqb r ri0), (Nat.eqb r rs0), (Nat.eqb r rw0); rewrite ?dget_dset_other by exact Ha; reflexivity. }
  split; [unfold refs_ok; rewrite G1, G2, G3, G4, Lh; now repeat split|].
  split; [unfold same_refs; now rewrite G2, G3, G4|].
  split.
  - intros a Ha. unfold same_arrays. cbv beta. rewrite Eg. unfold fivar, fivar_sm, fweight. rewrite G1, G2, G3, G4, G5, G6, !dget_dset_other, !Go by assumption. now repeat split.
  - intro Hal. unfold cut_to. rewrite Eg. unfold fivar, fivar_sm, fweight. rewrite G1, G2, G3, G4, G5, G6, !dget_dset_same.
    fold h ri0 rs0 rw0. rewrite Hw, Ef, Ei, Es, Et. cbn [option_map].
    assert (forall l : arr, pyslice i1 i2 l = slice (Z.to_nat i1) (Z.to_nat i2) l) as Ep by (intro; now apply pyslice_nonneg).
    rewrite (pyslice_nonneg i1 i2 wv), (Ep fl) by assumption.
    assert (forall l : arr, i1 = 0%Z -> pyslice i1 i2 (pyslice i1 i2 l) = pyslice i1 i2 l) as Id.
    { intros l ->. rewrite !Ep. apply slice_idem. }
    rewrite <- !Ep.
    enough (dget arm (nth ri0 h' []) = Some (pyslice i1 i2 iv) /\ dget arm (nth rs0 h' []) = Some (pyslice i1 i2 sm) /\ dget arm (nth rw0 h' []) = Some (pyslice i1 i2 wt)) as (Q1 & Q2 & Q3)
      by now repeat split.
    unfold h'. rewrite !nth_upd3 by assumption. cbn zeta. rewrite !Nat.eqb_refl.
    unfold unaliased in Hal. fold ri0 rs0 rw0 in Hal.
    destruct Hal as [Hal|(D1 & D2 & D3)].
    + specialize (fun l => Id l Hal).
      assert (rs0 = ri0 -> sm = iv) as S1 by (intro Q; rewrite Q in Es; congruence).
      assert (rw0 = ri0 -> wt = iv) as S2 by (intro Q; rewrite Q in Et; congruence).
      assert (rw0 = rs0 -> wt = sm) as S3 by (intro Q; rewrite Q in Et; congruence).
      unfold wt', sm'. rewrite (Nat.eqb_sym ri0 rs0), (Nat.eqb_sym ri0 rw0), (Nat.eqb_sym rs0 rw0).
      destruct (Nat.eqb_spec rs0 ri0) as [Q1|Q1], (Nat.eqb_spec rw0 ri0) as [Q2|Q2], (Nat.eqb_spec rw0 rs0) as [Q3|Q3];
        try (exfalso; congruence); rewrite ?dget_dset_same, ?Id; repeat split; rewrite ?S1, ?S2, ?S3 by assumption; try reflexivity.
    + unfold wt', sm'. rewrite (proj2 (Nat.eqb_neq ri0 rs0)), (proj2 (Nat.eqb_neq ri0 rw0)), (proj2 (Nat.eqb_neq rs0 rw0)),
        (proj2 (Nat.eqb_neq rs0 ri0)), (proj2 (Nat.eqb_neq rw0 ri0)), (proj2 (Nat.eqb_neq rw0 rs0)) by congruence.
      rewrite !dget_dset_same. now repeat split.
Qed.
