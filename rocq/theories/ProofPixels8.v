(** The pixels of exposures that are read again after the fit (C71). *)
From Coq Require Import ZArith String List Bool Arith Lia Qcanon.
From Verif Require Import Num NpList NpListFacts Exn Dict ModelSpectrum ModelMasks ModelDelta ModelExposures ModelPipeline
  SpecSpectrum SpecMasks SpecPixels ProofExposures ProofCat ProofPixels1 ProofPixels2 ProofPixels3 ProofPixels4.
Import ListNotations.
Local Open Scope nat_scope.

(** ** a slice is shorter or all *)
Lemma slice_same {A} i j (l : list A) : length (slice i j l) = length l -> slice i j l = l.
Proof.
  rewrite slice_length. intro H. destruct l as [|x l]; [unfold slice; now rewrite skipn_nil, firstn_nil|]. cbn [length] in H.
  assert (i = 0) as -> by lia. apply slice_all. cbn [length]. lia.
Qed.
Lemma pyslice_short {A} i j (l : list A) : length (pyslice i j l) <= length l.
Proof. unfold pyslice. rewrite slice_length. lia. Qed.
Fixpoint cut {A} (i j : Z) (c : nat) (l : list A) : list A := match c with 0 => l | S c => pyslice i j (cut i j c l) end.
Lemma cut_short {A} i j c (l : list A) : length (cut i j (S c) l) <= length (pyslice i j l).
Proof. induction c as [|c IH]; [easy|]. change (cut i j (S (S c)) l) with (pyslice i j (cut i j (S c) l)). pose proof (pyslice_short i j (cut i j (S c) l)). lia. Qed.
Lemma cut_same {A} i j c (l : list A) : length (cut i j (S c) l) = length (pyslice i j l) -> cut i j (S c) l = pyslice i j l.
Proof.
  induction c as [|c IH]; [easy|]. change (cut i j (S (S c)) l) with (pyslice i j (cut i j (S c) l)). intro H.
  pose proof (pyslice_short i j (cut i j (S c) l)) as K. pose proof (cut_short i j c l) as K2. assert (length (cut i j (S c) l) = length (pyslice i j l)) as E by lia.
  unfold pyslice at 1. rewrite slice_same; [now apply IH|]. unfold pyslice at 1 in H. lia.
Qed.
Lemma pyslice_len {A B} i j (l : list A) (m : list B) : length l = length m -> length (pyslice i j l) = length (pyslice i j m).
Proof. intro H. unfold pyslice. rewrite !slice_length, H. reflexivity. Qed.
Lemma pyslice_at {A B} i j (l : list A) (m : list B) k x y : length l = length m -> nth_error (pyslice i j l) k = Some x -> nth_error (pyslice i j m) k = Some y ->
  exists k', nth_error l k' = Some x /\ nth_error m k' = Some y.
Proof.
  unfold pyslice. intros L Hx Hy. rewrite <- L in Hy. set (a := pyidx _ i) in *. set (b := pyidx _ j) in *.
  assert (k < length (slice a b l)) as K by (apply nth_error_Some; congruence). rewrite slice_length in K.
  rewrite nth_error_slice in Hx by lia. rewrite nth_error_slice in Hy by lia. eauto.
Qed.

(** ** an arm of a spectrum *)
Section Arm.
Variable D : Qc -> Prop.
Definition zeroed_if (wv : list Qc) (v : list num) : Prop :=
  length v = length wv -> forall k x u, nth_error wv k = Some x -> D x -> nth_error v k = Some u -> spent u.
(** if the arrays fit, they are without weight where D *)
Definition arm_weak (f : forest) (arm : string) : Prop := forall wv, dget arm (fw f) = Some wv ->
  (forall fl, dget arm (ff f) = Some fl -> length fl = length wv) /\
  (forall v, dget arm (fivar f) = Some v -> zeroed_if wv v) /\ (forall v, dget arm (fweight f) = Some v -> zeroed_if wv v).
(** ... and they fit *)
Definition arm_fits (f : forest) (arm : string) : Prop := forall wv, dget arm (fw f) = Some wv ->
  (forall v, dget arm (fivar f) = Some v -> length v = length wv) /\ (forall v, dget arm (fweight f) = Some v -> length v = length wv).

Definition cuts (i j : Z) (arm : string) (k : nat) (d0 d : dict (list num)) : Prop :=
  exists c, k <= c /\ dget arm d = option_map (cut i j c) (dget arm d0).
Lemma cuts_upd i j arm r v h0 h p k : cuts i j arm k (nth p h0 []) (nth p h []) -> dget arm (nth r h []) = Some v ->
  cuts i j arm k (nth p h0 []) (nth p (upd r (dset arm (pyslice i j v)) h) []).
Proof.
  intros (c & Hk & E) Ev. destruct (Nat.lt_ge_cases p (length h)) as [L|L].
  - rewrite nth_upd by exact L. destruct (Nat.eqb_spec p r) as [->|N]; [|now exists c].
    exists (S c). split; [lia|]. rewrite dget_dset_same. rewrite Ev in E. destruct (dget arm (nth r h0 [])) as [v0|]; [|discriminate]. cbn in E. injection E as ->. reflexivity.
  - exists c. split; [exact Hk|]. rewrite nth_overflow by (now rewrite upd_length). rewrite (nth_overflow h) in E by exact L. exact E.
Qed.
Lemma cuts_one i j arm r v h0 h : cuts i j arm 0 (nth r h0 []) (nth r h []) -> dget arm (nth r h []) = Some v ->
  cuts i j arm 1 (nth r h0 []) (nth r (upd r (dset arm (pyslice i j v)) h) []).
Proof.
  intros (c & _ & E) Ev. destruct (Nat.lt_ge_cases r (length h)) as [L|L]; [|rewrite nth_overflow in Ev by exact L; discriminate].
  rewrite nth_upd by exact L. rewrite Nat.eqb_refl. exists (S c). split; [lia|]. rewrite dget_dset_same. rewrite Ev in E. destruct (dget arm (nth r h0 [])) as [v0|]; [|discriminate]. cbn in E. injection E as ->. reflexivity.
Qed.
Lemma cuts_other i j arm arm' r (v : list num) h p : arm' <> arm -> dget arm' (nth p (upd r (dset arm (pyslice i j v)) h) []) = dget arm' (nth p h []).
Proof. intro N. destruct (nth_upd_or r (dset arm (pyslice i j v)) h p []) as [-> | ->]; [reflexivity|]. now apply dget_dset_other. Qed.

Lemma slice_weak arm i j s : arm_weak (s_f s) arm -> arm_fits (s_f s) arm ->
  okall (fun s' => s_cat s' = s_cat s /\ dkeys (fw (s_f s')) = dkeys (fw (s_f s)) /\ arm_weak (s_f s') arm /\
    forall arm', arm' <> arm -> (arm_weak (s_f s) arm' -> arm_weak (s_f s') arm') /\ (arm_fits (s_f s) arm' -> arm_fits (s_f s') arm')) (spec_slice_z arm i j s).
Proof.
  intros HW HF. unfold spec_slice_z. cbv zeta. unfold rget at 1. destruct (dget arm (fw (s_f s))) as [wv|] eqn:Ew; [|exact I]. cbn [of_option rbind].
  destruct (_ && _); [cbn [okall]; do 2 (split; [reflexivity|]); split; [exact HW|]; intros; split; auto|].
  unfold rget at 1. destruct (dget arm (ff (s_f s))) as [fl|] eqn:Ef; [|exact I]. cbn [of_option rbind].
  set (f := s_f s) in *. set (f1 := set_ff _ _).
  unfold rget at 1. destruct (dget arm (fivar f1)) as [iv|] eqn:Ei; [|exact I]. cbn [of_option rbind].
  set (f2 := mut_ref (ri f1) _ f1). unfold rget at 1. destruct (dget arm (fivar_sm f2)) as [sm|] eqn:Es; [|exact I]. cbn [of_option rbind].
  set (f3 := mut_ref (rs f2) _ f2). unfold rget at 1. destruct (dget arm (fweight f3)) as [wt|] eqn:Et; [|exact I]. cbn [of_option rbind okall].
  set (f4 := mut_ref (rw f3) _ f3). set (f5 := match dget arm (fr f4) with Some _ => _ | None => _ end).
  assert (fw f5 = dset arm (pyslice i j wv) (fw f) /\ ff f5 = dset arm (pyslice i j fl) (ff f) /\ fivar f5 = fivar f4 /\ fweight f5 = fweight f4) as (G1 & G2 & G3 & G4).
  { unfold f5. destruct (dget arm (fr f4)); repeat split. }
  assert (forall p, cuts i j arm 0 (nth p (hp f) []) (nth p (hp f1) [])) as K1 by (intro p; exists 0; split; [lia|]; change (hp f1) with (hp f); destruct (dget arm (nth p (hp f) [])); reflexivity).
  assert (cuts i j arm 1 (fivar f) (fivar f4)) as C1.
  { unfold fivar, f4, f3. cbn [mut_ref hp ri]. apply cuts_upd; [|exact Et]. apply cuts_upd; [|exact Es]. unfold f2. cbn [mut_ref hp ri]. apply cuts_one; [apply K1|exact Ei]. }
  assert (cuts i j arm 1 (fweight f) (fweight f4)) as C2.
  { unfold fweight, f4. cbn [mut_ref hp rw]. apply cuts_one; [|exact Et]. unfold f3. cbn [mut_ref hp rw]. apply cuts_upd; [|exact Es]. unfold f2. cbn [mut_ref hp rw]. apply cuts_upd; [apply K1|exact Ei]. }
  assert (forall arm', arm' <> arm -> dget arm' (fivar f4) = dget arm' (fivar f) /\ dget arm' (fweight f4) = dget arm' (fweight f)) as O.
  { intros arm' N. unfold fivar, fweight, f4, f3, f2. cbn [mut_ref hp ri rw]. now rewrite !cuts_other by exact N. }
  clearbody f5. clearbody f4. clear f3 Et f2 Es Ei K1.
  match goal with |- s_cat ?x = _ /\ _ => assert (s_cat x = s_cat s /\ s_f x = f5) as (A1 & A2) by (destruct (dget arm (s_cont _)); split; reflexivity) end.
  rewrite A1, A2. clear A1 A2. split; [reflexivity|]. split; [rewrite G1; rewrite dkeys_dset; unfold dmem; now rewrite Ew|]. split.
  - intros wv' E'. rewrite G1, dget_dset_same in E'. injection E' as <-. destruct (HW wv Ew) as (W1 & W2 & W3). destruct (HF wv Ew) as (F1 & F2). rewrite G2, G3, G4.
    assert (forall d0 d, cuts i j arm 1 d0 d -> (forall v, dget arm d0 = Some v -> zeroed_if wv v) -> (forall v, dget arm d0 = Some v -> length v = length wv) ->
      forall v, dget arm d = Some v -> zeroed_if (pyslice i j wv) v) as G.
    { intros d0 d (c & Hc & Ec) H1 H2 v Ev L k x u Nx Dx Nu. rewrite Ev in Ec. destruct (dget arm d0) as [v0|] eqn:E0; [|discriminate]. cbn in Ec. injection Ec as ->.
      destruct c as [|c]; [lia|]. specialize (H1 v0 eq_refl). specialize (H2 v0 eq_refl). rewrite <- (pyslice_len i j v0 wv H2) in L. rewrite (cut_same i j c v0 L) in Nu.
      destruct (pyslice_at i j wv v0 k x u (eq_sym H2) Nx Nu) as (k' & B1 & B2). exact (H1 H2 k' x u B1 Dx B2). }
    split; [|split].
    + intros fl' Efl. rewrite dget_dset_same in Efl. injection Efl as <-. apply pyslice_len. now apply W1.
    + exact (G _ _ C1 W2 F1).
    + exact (G _ _ C2 W3 F2).
  - intros arm' N. destruct (O arm' N) as (O1 & O2). unfold arm_weak, arm_fits. rewrite G1, G2, G3, G4, !dget_dset_other, O1, O2 by exact N. split; auto.
Qed.
End Arm.

Section Exposure.
Variable D : catrow -> Qc -> Prop.
Definition weak (s : spec) : Prop := forall arm, arm_weak (D (s_cat s)) (s_f s) arm.
Lemma match_weak dw c s : weak s -> (forall arm, arm_fits (s_f s) arm) -> NoDup (dkeys (fw (s_f s))) ->
  okall (fun s' => weak s' /\ NoDup (dkeys (fw (s_f s')))) (match_exposure dw c s).
Proof.
  intros HW HF Nd. unfold match_exposure. set (s0 := set_cont _ _). 
  assert (s_cat s0 = s_cat s /\ s_f s0 = s_f s) as (A1 & A2) by (split; reflexivity). rewrite A2.
  assert (weak s0) as W0 by (unfold weak; now rewrite A1, A2). 
  assert (forall arm, In arm (dkeys (fw (s_f s))) -> arm_fits (s_f s0) arm) as F0 by (intros; rewrite A2; apply HF).
  assert (NoDup (dkeys (fw (s_f s0)))) as N0 by (now rewrite A2). clear A1 A2 HW HF. clearbody s0.
  revert s0 W0 F0 N0. induction (fw (s_f s)) as [|[arm wv] l IH]; intros s0 W0 F0 N0; [split; assumption|]. cbn [for_each].
  inversion Nd as [|? ? Ni Nd']; subst. assert (okall (fun s1 => weak s1 /\ (forall arm', In arm' (dkeys l) -> arm_fits (s_f s1) arm') /\ NoDup (dkeys (fw (s_f s1)))) (match_arm dw c (arm, wv) s0)) as K.
  { unfold match_arm. destruct (dget _ _); [|exact I]. do 4 (apply okall_bind; intro). destruct (if (_ <? 0)%Z then _ else _) as [i1 j1]. destruct (if (_ <? 0)%Z then _ else _) as [i2 j2]. cbv zeta.
    eapply okall_bind2; [apply (slice_weak (D (s_cat s0)) arm i1 i2 s0 (W0 arm)); apply F0; now left|]. intros s1 (E1 & E2 & E3 & E4).
    do 2 (apply okall_bind; intro). cbn [okall]. match goal with |- context [if ?b then ?u else ?v] => set (s2 := if b then u else v) end.
    assert (s_cat s2 = s_cat s1 /\ s_f s2 = s_f s1) as (B1 & B2) by (unfold s2; destruct (_ =? _); split; reflexivity). unfold weak. rewrite B1, B2, E1.
    split; [|split].
    - intro arm'. destruct (string_dec arm' arm) as [->|Na]; [exact E3|]. now apply E4.
    - intros arm' Ha. assert (arm' <> arm) as Na by (intros ->; now apply Ni). apply E4; [exact Na|]. apply F0. now right.
    - now rewrite E2. }
  destruct (match_arm dw c (arm, wv) s0) as [s1|]; [|exact I]. cbn [rbind okall] in *. destruct K as (K1 & K2 & K3). now apply IH.
Qed.
Lemma weak_drop dw x y z s : weak s /\ NoDup (dkeys (fw (s_f s))) -> weak (drop_short_arms dw x y z s) /\ NoDup (dkeys (fw (s_f (drop_short_arms dw x y z s)))).
Proof.
  unfold drop_short_arms. match goal with |- context [fold_left _ ?l s] => generalize l end. intro l.
  revert s. induction l as [|arm l IH]; intros s H; [exact H|]. cbn [fold_left]. apply IH. destruct H as (H & Nd).
  split; [|cbn; unfold dpop; now apply ProofCatalog.NoDup_map_filter].
  intros arm' wv E. unfold drop_arm in *. cbn [s_cat set_cont set_f s_f mut_ref fw ff set_fr set_ff set_fw] in *. rewrite dget_dpop in E. rewrite dget_dpop.
  destruct (String.eqb_spec arm' arm) as [->|N]; [discriminate|]. destruct (H arm' wv E) as (H1 & H2 & H3). split; [exact H1|].
  unfold fivar, fweight. cbn [mut_ref hp ri rw rs set_fr set_ff set_fw].
  assert (forall r (h : list (dict (list num))) p, dget arm' (nth p (upd r (dpop arm) h) []) = dget arm' (nth p h [])) as K.
  { intros r h p. destruct (nth_upd_or r (dpop arm) h p []) as [-> | ->]; [reflexivity|]. rewrite dget_dpop. destruct (String.eqb_spec arm' arm); [contradiction|reflexivity]. }
  rewrite !K. now split.
Qed.
Lemma fits_drop dw x y z s : (forall arm, arm_fits (s_f s) arm) -> forall arm, arm_fits (s_f (drop_short_arms dw x y z s)) arm.
Proof.
  unfold drop_short_arms. match goal with |- context [fold_left _ ?l s] => generalize l end. intro l.
  revert s. induction l as [|arm l IH]; intros s H; [exact H|]. cbn [fold_left]. apply IH.
  intros arm' wv E. unfold drop_arm in *. cbn [s_cat set_cont set_f s_f mut_ref fw ff set_fr set_ff set_fw] in *. rewrite dget_dpop in E.
  destruct (String.eqb_spec arm' arm) as [->|N]; [discriminate|]. destruct (H arm' wv E) as (H2 & H3).
  unfold fivar, fweight. cbn [mut_ref hp ri rw rs set_fr set_ff set_fw].
  assert (forall r (h : list (dict (list num))) p, dget arm' (nth p (upd r (dpop arm) h) []) = dget arm' (nth p h [])) as K.
  { intros r h p. destruct (nth_upd_or r (dpop arm) h p []) as [-> | ->]; [reflexivity|]. rewrite dget_dpop. destruct (String.eqb_spec arm' arm); [contradiction|reflexivity]. }
  rewrite !K. now split.
Qed.
Lemma aligned_fits s : aligned s -> forall arm, arm_fits (s_f s) arm.
Proof.
  intros A arm wv E. destruct (A arm) as (_ & A2 & _ & A4). unfold len_at in *. rewrite E in *.
  split; intros v Ev; rewrite Ev in *; cbn in *; congruence.
Qed.
Lemma M_weak s : aligned s -> M D s -> weak s.
Proof.
  intros A (H1 & _ & H3) arm wv E. destruct (A arm) as (A1 & _). unfold len_at in A1. rewrite E in A1.
  split; [intros fl Ef; rewrite Ef in A1; cbn in A1; congruence|].
  split; intros v Ev _ k x u Nx Dx Nu; [refine (H1 arm k x u _ Dx _)|refine (H3 arm k x u _ Dx _)]; unfold at_pix; now rewrite ?E, ?Ev.
Qed.
End Exposure.
