(** C32: consequences, and coadding of full spectra. *)
From Coq Require Import Field ZArith String List Bool Arith Lia Sorted Permutation Qcanon.
From Verif Require Import Num NpList NpListFacts Exn Dict ModelSpectrum SpecSpectrum SpecMasks SpecWeights SpecCoadd
  ProofSpectrum1 ProofSpectrum2 ProofMasks ProofWeights ProofCoadd ProofCoadd2.
Import ListNotations.
Local Open Scope nat_scope.

Lemma weight_nonneg_sum l : weights_ok l -> (0 <= qsum (map e_weight l))%Qc.
Proof. intro H. apply qsum_nonneg. apply Forall_map, Forall_forall. intros e He. now apply H. Qed.
Lemma weighted_average_unique l l' f i f' i' :
  weights_ok l -> Permutation l l' -> weighted_average l f i -> weighted_average l' f' i' -> f = f' /\ i = i'.
Proof.
  intros Ok P (A1 & A2) B. pose proof (weight_nonneg_sum l Ok) as W0.
  assert (forall g : entry -> Qc, qsum (map g l) = qsum (map g l')) as E.
  { intro g. apply qsum_perm. now apply Permutation_map. }
  assert (weighted_average l f' i') as (B1 & B2) by (unfold weighted_average in *; rewrite !E; exact B).
  clear B E. destruct (Qclt_le_dec 0 (qsum (map e_weight l))) as [C|C].
  - destruct (A2 C) as (-> & ->). destruct (B2 C) as (-> & ->). split; reflexivity.
  - assert (qsum (map e_weight l) = 0%Qc) as Z by (apply Qcle_antisym; easy).
    destruct (A1 Z) as (-> & ->). destruct (B1 Z) as (-> & ->). easy.
Qed.
Lemma qsum_filter_zero (p : entry -> bool) (g : entry -> Qc) l :
  (forall e, In e l -> p e = false -> g e = 0%Qc) -> qsum (map g (filter p l)) = qsum (map g l).
Proof.
  induction l as [|e l IH]; intro H; [easy|]. cbn [filter map]. rewrite qsum_cons, <- IH by (intros; apply H; auto; now right).
  destruct (p e) eqn:E; cbn [map]; rewrite ?qsum_cons; [easy|]. rewrite (H e) by (auto; now left). ring.
Qed.
(** masked pixels do not contribute *)
Lemma masked_do_not_contribute l f i :
  weights_ok l -> weighted_average l f i -> weighted_average (filter (fun e => qltb 0 (e_ivar e)) l) f i.
Proof.
  intros H A. unfold weighted_average in *.
  assert (forall e, In e l -> qltb 0 (e_ivar e) = false -> e_weight e = 0%Qc) as Z.
  { intros e He E. apply qltb_false in E. destruct (H e He) as (_ & I0 & W0). apply W0. apply Qcle_antisym; easy. }
  rewrite !qsum_filter_zero; [exact A|..].
  - intros e He E. now rewrite E.
  - intros e He E. rewrite (Z e He E). ring.
  - intros e He E. auto.
Qed.
(** inverse-variance weights *)
Lemma ivar_average l f i :
  weights_ok l -> ivar_weights l -> weighted_average l f i ->
  i = qsum (map e_ivar l) /\ (f * qsum (map e_ivar l) = qsum (map (fun e => e_ivar e * e_flux e) l))%Qc.
Proof.
  intros H Iw (A1 & A2). pose proof (weight_nonneg_sum l H) as W0.
  assert (map e_weight l = map e_ivar l) as Ew by (now apply map_ext_in).
  assert (map (fun e => e_weight e * e_flux e)%Qc l = map (fun e => e_ivar e * e_flux e)%Qc l) as Ef.
  { apply map_ext_in. intros e He. now rewrite (Iw e He). }
  assert (map (fun e => if qltb 0 (e_ivar e) then e_weight e * e_weight e / e_ivar e else 0)%Qc l = map e_ivar l) as Ev.
  { apply map_ext_in. intros e He. rewrite (Iw e He). destruct (qltb 0 (e_ivar e)) eqn:Q.
    - apply qltb_true in Q. field. intro C. rewrite C in Q. discriminate Q.
    - apply qltb_false in Q. symmetry. apply Qcle_antisym; [easy|]. now apply H. }
  rewrite Ew, Ef, Ev in *. set (S := qsum (map e_ivar l)) in *.
  destruct (Qclt_le_dec 0 S) as [C|C].
  - assert (S <> 0)%Qc as N by (intro Q; rewrite Q in C; discriminate C).
    destruct (A2 C) as (-> & ->). split; field; easy.
  - assert (S = 0%Qc) as Z by (apply Qcle_antisym; easy). destruct (A1 Z) as (-> & ->). split; [now rewrite Z|].
    rewrite Z. assert (forall e, In e l -> e_ivar e = 0%Qc) as All.
    { clear - Z H. unfold S in Z. induction l as [|a l IH]; intros e He; [easy|].
      cbn [map] in Z. rewrite qsum_cons in Z.
      assert (0 <= qsum (map e_ivar l))%Qc.
      { apply qsum_nonneg. apply Forall_map, Forall_forall. intros x Hx. apply H. now right. }
      assert (0 <= e_ivar a)%Qc by (apply H; now left).
      destruct He as [<-|He]; [apply Qcle_antisym; qlra|]. apply IH; auto; [intros x Hx; apply H; now right|].
      apply Qcle_antisym; qlra. }
    assert (qsum (map (fun e => e_ivar e * e_flux e)%Qc l) = 0%Qc) as ->; [|ring].
    rewrite <- (qsum_filter_zero (fun _ => false)).
    + now assert (filter (fun _ : entry => false) l = []) as -> by (clear; induction l; easy).
    + intros e He _. rewrite (All e He). ring.
Qed.
Lemma single_average e f i :
  weights_ok [e] -> weighted_average [e] f i ->
  ((0 < e_weight e)%Qc -> f = e_flux e /\ i = e_ivar e) /\ (e_weight e = 0%Qc -> f = 0%Qc /\ i = 0%Qc).
Proof.
  intros H (A1 & A2). cbn [map] in *. unfold qsum in *. cbn [fold_right] in *.
  assert (e_weight e + 0 = e_weight e)%Qc as E by ring. rewrite E in *. split; [|easy].
  intro C. assert (e_weight e <> 0)%Qc as N by (intro Q; rewrite Q in C; discriminate C).
  destruct (H e) as (_ & I0 & W0); [now left|].
  assert (0 < e_ivar e)%Qc as I1.
  { destruct (Qclt_le_dec 0 (e_ivar e)) as [|C']; [easy|]. exfalso. apply N, W0. apply Qcle_antisym; easy. }
  assert (e_ivar e <> 0)%Qc as N' by (intro Q; rewrite Q in I1; discriminate I1).
  destruct (A2 C) as (-> & ->). apply qltb_true in I1. rewrite I1. split; [field; easy|].
  replace (e_weight e * e_weight e / e_ivar e + 0)%Qc with (e_weight e * e_weight e / e_ivar e)%Qc by ring.
  field. easy.
Qed.

(** order of the arms *)
Lemma all_entries_perm s t :
  Permutation (fw (s_f s)) (fw (s_f t)) -> NoDup (dkeys (fw (s_f s))) ->
  (forall arm, dget arm (ff (s_f t)) = dget arm (ff (s_f s)) /\ dget arm (fivar (s_f t)) = dget arm (fivar (s_f s)) /\
     dget arm (fweight (s_f t)) = dget arm (fweight (s_f s))) ->
  Permutation (all_entries s) (all_entries t).
Proof.
  intros P N H. unfold all_entries.
  assert (NoDup (dkeys (fw (s_f t)))) as N'.
  { eapply Permutation_NoDup; [|exact N]. now apply Permutation_map. }
  assert (forall arm, dget arm (fw (s_f t)) = dget arm (fw (s_f s))) as E.
  { intro arm. destruct (dget arm (fw (s_f s))) as [x|] eqn:Q.
    - apply NoDup_dget; [easy|]. eapply Permutation_in; [exact P|]. now apply dget_In.
    - destruct (dget arm (fw (s_f t))) as [y|] eqn:Q'; [|easy]. apply dget_In in Q'.
      apply (Permutation_in _ (Permutation_sym P)) in Q'. apply NoDup_dget in Q'; [congruence|easy]. }
  assert (forall arm, arm_entries t arm = arm_entries s arm) as E'.
  { intro arm. unfold arm_entries, dlist. destruct (H arm) as (-> & -> & ->). now rewrite E. }
  rewrite (flat_map_ext (fun aw => arm_entries t (fst aw)) (fun aw => arm_entries s (fst aw))) by (intros; apply E').
  now apply Permutation_flat_map.
Qed.
Lemma smallest_unique s t x y :
  Permutation (all_entries s) (all_entries t) -> smallest s x -> smallest t y -> x = y.
Proof.
  intros P ((e & He & <-) & H1) ((e' & He' & <-) & H2). apply Qcle_antisym.
  - apply H1. eapply Permutation_in; [apply Permutation_sym|]; eauto.
  - apply H2. eapply Permutation_in; eauto.
Qed.
Lemma largest_unique s t x y :
  Permutation (all_entries s) (all_entries t) -> largest s x -> largest t y -> x = y.
Proof.
  intros P ((e & He & <-) & H1) ((e' & He' & <-) & H2). apply Qcle_antisym.
  - apply H2. eapply Permutation_in; eauto.
  - apply H1. eapply Permutation_in; [apply Permutation_sym|]; eauto.
Qed.

Definition coaddable (dw : Qc) (s : spec) : Prop :=
  proper s /\ all_finite (ff (s_f s)) /\ all_finite (fivar (s_f s)) /\ all_finite (fweight (s_f s)) /\
  uniform_arms dw s /\ weights_ok (all_entries s) /\ (s_cont s = [] \/ cont_matches s) /\ reso_fits s.

Lemma coadd_order nsqrt smooth junk junk' dw varlss eta varlss' eta' s t :
  (forall l q, length (smooth l q) = length l) -> (0 < dw)%Qc ->
  coaddable dw s -> coaddable dw t -> Permutation (fw (s_f s)) (fw (s_f t)) ->
  (forall arm, dget arm (ff (s_f t)) = dget arm (ff (s_f s)) /\ dget arm (fivar (s_f t)) = dget arm (fivar (s_f s)) /\
     dget arm (fweight (s_f t)) = dget arm (fweight (s_f s))) ->
  exists s' t', coadd_arms_forest nsqrt smooth junk dw varlss eta s = Ok s' /\
    coadd_arms_forest nsqrt smooth junk' dw varlss' eta' t = Ok t' /\
    fw (s_f s') = fw (s_f t') /\
    (forall arm k, pixel_at s' arm k = pixel_at t' arm k).
Proof.
  intros Hs Hd (P1 & A1 & A2 & A3 & A4 & A5 & A6 & A7) (P2 & B1 & B2 & B3 & B4 & B5 & B6 & B7) Pm H.
  pose proof P1 as (_ & N1 & _).
  pose proof (all_entries_perm s t Pm N1 H) as PE.
  destruct (coadd_spec nsqrt smooth Hs junk dw varlss eta s) as (s' & mn & mx & E1 & S1 & L1 & Q1 & _ & _ & W1 & K1 & _); auto.
  destruct (coadd_spec nsqrt smooth Hs junk' dw varlss' eta' t) as (t' & mn' & mx' & E2 & S2 & L2 & Q2 & _ & _ & W2 & K2 & _); auto.
  assert (mn' = mn) as -> by (symmetry; eapply smallest_unique; eauto).
  assert (mx' = mx) as -> by (symmetry; eapply largest_unique; eauto).
  exists s', t'. split; [easy|]. split; [easy|]. split; [congruence|].
  intros arm k. unfold pixel_at. rewrite W1, W2.
  destruct (at_pix [("brz"%string, linspace mn mx (grid_n mn mx dw))] arm k) as [x|] eqn:Ex; [|easy].
  unfold at_pix in Ex. cbn [dget] in Ex. destruct (String.eqb_spec arm "brz") as [->|]; [|discriminate Ex].
  assert (k < grid_n mn mx dw) as Hk.
  { rewrite <- (linspace_length mn mx (grid_n mn mx dw)). apply nth_error_Some. congruence. }
  destruct (K1 k Hk) as (f & i & -> & -> & V1). destruct (K2 k Hk) as (f' & i' & -> & -> & V2).
  assert (f = f' /\ i = i') as (-> & ->); [|easy].
  apply (weighted_average_unique (landing s mn dw k) (landing t mn dw k)); auto.
  - intros e He. apply filter_In in He as (He & _). auto.
  - unfold landing. now apply Permutation_filter.
Qed.

(** wavelengths of the coadded grid *)
Lemma linspace_nth a b n j : j < n ->
  nth_error (linspace a b n) j = Some (a + zq (Z.of_nat j) * ((b - a) / zq (Z.of_nat n - 1)))%Qc.
Proof.
  intro H. unfold linspace. rewrite nth_error_map.
  rewrite (nth_error_nth' (seq 0 n) 0) by (rewrite seq_length; lia). now rewrite seq_nth by easy.
Qed.
Lemma linspace_step a dw N j : (j <= N) ->
  nth_error (linspace a (a + zq (Z.of_nat N) * dw)%Qc (S N)) j = Some (a + zq (Z.of_nat j) * dw)%Qc.
Proof.
  intro H. rewrite linspace_nth by lia. f_equal. replace (Z.of_nat (S N) - 1)%Z with (Z.of_nat N) by lia.
  destruct N as [|N].
  - assert (j = 0) as -> by lia. change (zq (Z.of_nat 0)) with 0%Qc. ring.
  - assert (zq (Z.of_nat (S N)) <> 0)%Qc.
    { intro C. assert (zq 0 < zq (Z.of_nat (S N)))%Qc as K by (apply zq_lt; lia). rewrite C in K. discriminate K. }
    field. easy.
Qed.
Lemma on_pixel_unique mn dw j k x : (0 < dw)%Qc -> (mn <= x)%Qc ->
  on_pixel mn dw j x = true -> on_pixel mn dw k x = true -> j = k.
Proof.
  intros H L. rewrite !on_pixel_idx by easy. rewrite !Nat.eqb_eq. congruence.
Qed.
Lemma on_pixel_exact mn dw k : (0 < dw)%Qc -> on_pixel mn dw k (mn + zq (Z.of_nat k) * dw) = true.
Proof.
  intro H. unfold on_pixel. rewrite andb_true_iff, qleb_true, qltb_true.
  assert (0 < fq 1 10)%Qc by reflexivity. assert (0 < fq 9 10)%Qc by reflexivity. split; qnra.
Qed.
Lemma grid_n_exact mn dw N : (0 < dw)%Qc -> grid_n mn (mn + zq (Z.of_nat N) * dw) dw = S N.
Proof.
  intro H. assert (dw <> 0)%Qc by (intro C; rewrite C in H; discriminate H).
  unfold grid_n. replace ((mn + zq (Z.of_nat N) * dw - mn) / dw)%Qc with (zq (Z.of_nat N)) by (field; easy).
  assert (qtrunc (zq (Z.of_nat N) + fq 1 10) = Z.of_nat N) as ->; [|lia].
  assert (0 < fq 1 10)%Qc by reflexivity. assert (fq 1 10 < 1)%Qc by reflexivity.
  assert (0 <= zq (Z.of_nat N))%Qc by (change 0%Qc with (zq 0); apply zq_le; lia).
  destruct (qtrunc_spec_nonneg (zq (Z.of_nat N) + fq 1 10)%Qc) as (A1 & A2); [qlra|].
  set (q := qtrunc (zq (Z.of_nat N) + fq 1 10)%Qc) in *.
  assert (zq q < zq (Z.of_nat N + 1))%Qc as C1 by (rewrite zq_plus; change (zq 1) with 1%Qc; qlra).
  assert (zq (Z.of_nat N) < zq (q + 1))%Qc as C2 by (rewrite zq_plus; change (zq 1) with 1%Qc; qlra).
  apply (proj1 (zq_lt _ _)) in C1, C2. clear - C1 C2. lia.
Qed.
(** on a common grid every pixel is placed on its own wavelength *)
Lemma own_wavelength s dw mn mx :
  (0 < dw)%Qc -> smallest s mn -> largest s mx ->
  (forall e, In e (all_entries s) -> exists k : nat, e_wave e = (mn + zq (Z.of_nat k) * dw)%Qc) ->
  forall e, In e (all_entries s) -> exists j, j < grid_n mn mx dw /\
    nth_error (linspace mn mx (grid_n mn mx dw)) j = Some (e_wave e) /\
    In e (landing s mn dw j) /\ forall j', In e (landing s mn dw j') -> j' = j.
Proof.
  intros H ((e0 & He0 & E0) & S1) ((e1 & He1 & E1) & S2) C e He.
  destruct (C e1 He1) as (N & EN). destruct (C e He) as (k & Ek).
  assert (mx = mn + zq (Z.of_nat N) * dw)%Qc as -> by congruence. rewrite grid_n_exact by easy.
  assert (k <= N) as Hk.
  { pose proof (S2 e He) as L. rewrite Ek in L.
    destruct (le_lt_dec k N) as [|G]; [easy|]. exfalso.
    assert (zq (Z.of_nat N) < zq (Z.of_nat k))%Qc as G' by (apply zq_lt; lia).
    assert (zq (Z.of_nat N) * dw < zq (Z.of_nat k) * dw)%Qc by (now apply Qcmult_lt_compat_r). qlra. }
  exists k. split; [lia|]. split; [rewrite linspace_step by lia; now rewrite Ek|].
  assert (on_pixel mn dw k (e_wave e) = true) as On by (rewrite Ek; now apply on_pixel_exact).
  split; [apply filter_In; auto|]. intros j' Hj. apply filter_In in Hj as (_ & Hj).
  apply (on_pixel_unique mn dw j' k (e_wave e)); auto.
Qed.

(** every pixel lands on exactly one pixel of the array, on any grid *)
Lemma lands_once s dw mn mx :
  (0 < dw)%Qc -> smallest s mn -> largest s mx ->
  forall e, In e (all_entries s) -> exists j, j < grid_n mn mx dw /\ In e (landing s mn dw j) /\
    forall j', In e (landing s mn dw j') -> j' = j.
Proof.
  intros H (_ & S1) (_ & S2) e He. pose proof (S1 e He) as L1. pose proof (S2 e He) as L2.
  pose proof (grid_bound mn mx dw _ H L1 L2) as B. pose proof (pix_idx_nonneg mn dw _ H L1) as B0.
  exists (Z.to_nat (pix_idx mn dw (e_wave e))). split; [lia|].
  assert (on_pixel mn dw (Z.to_nat (pix_idx mn dw (e_wave e))) (e_wave e) = true) as On
    by (rewrite on_pixel_idx by easy; apply Nat.eqb_refl).
  split; [apply filter_In; auto|]. intros j' Hj. apply filter_In in Hj as (_ & Hj).
  apply (on_pixel_unique mn dw j' _ (e_wave e)); auto.
Qed.
(** pixels of one arm never share a coadded pixel *)
Lemma filter_one {A} (p : A -> bool) l x : In x l -> p x = true -> (forall y, In y l -> p y = true -> y = x) -> NoDup l ->
  filter p l = [x].
Proof.
  induction l as [|a l IH]; intros Hx Px U N; [easy|]. inversion N as [|? ? N1 N2]; subst. cbn.
  destruct (p a) eqn:Pa.
  - assert (a = x) as -> by (apply U; [now left|easy]).
    assert (filter p l = []) as ->; [|easy].
    destruct (filter p l) as [|y r] eqn:E; [easy|]. exfalso.
    assert (In y (filter p l)) as Hy by (rewrite E; now left). apply filter_In in Hy as (Hy & Py).
    assert (y = x) as -> by (apply U; [now right|easy]). contradiction.
  - destruct Hx as [->|Hx]; [congruence|]. apply IH; auto. intros y Hy. apply U. now right.
Qed.

(** ** A single arm *)
Lemma single_arm_landing s dw arm w mn :
  proper s -> all_finite (ff (s_f s)) -> all_finite (fivar (s_f s)) -> all_finite (fweight (s_f s)) ->
  (0 < dw)%Qc -> fw (s_f s) = [(arm, w)] -> uniform dw w -> (forall x, In x w -> (mn <= x)%Qc) ->
  forall e j, In e (all_entries s) -> on_pixel mn dw j (e_wave e) = true -> landing s mn dw j = [e].
Proof.
  intros P F1 F2 F3 H Ew U B e j He Hj.
  assert (dget arm (fw (s_f s)) = Some w) as Eg by (rewrite Ew; cbn; now rewrite String.eqb_refl).
  destruct (arm_entries_parts s arm w P F1 F2 F3 Eg) as (Ex & _).
  assert (all_entries s = arm_entries s arm) as EA by (unfold all_entries; rewrite Ew; cbn; apply app_nil_r).
  assert (NoDup (map (fun e => pix_idx mn dw (e_wave e)) (all_entries s))) as N.
  { rewrite EA, <- (map_map e_wave). rewrite Ex.
    assert (forall l, StronglySorted (fun a b => (a + dw <= b)%Qc) l -> (forall x, In x l -> (mn <= x)%Qc) -> NoDup (map (pix_idx mn dw) l)) as G.
    { clear - H. intros l S. induction S as [|x l S IH F]; intro B; cbn; [constructor|]. constructor.
      - intro C. apply in_map_iff in C as (y & E & Hy). rewrite Forall_forall in F. specialize (F y Hy).
        assert (pix_idx mn dw x < pix_idx mn dw y)%Z; [|lia]. apply pix_idx_step; auto. apply B. now left.
      - apply IH. intros y Hy. apply B. now right. }
    apply G; [now apply gaps_sorted|easy]. }
  assert (forall x, In x (all_entries s) -> (mn <= e_wave x)%Qc) as B'.
  { intros x Hx. apply B. rewrite <- Ex, <- EA. now apply in_map. }
  unfold landing. apply filter_one; auto; [|eapply NoDup_map_inv; exact N].
  intros y Hy Py. rewrite on_pixel_idx in Hj, Py by auto. apply Nat.eqb_eq in Hj, Py.
  pose proof (pix_idx_nonneg mn dw _ H (B' y Hy)). pose proof (pix_idx_nonneg mn dw _ H (B' e He)).
  assert (pix_idx mn dw (e_wave y) = pix_idx mn dw (e_wave e)) as E by lia.
  clear - N Hy He E. induction (all_entries s) as [|a l IH]; [easy|]. cbn in N. inversion N as [|? ? N1 N2]; subst.
  destruct Hy as [->|Hy], He as [->|He]; auto.
  - exfalso. apply N1. rewrite E. now apply (in_map (fun e => pix_idx mn dw (e_wave e))).
  - exfalso. apply N1. rewrite <- E. now apply (in_map (fun e => pix_idx mn dw (e_wave e))).
Qed.

Lemma uniform_nth dw w : uniform dw w -> forall k x0 x, nth_error w 0 = Some x0 -> nth_error w k = Some x ->
  x = (x0 + zq (Z.of_nat k) * dw)%Qc.
Proof.
  intros U k. induction k as [|k IH]; intros x0 x E0 E.
  - assert (x = x0) as -> by congruence. change (zq (Z.of_nat 0)) with 0%Qc. ring.
  - assert (k < length w) as Hk by (apply Nat.lt_succ_l, nth_error_Some; congruence).
    apply nth_error_Some in Hk. destruct (nth_error w k) as [y|] eqn:Ey; [|easy].
    rewrite (U k y x Ey E), (IH x0 y E0 eq_refl). rewrite Nat2Z.inj_succ, <- Z.add_1_r, zq_plus.
    change (zq 1) with 1%Qc. ring.
Qed.

(** ** Coadding of a single arm changes nothing at good pixels *)
Lemma coadd_single nsqrt smooth junk dw varlss eta s arm w :
  (forall l q, length (smooth l q) = length l) -> (0 < dw)%Qc ->
  coaddable dw s -> fw (s_f s) = [(arm, w)] ->
  exists s', coadd_arms_forest nsqrt smooth junk dw varlss eta s = Ok s' /\
    fw (s_f s') = [("brz"%string, w)] /\
    forall k p wt, pixel_at s arm k = Some p -> at_pix (fweight (s_f s)) arm k = Some (Fin wt) ->
      ((0 < wt)%Qc -> pixel_at s' "brz" k = Some p) /\
      (wt = 0%Qc -> pixel_at s' "brz" k = Some (mkPix (p_wave p) n0 n0)).
Proof.
  intros Hs Hd (P & F1 & F2 & F3 & U & Wk & Hc & Hr) Ew.
  destruct (coadd_spec nsqrt smooth Hs junk dw varlss eta s) as (s' & mn & mx & E & Smn & Smx & _ & _ & _ & W & K & _); auto.
  assert (dget arm (fw (s_f s)) = Some w) as Eg by (rewrite Ew; cbn; now rewrite String.eqb_refl).
  destruct (proj2 U arm w Eg) as (Hw & Uw). pose proof P as (_ & _ & Asc & _). specialize (Asc arm w Eg).
  destruct (arm_entries_parts s arm w P F1 F2 F3 Eg) as (Ex & Ewt & Ef & Ei).
  assert (all_entries s = arm_entries s arm) as EA by (unfold all_entries; rewrite Ew; cbn; apply app_nil_r).
  destruct w as [|x0 w'] eqn:Q; [easy|]. rewrite <- Q in *.
  assert (nth_error w 0 = Some x0) as E0 by now rewrite Q.
  assert (forall x, In x w -> (mn <= x)%Qc) as B.
  { intros x Hx. rewrite <- Ex in Hx. apply in_map_iff in Hx as (e & <- & He). apply Smn. now rewrite EA. }
  assert (mn = x0) as Emn.
  { apply Qcle_antisym; [apply B; rewrite Q; now left|]. destruct Smn as ((e & He & <-) & _).
    rewrite EA in He. apply (in_map e_wave) in He. rewrite Ex in He. apply In_nth_error in He as (k & Ek).
    rewrite (uniform_nth dw w Uw k x0 _ E0 Ek).
    assert (0 <= zq (Z.of_nat k))%Qc by (change 0%Qc with (zq 0); apply zq_le; lia). qnra. }
  assert (mx = x0 + zq (Z.of_nat (length w')) * dw)%Qc as Emx.
  { assert (exists xl, nth_error w (length w') = Some xl) as (xl & El).
    { destruct (nth_error w (length w')) eqn:Z; [eauto|]. apply nth_error_None in Z. rewrite Q in Z. cbn in Z. lia. }
    pose proof (uniform_nth dw w Uw _ _ _ E0 El) as Exl. rewrite <- Exl.
    apply Qcle_antisym.
    - destruct Smx as ((e & He & <-) & _). rewrite EA in He. apply (in_map e_wave) in He. rewrite Ex in He.
      apply In_nth_error in He as (k & Ek). rewrite Exl, (uniform_nth dw w Uw k x0 _ E0 Ek).
      assert (k < length w) as Hk by (apply nth_error_Some; congruence). rewrite Q in Hk. cbn in Hk.
      assert (zq (Z.of_nat k) <= zq (Z.of_nat (length w')))%Qc by (apply zq_le; lia).
      assert (zq (Z.of_nat k) * dw <= zq (Z.of_nat (length w')) * dw)%Qc
        by (apply Qcmult_le_compat_r; [easy|now apply Qclt_le_weak]). qlra.
    - apply nth_error_In in El. rewrite <- Ex in El. apply in_map_iff in El as (e & <- & He). apply Smx. now rewrite EA. }
  assert (grid_n mn mx dw = length w) as En.
  { rewrite Emx, Emn, grid_n_exact by easy. now rewrite Q. }
  assert (linspace mn mx (grid_n mn mx dw) = w) as Elin.
  { apply list_eq_nth_error. intro k. destruct (le_lt_dec (length w) k) as [G|G].
    - rewrite (proj2 (nth_error_None w k)) by easy. apply nth_error_None. rewrite linspace_length. lia.
    - rewrite En, Q. cbn [length]. rewrite Emx, Emn. rewrite Q in G. cbn in G. rewrite linspace_step by lia.
      symmetry. rewrite <- Q. assert (k < length w) as G' by (rewrite Q; cbn; lia). apply nth_error_Some in G'.
      destruct (nth_error w k) as [y|] eqn:Ey; [|easy]. now rewrite (uniform_nth dw w Uw k x0 y E0 Ey). }
  exists s'. split; [easy|]. rewrite W, Elin. split; [easy|]. intros k p wt Hp Hwt.
  unfold pixel_at, at_pix in Hp, Hwt. rewrite Eg, Ef, Ei in Hp. rewrite Ewt in Hwt. rewrite <- Ex in Hp.
  rewrite !map_map, !nth_error_map in Hp. rewrite map_map, nth_error_map in Hwt.
  destruct (nth_error (arm_entries s arm) k) as [e|] eqn:Ee; [|discriminate Hp]. cbn in Hp, Hwt.
  injection Hwt as <-. injection Hp as <-.
  assert (In e (all_entries s)) as He by (rewrite EA; eapply nth_error_In; eauto).
  assert (nth_error w k = Some (e_wave e)) as Ek by (rewrite <- Ex, nth_error_map, Ee; easy).
  assert (k < length w) as Hk by (apply nth_error_Some; congruence).
  assert (on_pixel mn dw k (e_wave e) = true) as On.
  { rewrite (uniform_nth dw w Uw k x0 _ E0 Ek), Emn. now apply on_pixel_exact. }
  destruct (K k) as (f & i & H1 & H2 & Av); [lia|].
  rewrite (single_arm_landing s dw arm w mn P F1 F2 F3 Hd Ew Uw B e k He On) in Av.
  apply single_average in Av as (V1 & V2).
  - unfold pixel_at. rewrite H1, H2. rewrite W, Elin, at_pix_single, Ek. split; intro C.
    + destruct (V1 C) as (-> & ->). easy.
    + destruct (V2 C) as (-> & ->). easy.
  - intros e' [<-|[]]. now apply Wk.
Qed.

(** ** Full spectra (simple_coadd) *)
Lemma simple_coadd_spec st s :
  s_wave s = st_wave st -> coadd_grid_fresh st ->
  NoDup (dkeys (s_wave s)) -> data_matches_grid s ->
  (forall arm w, dget arm (s_wave s) = Some w -> ascending w) ->
  all_finite (s_flux s) -> all_finite (s_ivar s) ->
  (0 < st_dwave st)%Qc -> uniform_arms (st_dwave st) (full_spectrum s) ->
  (forall e, In e (all_entries (full_spectrum s)) -> (0 <= e_ivar e)%Qc) ->
  reso_fits (full_spectrum s) ->
  let dw := st_dwave st in
  exists st' s' mn n, simple_coadd st s = Ok (st', s') /\ smallest (full_spectrum s) mn /\
    st_wave st' = st_wave st /\ s_wave s' = [("brz"%string, map (fun j => mn + zq (Z.of_nat j) * dw)%Qc (seq 0 n))] /\
    (forall e, In e (all_entries (full_spectrum s)) ->
       exists j, j < n /\ In e (landing (full_spectrum s) mn dw j) /\
         forall j', In e (landing (full_spectrum s) mn dw j') -> j' = j) /\
    forall j, j < n -> exists f i, at_pix (s_flux s') "brz" j = Some (Fin f) /\ at_pix (s_ivar s') "brz" j = Some (Fin i) /\
      let l := landing (full_spectrum s) mn dw j in
      i = qsum (map e_ivar l) /\ (f * i = qsum (map (fun e => e_ivar e * e_flux e) l))%Qc /\
      (i = 0%Qc -> f = 0%Qc).
Proof.
  intros Ew Fr Nd Dm Asc Ff Fi Hd U I0 (par & Hr). cbn zeta. set (dw := st_dwave st) in *. set (t := full_spectrum s) in *.
  assert (proper t) as P.
  { split; [|split; [|split]]; [|exact Nd|exact Asc|repeat split; cbn; lia].
    intro arm. destruct (Dm arm) as (D1 & D2). repeat split; auto. }
  change (s_flux s) with (ff (s_f t)) in Ff. change (s_ivar s) with (fivar (s_f t)) in Fi.
  assert (all_finite (fweight (s_f t))) as Fw by exact Fi.
  pose proof P as (A & _).
  assert (ivar_weights (all_entries t)) as Iw.
  { intros e He. apply in_all_entries in He as (arm & x & Hin & He); auto.
    unfold arm_entries in He. unfold dlist in He.
    change (fweight (s_f t)) with (fivar (s_f t)) in He. revert He. clear.
    generalize (match dget arm (fw (s_f t)) with Some l => l | None => [] end).
    generalize (match dget arm (fivar (s_f t)) with Some l => l | None => [] end).
    generalize (match dget arm (ff (s_f t)) with Some l => l | None => [] end).
    intros f i w. revert f w. induction i as [|a i IH]; intros f w He; destruct w as [|b w], f as [|c f]; try easy.
    cbn in He. destruct He as [<-|He]; [easy|]. eapply IH; eauto. }
  assert (weights_ok (all_entries t)) as Wk.
  { intros e He. rewrite (Iw e He). auto. }
  destruct (coadd_limits t dw P Ff Fi Fw U) as (fs & ls & mn & mx & Efs & Els & Emn & Emx & Smn & Smx).
  change (fw (s_f t)) with (s_wave s) in Efs, Els. rewrite Ew in Efs, Els.
  assert (mn <= mx)%Qc as Hmm.
  { destruct Smn as ((e & He & <-) & _). now apply Smx. }
  assert (exists st' N, set_coadd_wave st = Ok st' /\ st_wave st' = st_wave st /\ st_dwave st' = dw /\
     st_coadd st' = [("brz"%string, linspace mn (mn + zq (Z.of_nat N) * dw)%Qc (S N))] /\ (pix_idx mn dw mx <= Z.of_nat N)%Z)
    as (st' & N & Est & Sw & Sd & Sc & HN).
  { pose proof (pix_arg_nonneg mn dw mx Hd Hmm) as Pa.
    assert (forall st0, st_coadd st0 = [] -> st_wave st0 = st_wave st -> st_dwave st0 = dw ->
      exists st', set_coadd_wave st0 = Ok st' /\ st_wave st' = st_wave st /\ st_dwave st' = dw /\
      exists N, st_coadd st' = [("brz"%string, linspace mn (mn + zq (Z.of_nat N) * dw)%Qc (S N))] /\ (pix_idx mn dw mx <= Z.of_nat N)%Z) as G.
    { intros st0 G1 G2 G3. unfold set_coadd_wave. rewrite G1, G2, G3. cbn [dtrue]. rewrite Efs, Els. cbn [rbind].
      rewrite Emn, Emx. cbn [rbind]. eexists. split; [reflexivity|]. split; [easy|]. split; [easy|].
      pose proof (qround_ge_floor ((mx - mn) / dw + fq 1 10)%Qc) as R.
      rewrite <- qtrunc_nonneg in R by easy. fold (pix_idx mn dw mx) in R.
      pose proof (pix_idx_nonneg mn dw mx Hd Hmm) as R0.
      exists (Z.to_nat (qround ((mx - mn) / dw + fq 1 10)%Qc)).
      cbn [st_coadd]. rewrite Z2Nat.id by lia. split; [|easy]. do 3 f_equal. lia. }
    destruct Fr as [Fr|(st0 & G1 & G2 & G3 & G4)].
    - destruct (G st Fr eq_refl eq_refl) as (st' & E & ? & ? & N & ? & ?). exists st', N. auto.
    - destruct (G st0 G1 G2 G3) as (st' & E & ? & ? & N & Q & ?). assert (st' = st) as -> by congruence.
      exists st, N. repeat (split; [|easy || auto]); auto. unfold set_coadd_wave. rewrite Q. cbn. easy. }
  assert (linspace mn (mn + zq (Z.of_nat N) * dw)%Qc (S N) = map (fun j => mn + zq (Z.of_nat j) * dw)%Qc (seq 0 (S N))) as El.
  { apply list_eq_nth_error. intro k. destruct (le_lt_dec (S N) k) as [G|G].
    - rewrite !(proj2 (nth_error_None _ k)); [easy|now rewrite map_length, seq_length|now rewrite linspace_length].
    - rewrite linspace_step by lia. rewrite nth_error_map.
      rewrite (nth_error_nth' (seq 0 (S N)) 0) by (rewrite seq_length; lia). now rewrite seq_nth by easy. }
  rewrite El in Sc.
  remember (map (fun j => mn + zq (Z.of_nat j) * dw)%Qc (seq 0 (S N))) as grid eqn:Hgrid.
  assert (rfirst grid = Ok mn) as Hfirst.
  { rewrite Hgrid. cbn. f_equal. change (zq 0) with 0%Qc. ring. }
  assert (length grid = S N) as Hlen by (rewrite Hgrid; now rewrite map_length, seq_length).
  assert (forall e, In e (all_entries t) -> (mn <= e_wave e)%Qc /\ (pix_idx mn dw (e_wave e) < Z.of_nat (S N))%Z) as B.
  { intros e He. assert (mn <= e_wave e)%Qc as B1 by now apply Smn. split; [easy|].
    assert (e_wave e <= mx)%Qc as B2 by now apply Smx.
    pose proof (pix_idx_mono mn dw _ _ Hd B1 B2). lia. }
  assert (forall arm x, In (arm, x) (fw (s_f t)) -> dget arm (fw (s_f t)) = Some x /\ uniform dw x /\
     forall y, In y x -> (mn <= y)%Qc /\ (pix_idx mn dw y < Z.of_nat (S N))%Z) as K.
  { intros arm x Hin. pose proof (NoDup_dget _ _ _ Nd Hin) as E. split; [easy|]. split; [exact (proj2 (proj2 U arm x E))|].
    intros y Hy. destruct (proj1 (wave_of_entry t P Ff Fi Fw y)) as (e & He & <-); [eauto|]. now apply B. }
  unfold simple_coadd. rewrite Est. cbn [rbind]. rewrite Sc.
  change (rget "brz" [("brz"%string, grid)]) with (Ok grid). cbn [rbind].
  rewrite Hfirst. cbn [rbind]. rewrite Hlen.
  rewrite Sd, repr_zero.
  pose proof (coadd_loop t mn dw (S N) (fw (s_f t)) P Ff Fi Fw Hd K) as L.
  specialize (L (fun _ => 0%Qc) (fun _ => 0%Qc) (fun _ => 0%Qc)).
  assert (forall a, for_each (s_wave s) (fun (aw : string * list Qc) (a : coadd_acc) =>
      rbind (rget (fst aw) (s_ivar s)) (fun iv =>
      rbind (rget (fst aw) (s_flux s)) (fun fl =>
      coadd_one (map (pix_idx mn dw) (snd aw)) iv fl iv a))) a =
    for_each (fw (s_f t)) (fun aw (a : coadd_acc) =>
      rbind (rget (fst aw) (fweight (s_f t))) (fun w =>
      rbind (rget (fst aw) (fivar (s_f t))) (fun iv =>
      rbind (rget (fst aw) (ff (s_f t))) (fun fl =>
      coadd_one (map (pix_idx mn dw) (snd aw)) w fl iv a)))) a) as Q.
  { intro a. change (fw (s_f t)) with (s_wave s). apply for_each_ext. intros p acc _. change (fweight (s_f t)) with (s_ivar s).
    change (fivar (s_f t)) with (s_ivar s). change (ff (s_f t)) with (s_flux s).
    destruct (rget (fst p) (s_ivar s)); easy. }
  rewrite Q, L. cbn [rbind]. fold (all_entries t).
  set (Fs := fun j : nat => _). set (Is := fun j : nat => (_ + qsum (map e_wv _))%Qc).
  set (Ns := fun j : nat => (_ + qsum (map e_weight _))%Qc).
  pose proof (coadd_finish_nth (S N) Fs Is Ns) as Fin'.
  destruct (coadd_finish (mkCo (repr (S N) Fs) (repr (S N) Is) (repr (S N) Ns))) as [cfl civ].
  assert (exists reso1, (if dtrue (s_reso s) then
           rmap (fun m => [("brz"%string, m)])
             (coadd_reso (S N) (dmap (map (pix_idx mn dw)) (s_wave s)) (s_ivar s) (s_reso s))
         else Ok []) = Ok reso1) as (reso1 & ->).
  { destruct (dtrue (s_reso s)); [|eauto].
    destruct (coadd_reso_total mn dw (S N) (s_wave s) (s_ivar s) (s_reso s) par) as (r & -> & _); [|cbn; eauto].
    intros arm m Hin. destruct (Hr arm m Hin) as (Hp & x & Ex & Fm). split; [easy|].
    destruct (A arm) as (_ & _ & _ & L4). destruct (len_dget _ _ _ _ L4 Ex) as (w & Ew' & Lw).
    exists x, w. repeat split; auto.
    destruct (K arm x) as (_ & Ux & Bx); [now apply dget_In|]. now apply (arm_indices mn dw (S N) x Hd Ux). }
  cbn [rbind]. eexists _, _, mn, (S N). split; [reflexivity|]. cbn [s_wave s_flux s_ivar].
  split; [easy|]. split; [easy|]. split; [now rewrite Hgrid|]. split.
  { intros e He. destruct (B e He) as (B1 & B2). pose proof (pix_idx_nonneg mn dw _ Hd B1) as B0.
    exists (Z.to_nat (pix_idx mn dw (e_wave e))). split; [lia|].
    assert (on_pixel mn dw (Z.to_nat (pix_idx mn dw (e_wave e))) (e_wave e) = true) as On
      by (rewrite on_pixel_idx by easy; apply Nat.eqb_refl).
    split; [apply filter_In; auto|]. intros j' Hj. apply filter_In in Hj as (_ & Hj).
    apply (on_pixel_unique mn dw j' _ (e_wave e)); auto. }
  intros j Hj. rewrite !at_pix_single. destruct (Fin' j) as (_ & _ & Hfin). destruct (Hfin Hj) as (-> & ->).
  assert (weights_ok (landing t mn dw j)) as Wj.
  { intros e He. apply filter_In in He as (He & _). now apply Wk. }
  assert (ivar_weights (landing t mn dw j)) as Ij.
  { intros e He. apply filter_In in He as (He & _). now apply Iw. }
  destruct (sums_average (landing t mn dw j) Wj) as (f & i & Ef & Ei & Av).
  assert (Fs j = qsum (map e_wf (landing t mn dw j))) as -> by (unfold Fs, landed, landing; ring).
  assert (Is j = qsum (map e_wv (landing t mn dw j))) as -> by (unfold Is, landed, landing; ring).
  assert (Ns j = qsum (map e_weight (landing t mn dw j))) as -> by (unfold Ns, landed, landing; ring).
  exists f, i. rewrite Ef, Ei. split; [easy|]. split; [easy|].
  destruct (ivar_average _ f i Wj Ij Av) as (-> & V). split; [easy|]. split; [easy|].
  intro Z. destruct Av as (Av & _). assert (map e_weight (landing t mn dw j) = map e_ivar (landing t mn dw j)) as M by (now apply map_ext_in).
  rewrite M in Av. now apply Av.
Qed.
