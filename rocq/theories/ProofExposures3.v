(** Proofs about exposures inheriting the continuum: overlapping grids. *)
From Coq Require Import ZArith String List Bool Arith Lia Qcanon Field.
From Verif Require Import Num NpList NpListFacts Exn Dict ModelSpectrum ModelExposures SpecSpectrum SpecWeights
  ProofSpectrum1 ProofCoadd3 SpecExposures ProofExposures ProofExposures2.
Import ListNotations.
Local Open Scope nat_scope.

Lemma cut_exists dw w wc : w <> [] -> wc <> [] -> exists i1 i2 j1 j2, cut dw w wc i1 i2 j1 j2.
Proof.
  intros H1 H2.
  assert (forall l : list Qc, l <> [] -> (exists x, rfirst l = Ok x) /\ exists x, rlast l = Ok x) as K.
  { intros l Hl. split; [destruct l; [easy|]; now eexists|]. unfold rlast.
    destruct (rev l) eqn:E; [|now eexists]. apply (f_equal (@rev _)) in E. rewrite rev_involutive in E. now subst l. }
  destruct (K w H1) as [(w0 & E0) (wl & E3)]. destruct (K wc H2) as [(c0 & E1) (cl & E2)].
  do 4 eexists. exists w0, c0, cl, wl. repeat (split; [eassumption|]). now repeat split.
Qed.
Lemma cut_det dw w wc i1 i2 j1 j2 i1' i2' j1' j2' : cut dw w wc i1 i2 j1 j2 -> cut dw w wc i1' i2' j1' j2' ->
  i1 = i1' /\ i2 = i2' /\ j1 = j1' /\ j2 = j2'.
Proof.
  intros (a & b & c & d & E1 & E2 & E3 & E4 & F1 & F2 & F3 & F4) (a' & b' & c' & d' & E1' & E2' & E3' & E4' & F1' & F2' & F3' & F4').
  assert (a = a') as <- by congruence. assert (b = b') as <- by congruence.
  assert (c = c') as <- by congruence. assert (d = d') as <- by congruence. now subst.
Qed.

Lemma match_arm_ok dw coadd arm w wc cc i1 i2 j1 j2 s s1 :
  dget arm (fw (s_f s)) = Some w -> dget arm (s_cont s) = None ->
  dget arm (fw (s_f coadd)) = Some wc -> dget arm (s_cont coadd) = Some cc -> cut dw w wc i1 i2 j1 j2 ->
  spec_slice_z arm i1 i2 s = Ok s1 ->
  exists s', match_arm dw coadd (arm, w) s = Ok s' /\ s_f s' = s_f s1.
Proof.
  intros Hw Hc Ewc Ecc (w0 & c0 & cl & wl & E0 & E1 & E2 & E3 & I1 & J1 & I2 & J2) Es.
  unfold match_arm. rewrite Ewc, E0, E1, E2, E3. cbn [rbind].
  set (r1 := qround ((w0 - c0) / dw)) in *. set (r2 := qround ((cl - wl) / dw)) in *.
  assert ((if (r1 <? 0)%Z then (- r1, 0)%Z else (0%Z, r1)) = (i1, j1)) as ->.
  { destruct (Z.ltb_spec r1 0); f_equal; lia. }
  assert ((if (r2 <? 0)%Z then (Z.of_nat (length w) + r2, 0)%Z else (Z.of_nat (length w), r2)) = (i2, Z.max 0 r2)) as ->.
  { destruct (Z.ltb_spec r2 0); f_equal; lia. }
  rewrite Es. cbn [rbind]. rewrite (proj2 (rget_Ok arm (s_cont coadd) cc) Ecc). cbn [rbind].
  destruct (slice_z_frame arm i1 i2 s s1 w Hw Hc Es) as (S1 & _).
  cbn [s_f set_cont]. rewrite (proj2 (rget_Ok arm (fw (s_f s1)) _) S1). cbn [rbind].
  eexists. split; [reflexivity|]. match goal with |- context [if ?b then _ else _] => destruct b end; reflexivity.
Qed.

Lemma match_loop2 dw coadd l : forall s, refs_ok (s_f s) -> NoDup (map fst l) ->
  (forall a w, In (a, w) l -> dget a (fw (s_f s)) = Some w /\ dget a (s_cont s) = None /\ arm_aligned s a /\
     exists wc cc i1 i2 j1 j2, dget a (fw (s_f coadd)) = Some wc /\ dget a (s_cont coadd) = Some cc /\
       cut dw w wc i1 i2 j1 j2 /\ (0 <= i2)%Z) ->
  exists s', for_each l (match_arm dw coadd) s = Ok s' /\
    (forall a, ~ In a (map fst l) -> same_arrays a s s') /\
    (forall a w wc i1 i2 j1 j2, In (a, w) l -> dget a (fw (s_f coadd)) = Some wc -> cut dw w wc i1 i2 j1 j2 ->
       i1 = 0%Z \/ unaliased (s_f s) -> cut_to a (Z.to_nat i1) (Z.to_nat i2) s s').
Proof.
  induction l as [|[a w] l IH]; intros s R N H; cbn [for_each].
  - exists s. split; [easy|]. split; [now repeat split|easy].
  - cbn [map fst] in N. inversion N as [|? ? N1 N2]; subst.
    destruct (H a w (or_introl eq_refl)) as (Hw & Hc & Ha & wc & cc & i1 & i2 & j1 & j2 & E1 & E2 & E3 & E4).
    assert (0 <= i1)%Z as Hi1 by (destruct E3 as (? & ? & ? & ? & ? & ? & ? & ? & ? & _); lia).
    destruct (slice_z_full a i1 i2 s w Hi1 E4 R Ha Hw) as (s1 & S1 & S2 & S3 & S4 & S5).
    destruct (match_arm_ok dw coadd a w wc cc i1 i2 j1 j2 s s1 Hw Hc E1 E2 E3 S1) as (s2 & M1 & M2).
    destruct (match_arm_spec dw coadd a w s s2 Hw Hc M1) as (? & ? & ? & ? & ? & ? & ? & _ & _ & _ & _ & _ & _ & _ & M6 & _).
    rewrite M1. cbn [rbind].
    assert (same_refs (s_f s) (s_f s2)) as S3' by now rewrite M2.
    assert (refs_ok (s_f s2)) as S2' by now rewrite M2.
    assert (forall b, b <> a -> same_arrays b s s2) as S4'.
    { intros b Hb. specialize (S4 b Hb). unfold same_arrays in *. now rewrite M2. }
    assert (i1 = 0%Z \/ unaliased (s_f s) -> cut_to a (Z.to_nat i1) (Z.to_nat i2) s s2) as S5'.
    { intro Q. specialize (S5 Q). unfold cut_to in *. now rewrite M2. }
    destruct (IH s2 S2' N2) as (s' & B1 & B2 & B3).
    { intros b v Hb. assert (b <> a) as D by (intros ->; apply N1; now apply (in_map fst) in Hb).
      destruct (H b v (or_intror Hb)) as (G1 & G2 & G3 & G4). destruct (M6 b D) as [-> ->].
      split; [exact G1|]. split; [exact G2|]. split; [|exact G4].
      destruct (S4' b D) as (P1 & P2 & P3 & P4 & P5). unfold arm_aligned, len_at in *. now rewrite P1, P2, P3, P4, P5. }
    exists s'. split; [exact B1|]. split.
    + intros b Hb. cbn [map fst In] in Hb. assert (b <> a) as D by (intros ->; tauto).
      destruct (S4' b D) as (P1 & P2 & P3 & P4 & P5). destruct (B2 b) as (Q1 & Q2 & Q3 & Q4 & Q5); [tauto|].
      unfold same_arrays. now rewrite Q1, Q2, Q3, Q4, Q5.
    + intros b v wc' k1 k2 l1 l2 Hb Ewc Ecut Hal. destruct Hb as [Hb|Hb].
      * injection Hb as <- <-. assert (wc' = wc) as -> by congruence.
        destruct (cut_det dw w wc k1 k2 l1 l2 i1 i2 j1 j2 Ecut E3) as (-> & -> & _).
        specialize (S5' Hal). destruct (B2 a N1) as (Q1 & Q2 & Q3 & Q4 & Q5).
        unfold cut_to in *. now rewrite Q1, Q2, Q3, Q4, Q5.
      * assert (b <> a) as D by (intros ->; apply N1; now apply (in_map fst) in Hb).
        assert (k1 = 0%Z \/ unaliased (s_f s2)) as Hal2.
        { destruct Hal as [Hal|Hal]; [now left|right]. destruct S3' as (T1 & T2 & T3). unfold unaliased in *. now rewrite T1, T2, T3. }
        specialize (B3 b v wc' k1 k2 l1 l2 Hb Ewc Ecut Hal2).
        destruct (S4' b D) as (P1 & P2 & P3 & P4 & P5). unfold cut_to in *. now rewrite P1, P2, P3, P4, P5 in B3.
Qed.

(** ** grids shifted by whole pixels *)
Lemma in_uniform dw w x0 x : uniform dw w -> nth_error w 0 = Some x0 ->
  (In x w <-> exists k, k < length w /\ x = (x0 + zq (Z.of_nat k) * dw)%Qc).
Proof.
  intros U E. split.
  - intro H. apply In_nth_error in H as (k & Hk). exists k. split; [apply nth_error_Some; congruence|].
    now apply (uniform_nth dw w U).
  - intros (k & L & ->). apply nth_error_Some in L. destruct (nth_error w k) as [y|] eqn:Ey; [|easy].
    rewrite <- (uniform_nth dw w U k x0 y E Ey). now apply nth_error_In in Ey.
Qed.
Lemma step_le dw y0 a b : (0 < dw)%Qc -> ((y0 + zq a * dw <= y0 + zq b * dw)%Qc <-> (a <= b)%Z).
Proof.
  intro H. split.
  - intro L. apply Znot_gt_le. intro G. assert (zq b < zq a)%Qc as K by (apply zq_lt; lia).
    apply (Qcmult_lt_compat_r _ _ dw H) in K. qlra.
  - intro L. assert (zq a <= zq b)%Qc as K by (apply zq_le; lia).
    apply (Qcmult_le_compat_r _ _ dw) in K; [|now apply Qclt_le_weak]. qlra.
Qed.
Lemma step_inj dw y0 a b : (0 < dw)%Qc -> (y0 + zq a * dw = y0 + zq b * dw)%Qc -> a = b.
Proof.
  intros H E. apply Z.le_antisymm; apply (step_le dw y0 _ _ H); rewrite E; apply Qcle_refl.
Qed.

Lemma cut_shifted dw w wc d x i1 i2 j1 j2 : (0 < dw)%Qc -> uniform dw w -> uniform dw wc -> shifted dw d wc w ->
  In x w -> In x wc -> cut dw w wc i1 i2 j1 j2 ->
  let n := Z.of_nat (length w) in let m := Z.of_nat (length wc) in
  (d < m /\ 0 < d + n)%Z /\ (i1 = Z.max 0 (- d) /\ i2 = Z.min n (m - d) /\ j1 = Z.max 0 d /\ j2 = Z.min m (d + n))%Z.
Proof.
  intros Hdw U Uc (x0 & y0 & E1 & E2 & E3) H1 H2 (w0 & c0 & cl & wl & F0 & F1 & F2 & F3 & I1 & J1 & I2 & J2) n m.
  apply rfirst_nth in F0, F1. apply rlast_nth in F2, F3.
  assert (w0 = x0) as -> by congruence. assert (c0 = y0) as -> by congruence.
  apply (in_uniform dw w x0 x U E1) in H1 as (k & K1 & K2). apply (in_uniform dw wc y0 x Uc E2) in H2 as (l & L1 & L2).
  assert (d + Z.of_nat k = Z.of_nat l)%Z as Hkl.
  { apply (step_inj dw y0 _ _ Hdw). rewrite <- L2, K2, E3, zq_plus. ring. }
  apply (uniform_nth dw w U _ _ _ E1) in F3. apply (uniform_nth dw wc Uc _ _ _ E2) in F2.
  assert (dw <> 0)%Qc as Hd0 by (intro Q; exact (Qclt_not_eq _ _ Hdw (eq_sym Q))).
  assert (qround ((x0 - y0) / dw) = d) as R1.
  { replace ((x0 - y0) / dw)%Qc with (zq d) by (rewrite E3; field; exact Hd0). apply qround_near; qlra. }
  assert (qround ((cl - wl) / dw) = m - d - n)%Z as R2.
  { replace ((cl - wl) / dw)%Qc with (zq (m - d - n)); [apply qround_near; qlra|].
    replace (m - d - n)%Z with (Z.of_nat (length wc - 1) + (- d + - Z.of_nat (length w - 1)))%Z by lia.
    rewrite F2, F3, E3, !zq_plus, !zq_opp. field. exact Hd0. }
  rewrite R1 in I1, J1. rewrite R2 in I2, J2. fold n in I2. fold m in J2. lia.
Qed.

Lemma in_slice {A} i j (l : list A) x : j <= length l ->
  (In x (slice i j l) <-> exists k, i <= k < j /\ nth_error l k = Some x).
Proof.
  intro L. split.
  - intro H. apply In_nth_error in H as (k & Hk).
    assert (k < length (slice i j l)) as Lk by (apply nth_error_Some; congruence). rewrite slice_length in Lk.
    rewrite nth_error_slice in Hk by lia. exists (i + k). split; [lia|exact Hk].
  - intros (k & Hk & E). apply nth_error_In with (k - i). rewrite nth_error_slice by lia. now replace (i + (k - i)) with k by lia.
Qed.
Lemma cut_inside dw w wc d x i1 i2 j1 j2 : (0 < dw)%Qc -> uniform dw w -> uniform dw wc -> shifted dw d wc w ->
  In x w -> In x wc -> cut dw w wc i1 i2 j1 j2 -> inside wc w (pyslice i1 i2 w).
Proof.
  intros Hdw U Uc Sh Hx Hxc Hcut.
  destruct (cut_shifted dw w wc d x i1 i2 j1 j2 Hdw U Uc Sh Hx Hxc Hcut) as ((D1 & D2) & -> & -> & _).
  destruct Sh as (x0 & y0 & E1 & E2 & E3).
  rewrite pyslice_nonneg by lia. set (n := Z.of_nat (length w)) in *. set (m := Z.of_nat (length wc)) in *.
  split; [now do 2 eexists|]. intro v. rewrite in_slice by lia.
  assert (forall k, nth_error w k = Some v -> v = (y0 + zq (d + Z.of_nat k) * dw)%Qc) as Pv.
  { intros k Hk. rewrite (uniform_nth dw w U k x0 v E1 Hk), E3, zq_plus. ring. }
  split.
  - intros (k & Hk & Ev). split; [now apply nth_error_In in Ev|]. apply Pv in Ev. split.
    + exists y0. split; [now apply nth_error_In in E2|]. rewrite Ev. replace y0 with (y0 + zq 0 * dw)%Qc at 1 by (change (zq 0) with 0%Qc; ring).
      apply step_le; [easy|lia].
    + exists (y0 + zq (m - 1) * dw)%Qc. split; [|rewrite Ev; apply step_le; [easy|lia]].
      apply (in_uniform dw wc y0 _ Uc E2). exists (length wc - 1).
      assert (0 < length wc) by (destruct wc; [contradiction Hxc|cbn; lia]).
      split; [lia|]. now replace (m - 1)%Z with (Z.of_nat (length wc - 1)) by (unfold m; lia).
  - intros (Hv & (y & Hy & Ly) & (y' & Hy' & Ly')). apply In_nth_error in Hv as (k & Hk). exists k. split; [|exact Hk].
    apply (in_uniform dw wc y0 y Uc E2) in Hy as (l & L1 & L2). apply (in_uniform dw wc y0 y' Uc E2) in Hy' as (l' & L1' & L2').
    rewrite L2, (Pv k Hk) in Ly. rewrite L2', (Pv k Hk) in Ly'. apply (proj1 (step_le dw y0 _ _ Hdw)) in Ly. apply (proj1 (step_le dw y0 _ _ Hdw)) in Ly'.
    assert (k < length w) by (apply nth_error_Some; congruence). lia.
Qed.
Lemma cut_lengths dw w wc d x i1 i2 j1 j2 (cc : list num) : (0 < dw)%Qc -> uniform dw w -> uniform dw wc -> shifted dw d wc w ->
  In x w -> In x wc -> cut dw w wc i1 i2 j1 j2 -> length cc = length wc -> length (pyslice i1 i2 w) = length (pyslice j1 j2 cc).
Proof.
  intros Hdw U Uc Sh Hx Hxc Hcut L.
  destruct (cut_shifted dw w wc d x i1 i2 j1 j2 Hdw U Uc Sh Hx Hxc Hcut) as ((D1 & D2) & -> & -> & -> & ->).
  rewrite !pyslice_nonneg by lia. rewrite !slice_length, L. lia.
Qed.

Lemma expo_trim dw coadd s :
  (0 < dw)%Qc -> proper s -> on_grid dw s -> on_grid dw coadd -> has_continuum coadd -> overlaps dw coadd s ->
  exists s', match_exposure dw coadd s = Ok s' /\ s_valid s' = s_valid coadd /\
    (forall arm w wc, dget arm (fw (s_f s)) = Some w -> dget arm (fw (s_f coadd)) = Some wc ->
      exists w', dget arm (fw (s_f s')) = Some w' /\ inside wc w w') /\
    (unaliased (s_f s) \/
     (forall arm w wc d, dget arm (fw (s_f s)) = Some w -> dget arm (fw (s_f coadd)) = Some wc -> shifted dw d wc w -> (0 <= d)%Z) ->
     aligned s' /\ forall arm, exists i j, cut_to arm i j s s').
Proof.
  intros Hdw (Al & N & _ & R1 & R2 & R3) G Gc HC Ov. unfold match_exposure.
  set (s0 := set_cont _ _). cbn [s_f set_cont set_chi2 set_x set_valid].
  change (s_f s) with (s_f s0) in *.
  assert (forall a w, In (a, w) (fw (s_f s0)) -> dget a (fw (s_f s0)) = Some w /\ dget a (s_cont s0) = None /\ arm_aligned s0 a /\
     exists wc cc i1 i2 j1 j2, dget a (fw (s_f coadd)) = Some wc /\ dget a (s_cont coadd) = Some cc /\
       cut dw w wc i1 i2 j1 j2 /\ (0 <= i2)%Z) as H0.
  { intros a w H. apply NoDup_dget in H; [|exact N]. split; [exact H|]. split; [reflexivity|]. split; [exact (Al a)|].
    destruct (Ov a w H) as (wc & d & x & O1 & O2 & O3 & O4). destruct (HC a wc O1) as (cc & C1 & C2).
    destruct (cut_exists dw w wc) as (i1 & i2 & j1 & j2 & Hcut); [intros ->; easy|intros ->; easy|].
    exists wc, cc, i1, i2, j1, j2. repeat (split; [assumption|]).
    destruct (cut_shifted dw w wc d x i1 i2 j1 j2 Hdw (G a w H) (Gc a wc O1) O2 O3 O4 Hcut) as ((D1 & D2) & _ & -> & _). lia. }
  destruct (match_loop2 dw coadd (fw (s_f s0)) s0) as (s' & E & B1 & B2); [now repeat split|exact N|exact H0|].
  exists s'. split; [exact E|].
  destruct (match_loop dw coadd (fw (s_f s0)) s0 s' N) as (A & B & C & _); [|exact E|].
  { intros a w H. destruct (H0 a w H) as (H1 & H2 & _). now split. }
  split; [|split].
  - apply eq_true_iff_eq. rewrite C. change (s_valid s0) with (s_valid coadd). split; [tauto|].
    intro V. split; [exact V|]. intros a w' c Ha Hw' Hc'. apply in_map_iff in Ha as ([a' w] & Ea & Ha). cbn in Ea. subst a'.
    destruct (B a w Ha) as (wc & cc & i1 & i2 & j1 & j2 & Q1 & Q2 & Q3 & Q4 & Q5).
    assert (w' = pyslice i1 i2 w) as -> by congruence. assert (c = pyslice j1 j2 cc) as -> by congruence.
    destruct (H0 a w Ha) as (Hw & _). destruct (Ov a w Hw) as (wc' & d & x & O1 & O2 & O3 & O4). assert (wc' = wc) as -> by congruence.
    apply (cut_lengths dw w wc d x); auto; [apply (G a); exact Hw|apply (Gc a); exact O1|].
    destruct (HC a wc O1) as (c2 & C1 & C2). congruence.
  - intros a w wc Hw Hwc. apply dget_In_pair in Hw as Ha.
    destruct (B a w Ha) as (wc' & cc & i1 & i2 & j1 & j2 & Q1 & Q2 & Q3 & Q4 & Q5). assert (wc' = wc) as -> by congruence.
    exists (pyslice i1 i2 w). split; [exact Q4|].
    destruct (Ov a w Hw) as (wc' & d & x & O1 & O2 & O3 & O4). assert (wc' = wc) as -> by congruence.
    apply (cut_inside dw w wc d x i1 i2 j1 j2); auto; [apply (G a); exact Hw|apply (Gc a); exact Hwc].
  - intro Hal.
    assert (forall arm, exists i j, cut_to arm i j s0 s') as K.
    { intro a. destruct (dget a (fw (s_f s0))) as [w|] eqn:Hw.
      - apply dget_In_pair in Hw as Ha. destruct (H0 a w Ha) as (_ & _ & _ & wc & cc & i1 & i2 & j1 & j2 & Q1 & Q2 & Q3 & Q4).
        exists (Z.to_nat i1), (Z.to_nat i2). apply (B2 a w wc i1 i2 j1 j2 Ha Q1 Q3).
        destruct Hal as [Hal|Hal]; [now right|left].
        destruct (Ov a w Hw) as (wc' & d & x & O1 & O2 & O3 & O4). assert (wc' = wc) as -> by congruence.
        specialize (Hal a w wc d Hw Q1 O2).
        destruct (cut_shifted dw w wc d x i1 i2 j1 j2 Hdw (G a w Hw) (Gc a wc O1) O2 O3 O4 Q3) as (_ & -> & _). lia.
      - exists 0, 0. destruct (B1 a) as (P1 & P2 & P3 & P4 & P5); [now apply dget_None|].
        destruct (Al a) as (L1 & L2 & L3 & L4). unfold cut_to. change (s_f s) with (s_f s0) in *.
        unfold len_at in *. rewrite P1, P2, P3, P4, P5, Hw in *. cbn [option_map] in *.
        destruct (dget a (ff (s_f s0))), (dget a (fivar (s_f s0))), (dget a (fivar_sm (s_f s0))), (dget a (fweight (s_f s0))); try discriminate. now repeat split. }
    split; [|exact K]. intro a. destruct (K a) as (i & j & K1 & K2 & K3 & K4 & K5). destruct (Al a) as (L1 & L2 & L3 & L4).
    change (s_f s) with (s_f s0) in *. unfold len_at in *. rewrite K1, K2, K3, K4, K5.
    destruct (dget a (fw (s_f s0))), (dget a (ff (s_f s0))), (dget a (fivar (s_f s0))), (dget a (fivar_sm (s_f s0))), (dget a (fweight (s_f s0)));
      cbn [option_map] in *; try discriminate; [|now repeat split].
    injection L1 as L1; injection L2 as L2; injection L3 as L3; injection L4 as L4.
    repeat split; f_equal; now apply slice_len_eq.
Qed.

Lemma rseq_map_ok {A B} (f : A -> res B) l out : rseq (map f l) = Ok out -> Forall2 (fun a b => f a = Ok b) l out.
Proof.
  revert out. induction l as [|a l IH]; intros out; cbn [map rseq]; intro E.
  - injection E as <-. constructor.
  - apply rbind_Ok in E as (b & E1 & E). destruct (rseq (map f l)) as [r|] eqn:Er; [|easy].
    cbn [rmap] in E. injection E as <-. constructor; [exact E1|now apply IH].
Qed.
(** the continuum parameters and chi2 are those of the coadd *)
Lemma slice_z_params arm i j s s' : spec_slice_z arm i j s = Ok s' -> s_x s' = s_x s /\ s_chi2 s' = s_chi2 s.
Proof.
  unfold spec_slice_z. intro E. apply rbind_Ok in E as (wv & _ & E). destruct (_ && _); [injection E as <-; now split|].
  repeat (apply rbind_Ok in E as (? & _ & E)). cbv zeta in E. injection E as <-. destruct (dget arm (s_cont _)); now split.
Qed.
Lemma match_arm_params dw c p s s' : match_arm dw c p s = Ok s' -> s_x s' = s_x s /\ s_chi2 s' = s_chi2 s.
Proof.
  unfold match_arm. destruct p as [arm wv]. destruct (dget _ _); [|easy]. intro E. do 4 (apply rbind_Ok in E as (? & _ & E)).
  cbv zeta in E. destruct (if (_ <? 0)%Z then _ else _) as [i1 j1]. destruct (if (_ <? 0)%Z then _ else _) as [i2 j2].
  apply rbind_Ok in E as (s1 & H & E). apply slice_z_params in H as [<- <-]. do 2 (apply rbind_Ok in E as (? & _ & E)).
  injection E as <-. destruct (_ =? _); now split.
Qed.
Lemma expo_params dw c s s' : match_exposure dw c s = Ok s' -> s_x s' = s_x c /\ s_chi2 s' = s_chi2 c.
Proof.
  unfold match_exposure. intro E. refine (for_each_inv (fun t => s_x t = s_x c /\ s_chi2 t = s_chi2 c) _ _ _ _ _ _ E); [|now split].
  intros x a b _ [A B] H. apply match_arm_params in H as [-> ->]. now split.
Qed.

Lemma expos_inherit dw coadds exposures out :
  (0 < dw)%Qc -> (forall c, In c coadds -> on_grid dw c /\ has_continuum c) ->
  (forall s, In s exposures -> NoDup (dkeys (fw (s_f s))) /\ on_grid dw s) ->
  match_exposures dw coadds exposures = Ok out ->
  Forall2 (fun s s' => exists c, In c coadds /\ c_targetid (s_cat c) = c_targetid (s_cat s) /\ s_cat s' = s_cat s /\
    s_x s' = s_x c /\ s_chi2 s' = s_chi2 c /\
    (s_valid s' = true -> s_valid c = true /\ inherits (fq 1 2 * dw) c s' /\
      ((forall arm w wc, dget arm (fw (s_f s)) = Some w -> dget arm (fw (s_f c)) = Some wc -> exists d, shifted dw d wc w) ->
       inherits 0 c s'))) exposures out.
Proof.
  intros Hdw Hc He E. apply rseq_map_ok in E.
  assert (forall s, In s exposures -> NoDup (dkeys (fw (s_f s))) /\ on_grid dw s) as He' by exact He. clear He.
  induction E as [|s s' l l' H E IH]; constructor.
  - destruct (find _ coadds) as [c|] eqn:F; [|easy]. apply find_some in F as [F1 F2]. apply Z.eqb_eq in F2.
    exists c. split; [exact F1|]. split; [exact F2|].
    destruct (Hc c F1) as [C1 C2]. destruct (He' s (or_introl eq_refl)) as [S1 S2]. split.
    + unfold match_exposure in H. cbn [s_f set_cont set_chi2 set_x set_valid] in H.
      set (s0 := set_cont _ _) in H.
      destruct (match_loop dw c (fw (s_f s)) s0 s' S1) as (_ & _ & _ & Q & _); [|exact H|exact Q].
      intros a w Hw. split; [now apply NoDup_dget|reflexivity].
    + destruct (expo_params dw c s s' H) as [X1 X2]. split; [exact X1|]. split; [exact X2|].
      intro V. split; [apply (expo_parts dw c s s' S1 H V)|]. now apply (expo_inherits dw c s s').
  - apply IH. intros x Hx. apply He'. now right.
Qed.
