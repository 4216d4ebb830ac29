(** Proofs about exposures inheriting the continuum. *)
From Coq Require Import ZArith String List Bool Arith Lia Qcanon Field.
From Verif Require Import Num NpList NpListFacts Exn Dict ModelSpectrum ModelExposures SpecSpectrum SpecWeights
  ProofSpectrum1 ProofCoadd3 SpecExposures.
Import ListNotations.
Local Open Scope nat_scope.

(** ** python slices *)
Lemma pyidx_nonneg n z : (0 <= z)%Z -> pyidx n z = Z.to_nat z.
Proof. intro H. unfold pyidx. destruct (Z.ltb_spec z 0); [lia|easy]. Qed.
Lemma slice_all {A} n (l : list A) : length l <= n -> slice 0 n l = l.
Proof. intro H. unfold slice. cbn. rewrite Nat.sub_0_r. now apply firstn_all2. Qed.
Lemma pyslice_nth {A} i j (l : list A) k x : (0 <= i)%Z -> nth_error (pyslice i j l) k = Some x ->
  nth_error l (Z.to_nat i + k) = Some x.
Proof.
  intros Hi H. unfold pyslice in H. rewrite pyidx_nonneg in H by easy.
  assert (k < length (slice (Z.to_nat i) (pyidx (length l) j) l)) as L by (apply nth_error_Some; congruence).
  rewrite slice_length in L. now rewrite nth_error_slice in H by lia.
Qed.
Lemma pyslice_nonneg {A} i j (l : list A) : (0 <= i)%Z -> (0 <= j)%Z -> pyslice i j l = slice (Z.to_nat i) (Z.to_nat j) l.
Proof. intros. unfold pyslice. now rewrite !pyidx_nonneg. Qed.

(** ** what slice does to forestwave, the continuum and the flags *)
Lemma slice_z_frame arm i1 i2 s s' wv : dget arm (fw (s_f s)) = Some wv -> dget arm (s_cont s) = None ->
  spec_slice_z arm i1 i2 s = Ok s' ->
  dget arm (fw (s_f s')) = Some (pyslice i1 i2 wv) /\ (forall a, a <> arm -> dget a (fw (s_f s')) = dget a (fw (s_f s))) /\
  s_cont s' = s_cont s /\ s_valid s' = s_valid s /\ s_cat s' = s_cat s /\ s_x s' = s_x s /\ s_chi2 s' = s_chi2 s.
Proof.
  intros Hw Hc E. unfold spec_slice_z in E. apply rbind_Ok in E as (wv' & Ew & E). apply rget_Ok in Ew.
  assert (wv' = wv) as -> by congruence.
  destruct ((i1 =? 0)%Z && (i2 =? Z.of_nat (length wv))%Z) eqn:C.
  { injection E as <-. apply andb_true_iff in C as [C1 C2]. apply Z.eqb_eq in C1, C2. subst.
    split; [|now repeat split]. rewrite Hw. f_equal. rewrite pyslice_nonneg by lia. symmetry. apply slice_all. lia. }
  apply rbind_Ok in E as (fl & Ef & E). apply rbind_Ok in E as (iv & Ei & E).
  apply rbind_Ok in E as (sm & Es & E). apply rbind_Ok in E as (wt & Et & E). injection E as <-.
  cbn [s_cont set_f]. rewrite Hc. cbn [s_cont s_valid s_cat s_x s_chi2 s_f set_f].
  assert (forall f5 : forest, fw f5 = dset arm (pyslice i1 i2 wv) (fw (s_f s)) ->
    dget arm (fw f5) = Some (pyslice i1 i2 wv) /\ (forall a, a <> arm -> dget a (fw f5) = dget a (fw (s_f s)))) as K.
  { intros f5 ->. split; [apply dget_dset_same|]. intros a Ha. now apply dget_dset_other. }
  match goal with |- dget arm (fw ?f5) = _ /\ _ => specialize (K f5) end.
  destruct K as [K1 K2]; [|tauto].
  match goal with |- fw (match ?x with Some _ => _ | None => _ end) = _ => destruct x end; reflexivity.
Qed.

(** the offsets *)
Definition cut (dw : Qc) (w wc : list Qc) (i1 i2 j1 j2 : Z) : Prop :=
  exists w0 c0 cl wl, rfirst w = Ok w0 /\ rfirst wc = Ok c0 /\ rlast wc = Ok cl /\ rlast w = Ok wl /\
   let r1 := qround ((w0 - c0) / dw) in let r2 := qround ((cl - wl) / dw) in
   i1 = Z.max 0 (- r1) /\ j1 = Z.max 0 r1 /\
   i2 = (Z.of_nat (length w) + Z.min 0 r2)%Z /\ j2 = (Z.of_nat (length wc) - Z.max 0 r2)%Z.

Lemma match_arm_spec dw coadd arm w s s' :
  dget arm (fw (s_f s)) = Some w -> dget arm (s_cont s) = None ->
  match_arm dw coadd (arm, w) s = Ok s' ->
  exists wc cc i1 i2 j1 j2 s1, dget arm (fw (s_f coadd)) = Some wc /\ dget arm (s_cont coadd) = Some cc /\
    cut dw w wc i1 i2 j1 j2 /\ spec_slice_z arm i1 i2 s = Ok s1 /\ s_f s' = s_f s1 /\
    dget arm (fw (s_f s')) = Some (pyslice i1 i2 w) /\ dget arm (s_cont s') = Some (pyslice j1 j2 cc) /\
    (forall a, a <> arm -> dget a (fw (s_f s')) = dget a (fw (s_f s)) /\ dget a (s_cont s') = dget a (s_cont s)) /\
    s_valid s' = s_valid s && Nat.eqb (length (pyslice i1 i2 w)) (length (pyslice j1 j2 cc)) /\
    s_cat s' = s_cat s /\ s_x s' = s_x s /\ s_chi2 s' = s_chi2 s.
Proof.
  intros Hw Hc E. unfold match_arm in E. destruct (dget arm (fw (s_f coadd))) as [wc|] eqn:Ewc; [|easy].
  apply rbind_Ok in E as (w0 & E0 & E). apply rbind_Ok in E as (c0 & E1 & E).
  apply rbind_Ok in E as (cl & E2 & E). apply rbind_Ok in E as (wl & E3 & E).
  set (r1 := qround ((w0 - c0) / dw)) in *. set (r2 := qround ((cl - wl) / dw)) in *. cbv zeta in E.
  assert ((if (r1 <? 0)%Z then (- r1, 0)%Z else (0%Z, r1)) = (Z.max 0 (- r1), Z.max 0 r1)) as R1.
  { destruct (Z.ltb_spec r1 0); f_equal; lia. }
  assert ((if (r2 <? 0)%Z then (Z.of_nat (length w) + r2, 0)%Z else (Z.of_nat (length w), r2)) =
    ((Z.of_nat (length w) + Z.min 0 r2)%Z, Z.max 0 r2)) as R2.
  { destruct (Z.ltb_spec r2 0); f_equal; lia. }
  rewrite R1, R2 in E.
  set (i1 := Z.max 0 (- r1)) in *. set (j1 := Z.max 0 r1) in *.
  set (i2 := (Z.of_nat (length w) + Z.min 0 r2)%Z) in *. set (j2 := (Z.of_nat (length wc) - Z.max 0 r2)%Z) in *.
  apply rbind_Ok in E as (s1 & Es & E). apply rbind_Ok in E as (cc & Ec & E). apply rget_Ok in Ec.
  destruct (slice_z_frame arm i1 i2 s s1 w Hw Hc Es) as (S1 & S2 & S3 & S4 & S5 & S6 & S7).
  apply rbind_Ok in E as (w' & Ew' & E). apply rget_Ok in Ew'. cbn [s_f set_cont] in Ew'.
  assert (w' = pyslice i1 i2 w) as -> by congruence.
  injection E as <-. exists wc, cc, i1, i2, j1, j2, s1.
  split; [reflexivity|]. split; [exact Ec|]. split; [exists w0, c0, cl, wl; now repeat split|].
  split; [exact Es|].
  set (ok := Nat.eqb _ _).
  assert (forall s2 : spec, s2 = set_cont (dset arm (pyslice j1 j2 cc) (s_cont s1)) s1 ->
    s_f (if ok then s2 else set_valid false s2) = s_f s1 /\ s_cont (if ok then s2 else set_valid false s2) = dset arm (pyslice j1 j2 cc) (s_cont s) /\
    s_valid (if ok then s2 else set_valid false s2) = s_valid s && ok /\
    s_cat (if ok then s2 else set_valid false s2) = s_cat s /\ s_x (if ok then s2 else set_valid false s2) = s_x s /\
    s_chi2 (if ok then s2 else set_valid false s2) = s_chi2 s) as K.
  { intros s2 ->. rewrite <- S3, <- S4, <- S5, <- S6, <- S7. destruct ok; [rewrite andb_true_r|rewrite andb_false_r]; repeat split. }
  destruct (K _ eq_refl) as (K1 & K2 & K3 & K4 & K5 & K6). rewrite K1, K2, K3, K4, K5, K6.
  split; [reflexivity|]. split; [exact S1|]. split; [apply dget_dset_same|]. split; [|tauto].
  intros a Ha. split; [now apply S2|now apply dget_dset_other].
Qed.

(** ** the loop *)
Lemma match_loop dw coadd l : forall s s',
  NoDup (map fst l) -> (forall a w, In (a, w) l -> dget a (fw (s_f s)) = Some w /\ dget a (s_cont s) = None) ->
  for_each l (match_arm dw coadd) s = Ok s' ->
  (forall a, ~ In a (map fst l) -> dget a (fw (s_f s')) = dget a (fw (s_f s)) /\ dget a (s_cont s') = dget a (s_cont s)) /\
  (forall a w, In (a, w) l -> exists wc cc i1 i2 j1 j2, dget a (fw (s_f coadd)) = Some wc /\
     dget a (s_cont coadd) = Some cc /\ cut dw w wc i1 i2 j1 j2 /\
     dget a (fw (s_f s')) = Some (pyslice i1 i2 w) /\ dget a (s_cont s') = Some (pyslice j1 j2 cc)) /\
  (s_valid s' = true <-> s_valid s = true /\ forall a w c, In a (map fst l) ->
     dget a (fw (s_f s')) = Some w -> dget a (s_cont s') = Some c -> length w = length c) /\
  s_cat s' = s_cat s /\ s_x s' = s_x s /\ s_chi2 s' = s_chi2 s.
Proof.
  induction l as [|[a w] l IH]; intros s s' N H E; cbn [for_each] in E.
  - injection E as <-. repeat split; try easy.
  - apply rbind_Ok in E as (s1 & E1 & E). cbn [map fst] in N. inversion N as [|? ? N1 N2]; subst.
    destruct (H a w (or_introl eq_refl)) as [Hw Hc].
    destruct (match_arm_spec dw coadd a w s s1 Hw Hc E1) as (wc & cc & i1 & i2 & j1 & j2 & s0 & A1 & A2 & A3 & _ & _ & A4 & A5 & A6 & A7 & A8 & A9 & A10).
    destruct (IH s1 s' N2) as (B1 & B2 & B3 & B4 & B5 & B6); [|exact E|].
    { intros b v Hb. assert (b <> a) as D by (intros ->; apply N1; now apply (in_map fst) in Hb).
      destruct (A6 b D) as [-> ->]. apply H. now right. }
    destruct (B1 a N1) as [Bw Bc]. split; [|split; [|split]].
    + intros b Hb. cbn [map fst In] in Hb. destruct (B1 b) as [-> ->]; [tauto|]. apply A6. intros ->. tauto.
    + intros b v [Hb|Hb]; [|now apply B2]. injection Hb as <- <-.
      exists wc, cc, i1, i2, j1, j2. rewrite Bw, Bc. tauto.
    + rewrite B3, A7, andb_true_iff, Nat.eqb_eq. split.
      * intros [[V L] K]. split; [exact V|]. intros b v c [<-|Hb] Ev Ec; [|now apply (K b)].
        cbn [fst] in *. congruence.
      * intros [V K]. split; [split; [exact V|]|].
        -- apply (K a); [now left| |]; congruence.
        -- intros b v c Hb. apply K. now right.
    + rewrite B4, B5, B6. now repeat split.
Qed.

Lemma rfirst_nth {A} (l : list A) x : rfirst l = Ok x <-> nth_error l 0 = Some x.
Proof. destruct l; cbn; split; intro H; try easy; now injection H as ->. Qed.
Lemma rlast_nth {A} (l : list A) x : rlast l = Ok x -> nth_error l (length l - 1) = Some x.
Proof.
  unfold rlast. intro H. destruct l as [|a l _] using rev_ind; [easy|].
  rewrite rev_app_distr in H. cbn in H. injection H as ->.
  rewrite app_length. cbn. rewrite nth_error_app2 by lia. now replace (length l + 1 - 1 - length l) with 0 by lia.
Qed.

Lemma cut_pixel dw w wc i1 i2 j1 j2 (cc : list num) k x v :
  (0 < dw)%Qc -> uniform dw w -> uniform dw wc -> length cc = length wc -> cut dw w wc i1 i2 j1 j2 ->
  nth_error (pyslice i1 i2 w) k = Some x -> nth_error (pyslice j1 j2 cc) k = Some v ->
  exists m y, nth_error wc m = Some y /\ nth_error cc m = Some v /\ (y - fq 1 2 * dw <= x /\ x <= y + fq 1 2 * dw)%Qc /\
    (forall d, shifted dw d wc w -> x = y).
Proof.
  intros Hdw U Uc L (w0 & c0 & cl & wl & E0 & E1 & _ & _ & I1 & J1 & _ & _) Hx Hv.
  apply rfirst_nth in E0, E1. set (r1 := qround ((w0 - c0) / dw)) in *.
  apply pyslice_nth in Hx; [|lia]. apply pyslice_nth in Hv; [|lia].
  set (m := Z.to_nat j1 + k) in *. exists m.
  destruct (nth_error wc m) as [y|] eqn:Ey.
  2:{ apply nth_error_None in Ey. rewrite <- L in Ey. apply nth_error_None in Ey. congruence. }
  exists y. split; [easy|]. split; [exact Hv|].
  pose proof (uniform_nth dw w U _ _ _ E0 Hx) as Px. pose proof (uniform_nth dw wc Uc _ _ _ E1 Ey) as Py.
  assert (zq (Z.of_nat (Z.to_nat i1 + k)) = zq (Z.of_nat m) - zq r1)%Qc as Z1.
  { assert (zq (Z.of_nat (Z.to_nat i1 + k)) + zq r1 = zq (Z.of_nat m))%Qc as <-
      by (rewrite <- zq_plus; f_equal; unfold m; lia). ring. }
  assert (dw <> 0)%Qc as Hd0 by (intro Q; exact (Qclt_not_eq _ _ Hdw (eq_sym Q))).
  assert (x - y = w0 - c0 - zq r1 * dw)%Qc as D by (rewrite Px, Py, Z1; ring).
  assert (w0 - c0 = (w0 - c0) / dw * dw)%Qc as Q by (field; exact Hd0).
  split.
  - destruct (qround_spec ((w0 - c0) / dw)) as [B1 B2]. fold r1 in B1, B2.
    set (q := ((w0 - c0) / dw)%Qc) in *.
    assert (x - y = (q - zq r1) * dw)%Qc as D' by (rewrite D, Q; ring).
    assert (- fq 1 2 * dw <= (q - zq r1) * dw)%Qc as M1.
    { apply Qcmult_le_compat_r; [qlra|now apply Qclt_le_weak]. }
    assert ((q - zq r1) * dw <= fq 1 2 * dw)%Qc as M2.
    { apply Qcmult_le_compat_r; [qlra|now apply Qclt_le_weak]. }
    rewrite <- D' in M1, M2. split; qlra.
  - intros d (x0 & y0 & F1 & F2 & F3). assert (x0 = w0) as -> by congruence. assert (y0 = c0) as -> by congruence.
    assert ((w0 - c0) / dw = zq d)%Qc as R by (rewrite F3; field; exact Hd0).
    assert (r1 = d) as -> by (unfold r1; rewrite R; apply qround_near; qlra).
    assert (x - y = 0)%Qc as D0 by (rewrite D, F3; ring).
    transitivity (x - y + y)%Qc; [ring|]. rewrite D0. ring.
Qed.
