From Coq Require Import String ZArith List Bool Arith Lia Field Qcanon.
From Verif Require Import Num Exn NpList NpListFacts ModelInterp SpecInterp ProofInterp.
Import ListNotations.
Local Open Scope nat_scope.

Lemma zq2 : zq 2 = (1 + 1)%Qc. Proof. reflexivity. Qed.
Lemma zq3 : zq 3 = (1 + 1 + 1)%Qc. Proof. reflexivity. Qed.
Lemma zq6 : zq 6 = ((1 + 1) * (1 + 1 + 1))%Qc. Proof. reflexivity. Qed.
Lemma half_eq : fq 1 2 = (1 / (1 + 1))%Qc. Proof. reflexivity. Qed.
Lemma two_neq : (1 + 1 <> 0)%Qc. Proof. discriminate. Qed.
Lemma three_neq : (1 + 1 + 1 <> 0)%Qc. Proof. discriminate. Qed.
Lemma six_neq : (zq 6 <> 0)%Qc. Proof. discriminate. Qed.

Ltac nz := repeat split; first [assumption | discriminate].

(** ** the pieces of the evaluated curve *)
Definition piece_of (fp y2p : list Qc) (h : Qc) (i : nat) : cubic :=
  let y1 := nth i fp 0%Qc in let y2 := nth (S i) fp 0%Qc in
  let m1 := nth i y2p 0%Qc in let m2 := nth (S i) y2p 0%Qc in
  mkcubic y1 ((y2 - y1) / h - h * (zq 2 * m1 + m2) / zq 6)%Qc (m1 / zq 2)%Qc ((m2 - m1) / (zq 6 * h))%Qc.

Lemma piece_value_0 fp y2p h i : value (piece_of fp y2p h i) 0 = nth i fp 0%Qc.
Proof. unfold value, piece_of. cbn [k0 k1 k2 k3 Qcpower]. ring. Qed.
Lemma piece_value_h fp y2p h i : h <> 0%Qc -> value (piece_of fp y2p h i) h = nth (S i) fp 0%Qc.
Proof.
  intro Hh. unfold value, piece_of. cbn [k0 k1 k2 k3 Qcpower]. rewrite zq6, zq2.
  field. nz.
Qed.
Lemma piece_curv_0 fp y2p h i : curvature (piece_of fp y2p h i) 0 = nth i y2p 0%Qc.
Proof. unfold curvature, piece_of. cbn [k0 k1 k2 k3]. rewrite Qcmult_0_r, zq2. field. nz. Qed.
Lemma piece_curv_h fp y2p h i : h <> 0%Qc -> curvature (piece_of fp y2p h i) h = nth (S i) y2p 0%Qc.
Proof.
  intro Hh. unfold curvature, piece_of. cbn [k0 k1 k2 k3]. rewrite zq6, zq2. field. nz.
Qed.
Lemma piece_third fp y2p h i : h <> 0%Qc -> third (piece_of fp y2p h i) = ((nth (S i) y2p 0 - nth i y2p 0) / h)%Qc.
Proof. intro Hh. unfold third, piece_of. cbn [k3]. field. nz. Qed.
Lemma slope_jump fp y2p h i : h <> 0%Qc ->
  (slope (piece_of fp y2p h i) h - slope (piece_of fp y2p h (S i)) 0
   = h / zq 6 * ((nth i y2p 0 + zq 4 * nth (S i) y2p 0 + nth (S (S i)) y2p 0)
       - zq 6 / (h * h) * (nth (S (S i)) fp 0 - zq 2 * nth (S i) fp 0 + nth i fp 0)))%Qc.
Proof.
  intro Hh. unfold slope, piece_of. cbn [k0 k1 k2 k3 Qcpower].
  replace (zq 4) with ((1+1)*(1+1))%Qc by reflexivity. rewrite zq6, zq3, zq2. field. nz.
Qed.

Lemma cubic_eval_piece x0 h fp y2p :
  (0 < h)%Qc -> 2 <= length fp -> length y2p = length fp ->
  piecewise (fun x => fast_eval_interp1d_cubic x x0 h fp y2p) x0 h (length fp) (piece_of fp y2p h) /\
  interpolates fp h (piece_of fp y2p h).
Proof.
  intros Hh Hn Hl. pose proof (Qc_pos_neq h Hh) as Hne. split.
  - intros i x Hs. pose proof Hs as (Hi & _). unfold fast_eval_interp1d_cubic.
    destruct (segment_in x0 h _ i x Hh Hs) as [E|(E & Hi' & Ex)]; rewrite E, !at_z_nat, !at_z_nat1.
    + rewrite (nth_error_ok fp i 0%Qc), (nth_error_ok fp (S i) 0%Qc), (nth_error_ok y2p i 0%Qc), (nth_error_ok y2p (S i) 0%Qc) by lia.
      f_equal. unfold value, piece_of, node. cbn [k0 k1 k2 k3 Qcpower]. rewrite zq6, zq2. field. nz.
    + rewrite (nth_error_ok fp (S i) 0%Qc), (nth_error_ok fp (S (S i)) 0%Qc), (nth_error_ok y2p (S i) 0%Qc), (nth_error_ok y2p (S (S i)) 0%Qc) by lia.
      f_equal. replace (x - node x0 h i)%Qc with h by (rewrite Ex; symmetry; apply node_diff). rewrite piece_value_h by easy.
      replace ((x - x0) / h)%Qc with (zq (Z.of_nat (S i))) by (rewrite Ex; unfold node; field; exact Hne).
      field. apply six_neq.
  - intros i Hi. rewrite piece_value_0, piece_value_h by easy. split; apply nth_error_ok; lia.
Qed.

(** ** in-place loops *)
Lemma aset_same a i v : aset a i v i = v.
Proof. unfold aset. now rewrite Nat.eqb_refl. Qed.
Lemma aset_other a i v k : k <> i -> aset a i v k = a k.
Proof. intro H. unfold aset. now destruct (Nat.eqb_spec k i). Qed.

Lemma range_cons a b : a < b -> range a b = a :: range (S a) b.
Proof. intro H. unfold range. replace (b - a) with (S (b - S a)) by lia. reflexivity. Qed.
Lemma range_nil a b : b <= a -> range a b = [].
Proof. intro H. unfold range. now replace (b - a) with 0 by lia. Qed.
Lemma range_snoc a b : a <= b -> range a (S b) = range a b ++ [b].
Proof. intro H. unfold range. replace (S b - a) with (S (b - a)) by lia. rewrite seq_S. do 3 f_equal. lia. Qed.
Lemma range_app a b c : a <= b -> b <= c -> range a c = range a b ++ range b c.
Proof. intros H1 H2. unfold range. replace (c - a) with ((b - a) + (c - b)) by lia. rewrite seq_app. do 2 f_equal. lia. Qed.

Section Natural.
Variable junk : arr.
Variables (f : arr) (h : Qc) (n : nat).
Hypothesis Hn : 2 <= n.
Hypothesis Hh : h <> 0%Qc.

Let d2 i := (f (i + 1)%nat + f (i - 1)%nat - zq 2 * f i)%Qc.
(** the eliminated coefficients *)
Fixpoint nc (i : nat) : Qc := match i with 0 => 0%Qc | S i => ((fq 1 2 - 1) / (fq 1 2 * nc i + zq 2))%Qc end.
Fixpoint ne (i : nat) : Qc :=
  match i with 0 => 0%Qc | S j => ((zq 3 * (d2 (S j) / h) / h - fq 1 2 * ne j) / (fq 1 2 * nc j + zq 2))%Qc end.

Lemma nc_bound i : (- (1) <= nc i /\ nc i <= 0)%Qc.
Proof.
  induction i as [|i [IH1 IH2]]; cbn [nc]; [split; discriminate|].
  assert (1 <= fq 1 2 * nc i + zq 2)%Qc as H by qlra.
  assert (0 < fq 1 2 * nc i + zq 2)%Qc as H0 by qlra.
  split; [apply Qcle_div|apply Qcdiv_le]; auto; qlra.
Qed.
Lemma np_pos i : (0 < fq 1 2 * nc i + zq 2)%Qc.
Proof. destruct (nc_bound i). qlra. Qed.

Lemma natural_forward_inv m :
  m <= n - 2 ->
  let st := fold_left (natural_forward f h) (range 1 (S m)) (aset (aset junk (n - 1) 0%Qc) 0 0%Qc, aset junk 0 0%Qc) in
  (forall k, k <= m -> fst st k = nc k /\ snd st k = ne k) /\ fst st (n - 1) = 0%Qc.
Proof.
  induction m as [|m IH]; intro Hm; cbn zeta.
  - cbn. split.
    + intros k Hk. assert (k = 0) as -> by lia. split; [apply aset_same|]. unfold aset; reflexivity.
    + rewrite aset_other by lia. apply aset_same.
  - rewrite range_snoc by lia. rewrite fold_left_app. destruct (IH ltac:(lia)) as [A B]. clear IH.
    destruct (fold_left (natural_forward f h) (range 1 (S m)) _) as [y u]. cbn [fst snd fold_left natural_forward] in *.
    replace (S m - 1) with m by lia. destruct (A m) as [Am1 Am2]; [lia|].
    split.
    + intros k Hk. destruct (Nat.eq_dec k (S m)) as [->|N].
      * rewrite !aset_same. cbn [nc ne]. rewrite (aset_other u (S m) _ m) by lia. rewrite Am1, Am2.
        unfold d2. replace (S m - 1) with m by lia. split; reflexivity.
      * rewrite !aset_other by easy. apply A. lia.
    + rewrite aset_other by lia. exact B.
Qed.
Lemma natural_backward_inv u y0 a len :
  let y := fold_left (natural_backward u) (rev (seq a len)) y0 in
  (forall i, a <= i < a + len -> y i = (y0 i * y (i + 1)%nat + u i)%Qc) /\
  (forall i, i < a \/ a + len <= i -> y i = y0 i).
Proof.
  revert a. induction len as [|len IH]; intro a; cbn zeta.
  - cbn. split; [lia|easy].
  - cbn [seq rev]. rewrite fold_left_app. cbn [fold_left]. destruct (IH (S a)) as [A B]. clear IH.
    set (y := fold_left (natural_backward u) (rev (seq (S a) len)) y0) in *. clearbody y. unfold natural_backward.
    split.
    + intros i Hi. destruct (Nat.eq_dec i a) as [->|N].
      * rewrite aset_same, aset_other by lia. now rewrite (B a) by lia.
      * rewrite !aset_other by lia. apply A. lia.
    + intros i Hi. rewrite aset_other by lia. apply B. lia.
Qed.

Lemma natural_solution :
  let st := fold_left (natural_forward f h) (range 1 (n - 1)) (aset (aset junk (n - 1) 0%Qc) 0 0%Qc, aset junk 0 0%Qc) in
  let y := fold_left (natural_backward (snd st)) (range_down 1 (n - 1)) (fst st) in
  y 0 = 0%Qc /\ y (n - 1) = 0%Qc /\
  forall i, 1 <= i -> i < n - 1 ->
   (y (i - 1)%nat + zq 4 * y i + y (i + 1)%nat = zq 6 / (h * h) * (f (i + 1)%nat - zq 2 * f i + f (i - 1)%nat))%Qc.
Proof.
  cbn zeta. pose proof (natural_forward_inv (n - 2) (le_n _)) as F. cbn zeta in F.
  replace (S (n - 2)) with (n - 1) in F by lia. destruct F as [A B].
  set (st := fold_left (natural_forward f h) (range 1 (n - 1)) _) in *. clearbody st. destruct st as [y0 u]. cbn [fst snd] in *.
  destruct (natural_backward_inv u y0 1 (n - 1 - 1)) as [C D]. unfold range_down, range.
  set (y := fold_left (natural_backward u) (rev (seq 1 (n - 1 - 1))) y0) in *. clearbody y.
  assert (y 0 = 0%Qc) as Y0 by (rewrite D by lia; destruct (A 0) as [-> _]; [lia|reflexivity]).
  split; [exact Y0|]. split; [now rewrite D by lia|].
  intros i H1 H2.
  assert (forall k, k < n - 1 -> y k = (nc k * y (k + 1)%nat + ne k)%Qc) as R.
  { intros k Hk. destruct k as [|k].
    - cbn [nc ne]. rewrite Y0. ring.
    - rewrite C by lia. destruct (A (S k)) as [-> ->]; [lia|reflexivity]. }
  destruct i as [|j]; [lia|]. replace (S j - 1) with j by lia.
  pose proof (R j ltac:(lia)) as Rj. pose proof (R (S j) ltac:(lia)) as Ri.
  replace (j + 1) with (S j) in Rj by lia. rewrite Rj.
  cbn [nc ne] in Ri. unfold d2 in Ri. replace (S j - 1) with j in Ri by lia.
  pose proof (Qc_pos_neq _ (np_pos j)) as Hp.
  set (F1 := f (S j + 1)) in *. set (F2 := f j) in *. set (F3 := f (S j)) in *.
  set (Yn := y (S j + 1)) in *. set (Y := y (S j)) in *. set (C0 := nc j) in *. set (E0 := ne j) in *.
  clearbody F1 F2 F3 Yn Y C0 E0.
  assert ((fq 1 2 * C0 + zq 2) * Y = (fq 1 2 - 1) * Yn + (zq 3 * ((F1 + F2 - zq 2 * F3) / h) / h - fq 1 2 * E0))%Qc as Q.
  { rewrite Ri. field. split; [exact Hh|exact Hp]. }
  assert (C0 * Y = zq 2 * ((fq 1 2 - 1) * Yn + (zq 3 * ((F1 + F2 - zq 2 * F3) / h) / h - fq 1 2 * E0)) - zq 4 * Y)%Qc as Q2.
  { rewrite <- Q. replace (zq 4) with (zq 2 * zq 2)%Qc by reflexivity. rewrite half_eq, zq2. field. apply two_neq. }
  rewrite Q2. replace (zq 4) with ((1+1) * (1+1))%Qc by reflexivity. rewrite half_eq, zq6, zq3, zq2. field. nz.
Qed.
End Natural.

Lemma nth_map_seq (y : arr) n i : i < n -> nth i (map y (seq 0 n)) 0%Qc = y i.
Proof.
  intro H. rewrite (nth_indep _ 0%Qc (y 0)) by now rewrite map_length, seq_length.
  now rewrite map_nth, seq_nth.
Qed.

Lemma natural_spline junk x0 h fp :
  (0 < h)%Qc -> 2 <= length fp ->
  let s := spline_cubic_natural junk fp h in
  exists piece,
    piecewise (fun x => fast_eval_interp1d_cubic x x0 h fp s) x0 h (length fp) piece /\
    interpolates fp h piece /\
    (forall i, S (S i) < length fp ->
       slope (piece i) h = slope (piece (S i)) 0 /\ curvature (piece i) h = curvature (piece (S i)) 0) /\
    curvature (piece 0) 0 = 0%Qc /\ curvature (piece (length fp - 2)) h = 0%Qc.
Proof.
  intros Hh Hn s. pose proof (Qc_pos_neq h Hh) as Hne.
  pose proof (natural_solution junk (fun i => nth i fp 0%Qc) h (length fp) Hn Hne) as (Y0 & Yn & Ys). cbn zeta in Y0, Yn, Ys.
  set (st := fold_left (natural_forward (fun i => nth i fp 0%Qc) h) (range 1 (length fp - 1))
             (aset (aset junk (length fp - 1) 0%Qc) 0 0%Qc, aset junk 0 0%Qc)) in *.
  assert (s = map (fold_left (natural_backward (snd st)) (range_down 1 (length fp - 1)) (fst st)) (seq 0 (length fp))) as Es.
  { unfold s, spline_cubic_natural. fold st. now destruct st. }
  set (y := fold_left (natural_backward (snd st)) (range_down 1 (length fp - 1)) (fst st)) in *. clearbody y s. clear st.
  assert (length s = length fp) as Hl by (rewrite Es, map_length, seq_length; reflexivity).
  exists (piece_of fp s h). destruct (cubic_eval_piece x0 h fp s Hh Hn Hl) as [P I].
  split; [exact P|]. split; [exact I|].
  assert (forall i, i < length fp -> nth i s 0%Qc = y i) as Ns by (intros; rewrite Es; now apply nth_map_seq).
  split; [|split].
  - intros i Hi. split.
    + assert (slope (piece_of fp s h i) h - slope (piece_of fp s h (S i)) 0 = 0)%Qc as Z; [|revert Z; generalize (slope (piece_of fp s h i) h); intros a Z; qlra].
      rewrite slope_jump by easy. rewrite !Ns by lia.
      specialize (Ys (S i) ltac:(lia) ltac:(lia)). replace (S i - 1) with i in Ys by lia. replace (S i + 1) with (S (S i)) in Ys by lia.
      rewrite Ys. ring.
    + now rewrite piece_curv_h, piece_curv_0.
  - rewrite piece_curv_0, Ns by lia. exact Y0.
  - rewrite piece_curv_h by easy. replace (S (length fp - 2)) with (length fp - 1) by lia. rewrite Ns by lia. exact Yn.
Qed.
