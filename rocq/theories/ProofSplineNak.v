From Coq Require Import String ZArith List Bool Arith Lia Field Qcanon.
From Verif Require Import Num Exn NpList NpListFacts ModelInterp SpecInterp ProofInterp ProofSpline.
Import ListNotations.
Local Open Scope nat_scope.

Lemma fold_left_ext_in {A B} (f g : A -> B -> A) l a :
  (forall a x, In x l -> f a x = g a x) -> fold_left f l a = fold_left g l a.
Proof.
  revert a. induction l as [|x l IH]; intros a H; [easy|]. cbn. rewrite H by now left.
  apply IH. intros. apply H. now right.
Qed.
Lemma in_range a b i : In i (range a b) <-> a <= i < b.
Proof. unfold range. rewrite in_seq. lia. Qed.

Lemma nak_forward_inv c y0 a len :
  let y := fold_left (nak_forward c) (seq a len) y0 in
  (forall i, a <= i < a + len -> y (i + 1) = (y0 (i + 1)%nat - c i * y i)%Qc) /\
  (forall k, k <= a \/ a + len < k -> y k = y0 k).
Proof.
  revert y0. induction len as [|len IH]; intro y0; cbn zeta.
  - cbn. split; [lia|easy].
  - rewrite seq_S, fold_left_app. cbn [fold_left]. destruct (IH y0) as [A B]. cbn zeta in A, B. clear IH.
    set (y := fold_left (nak_forward c) (seq a len) y0) in *. clearbody y. unfold nak_forward.
    split.
    + intros i Hi. destruct (Nat.eq_dec i (a + len)) as [->|N].
      * rewrite aset_same, aset_other by lia. now rewrite (B (a + len + 1)) by lia.
      * rewrite !aset_other by lia. apply A. lia.
    + intros k Hk. rewrite aset_other by lia. apply B. lia.
Qed.
Lemma nak_backward_inv c y0 a len :
  let y := fold_left (nak_backward c) (rev (seq a len)) y0 in
  (forall i, a <= i < a + len -> y (i + 1) = ((y0 (i + 1)%nat - y (i + 2)%nat) / c i)%Qc) /\
  (forall k, k <= a \/ a + len < k -> y k = y0 k).
Proof.
  revert a. induction len as [|len IH]; intro a; cbn zeta.
  - cbn. split; [lia|easy].
  - cbn [seq rev]. rewrite fold_left_app. cbn [fold_left]. destruct (IH (S a)) as [A B]. clear IH.
    set (y := fold_left (nak_backward c) (rev (seq (S a) len)) y0) in *. clearbody y. unfold nak_backward.
    split.
    + intros i Hi. destruct (Nat.eq_dec i a) as [->|N].
      * rewrite aset_same, aset_other by lia. now rewrite (B (a + 1)) by lia.
      * rewrite !aset_other by lia. apply A. lia.
    + intros k Hk. rewrite aset_other by lia. apply B. lia.
Qed.
Lemma nak_rhs_inv f y0 a len :
  let y := fold_left (nak_rhs f) (seq a len) y0 in
  (forall i, a <= i < a + len -> y i = (f (i - 1)%nat - zq 2 * f i + f (i + 1)%nat)%Qc) /\
  (forall k, k < a \/ a + len <= k -> y k = y0 k).
Proof.
  revert y0. induction len as [|len IH]; intro y0; cbn zeta.
  - cbn. split; [lia|easy].
  - rewrite seq_S, fold_left_app. cbn [fold_left]. destruct (IH y0) as [A B]. cbn zeta in A, B. clear IH.
    set (y := fold_left (nak_rhs f) (seq a len) y0) in *. clearbody y. unfold nak_rhs.
    split.
    + intros i Hi. destruct (Nat.eq_dec i (a + len)) as [->|N]; [apply aset_same|].
      rewrite aset_other by lia. apply A. lia.
    + intros k Hk. rewrite aset_other by lia. apply B. lia.
Qed.

(** tables continued by their last element *)
Definition pc (i : nat) : Qc := p_at (Nat.min (i - 1) 14).
Definition uc (i : nat) : Qc := u_at (Nat.min i 15).

Lemma forward_loops n y :
  fold_left (nak_forward (fun _ => p_at (length p_tab - 1))) (range (length p_tab + 1) (n - 3))
    (fold_left (nak_forward (fun i => p_at (i - 1))) (range 1 (Nat.min (n - 3) (length p_tab + 1))) y)
  = fold_left (nak_forward pc) (range 1 (n - 3)) y.
Proof.
  change (length p_tab) with 15. change (15 + 1) with 16. change (15 - 1) with 14.
  rewrite (fold_left_ext_in (nak_forward (fun i => p_at (i - 1))) (nak_forward pc)).
  2:{ intros a x Hx. apply in_range in Hx. unfold nak_forward, pc. rewrite (Nat.min_l (x - 1)) by lia. reflexivity. }
  rewrite (fold_left_ext_in (nak_forward (fun _ => p_at 14)) (nak_forward pc)).
  2:{ intros a x Hx. apply in_range in Hx. unfold nak_forward, pc. rewrite (Nat.min_r (x - 1)) by lia. reflexivity. }
  destruct (le_lt_dec (n - 3) 16) as [L|L].
  - rewrite (range_nil 16) by lia. now rewrite Nat.min_l.
  - rewrite Nat.min_r by lia. rewrite (range_app 1 16 (n - 3)) by lia. now rewrite fold_left_app.
Qed.
Lemma backward_loops n y :
  fold_left (nak_backward u_at) (range_down 1 (S (Nat.min (n - 4) (length u_tab - 1))))
    (fold_left (nak_backward (fun _ => u_at (length u_tab - 1))) (range_down (length u_tab) (n - 3)) y)
  = fold_left (nak_backward uc) (range_down 1 (n - 3)) y.
Proof.
  change (length u_tab) with 16. change (16 - 1) with 15. unfold range_down.
  rewrite (fold_left_ext_in (nak_backward u_at) (nak_backward uc)).
  2:{ intros a x Hx. apply in_rev, in_range in Hx. unfold nak_backward, uc. rewrite (Nat.min_l x) by lia. reflexivity. }
  rewrite (fold_left_ext_in (nak_backward (fun _ => u_at 15)) (nak_backward uc)).
  2:{ intros a x Hx. apply in_rev, in_range in Hx. unfold nak_backward, uc. rewrite (Nat.min_r x) by lia. reflexivity. }
  destruct (le_lt_dec (n - 3) 16) as [L|L].
  - rewrite (range_nil 16) by lia. rewrite Nat.min_l by lia. cbn [rev fold_left].
    destruct (le_lt_dec 4 n) as [M|M].
    + now replace (S (n - 4)) with (n - 3) by lia.
    + rewrite !range_nil by lia. reflexivity.
  - rewrite Nat.min_r by lia. rewrite (range_app 1 16 (n - 3)) by lia. rewrite rev_app_distr, fold_left_app. reflexivity.
Qed.

(** error of the tables *)
Definition tol : Qc := fq 1 4000000000000000.
Definition small (x : Qc) : bool := qleb (- tol) x && qleb x tol.
Lemma small_spec x : small x = true -> (- tol <= x /\ x <= tol)%Qc.
Proof. unfold small. rewrite andb_true_iff, !qleb_true. easy. Qed.
Definition table_check (m : nat) : bool :=
  small (1 - pc (S m) * uc m) && small (zq 4 - uc (S m) - (if Nat.eqb m 0 then 0 else pc (S m))).
Lemma table_ok m : table_check m = true.
Proof.
  assert (forallb table_check (seq 0 16) = true) as H by (vm_compute; reflexivity).
  rewrite forallb_forall in H. destruct (le_lt_dec m 15) as [L|L].
  - apply H, in_seq. lia.
  - rewrite <- (H 15) by (apply in_seq; lia). unfold table_check, pc, uc.
    replace (Nat.eqb m 0) with false by (symmetry; apply Nat.eqb_neq; lia).
    rewrite !Nat.min_r by lia. reflexivity.
Qed.
Lemma uc_pos i : (0 < uc i)%Qc.
Proof.
  assert (forallb (fun i => qltb 0 (u_at i)) (seq 0 16) = true) as H by (vm_compute; reflexivity).
  rewrite forallb_forall in H. apply qltb_true, (H (Nat.min i 15)), in_seq. lia.
Qed.

Lemma residual_bound a b y z : small a = true -> small b = true ->
  (qabs (a * y + b * z) <= tol * (qabs y + qabs z))%Qc.
Proof.
  intros Ha Hb. apply small_spec in Ha. apply small_spec in Hb. destruct Ha as [A1 A2], Hb as [B1 B2].
  assert (0 <= tol)%Qc as T by discriminate. generalize dependent tol. intros e A1 A2 B1 B2 T.
  unfold qabs. repeat qcase; qnra.
Qed.

Lemma u_at_0 : u_at 0 = zq 6. Proof. apply Qc_is_canon. reflexivity. Qed.
Lemma uc_0 : uc 0 = zq 6. Proof. apply u_at_0. Qed.

Section Nak.
Variable junk : arr.
Variables (f : arr) (n : nat).
Hypothesis Hn : 4 <= n.
Definition nak_raw : arr :=
  let psize := length p_tab in
  let usize := length u_tab in
  let y := fold_left (nak_rhs f) (range 1 (n - 1)) junk in
  let y := fold_left (nak_forward (fun i => p_at (i - 1))) (range 1 (Nat.min (n - 3) (psize + 1))) y in
  let y := fold_left (nak_forward (fun _ => p_at (psize - 1))) (range (psize + 1) (n - 3)) y in
  let y := aset y (n - 2) (y (n - 2)%nat / u_at 0%nat)%Qc in
  let y := fold_left (nak_backward (fun _ => u_at (usize - 1))) (range_down usize (n - 3)) y in
  let y := fold_left (nak_backward u_at) (range_down 1 (S (Nat.min (n - 4) (usize - 1)))) y in
  let y := aset y 1 (y 1%nat / u_at 0%nat)%Qc in
  let y := aset y 0 (zq 2 * y 1%nat - y 2%nat)%Qc in
  aset y (n - 1) (zq 2 * y (n - 2)%nat - y (n - 3)%nat)%Qc.

Lemma nak_facts :
  exists D : arr, let y := nak_raw in let d k := (f (k - 1)%nat - zq 2 * f k + f (k + 1)%nat)%Qc in
  (y 0%nat = zq 2 * y 1%nat - y 2%nat)%Qc /\
  (y (n - 1)%nat = zq 2 * y (n - 2)%nat - y (n - 3)%nat)%Qc /\
  (zq 6 * y 1%nat = d 1%nat)%Qc /\ (zq 6 * y (n - 2)%nat = d (n - 2)%nat)%Qc /\ D 1 = d 1 /\
  (forall k, 2 <= k -> k <= n - 3 -> (uc (k - 1) * y k + y (k + 1)%nat = D k)%Qc /\ (D k = d k - pc (k - 1) * D (k - 1)%nat)%Qc).
Proof.
  unfold nak_raw. cbn zeta. rewrite forward_loops, backward_loops.
  unfold range_down, range.
  destruct (nak_rhs_inv f junk 1 (n - 1 - 1)) as [R1 _]. cbn zeta in R1.
  set (y1 := fold_left (nak_rhs f) (seq 1 (n - 1 - 1)) junk) in *. clearbody y1.
  destruct (nak_forward_inv pc y1 1 (n - 3 - 1)) as [F1 F2]. cbn zeta in F1, F2.
  set (D := fold_left (nak_forward pc) (seq 1 (n - 3 - 1)) y1) in *. clearbody D.
  set (E := aset D (n - 2) (D (n - 2)%nat / u_at 0%nat)%Qc) in *.
  destruct (nak_backward_inv uc E 1 (n - 3 - 1)) as [B1 B2]. cbn zeta in B1, B2.
  set (B := fold_left (nak_backward uc) (rev (seq 1 (n - 3 - 1))) E) in *. clearbody B.
  rewrite u_at_0 in *.
  assert (D 1 = (f (1 - 1)%nat - zq 2 * f 1%nat + f (1 + 1)%nat)%Qc) as D1 by (rewrite F2 by lia; apply R1; lia).
  assert (B 1 = D 1) as EB1 by (rewrite B2 by lia; unfold E; now rewrite aset_other by lia).
  assert (B (n - 2) = (D (n - 2)%nat / zq 6)%Qc) as EB2 by (rewrite B2 by lia; unfold E; apply aset_same).
  exists D.
  set (W := aset B 1 (B 1%nat / zq 6)%Qc).
  set (V := aset W 0 (zq 2 * W 1%nat - W 2%nat)%Qc).
  set (Z := aset V (n - 1) (zq 2 * V (n - 2)%nat - V (n - 3)%nat)%Qc).
  assert (forall k, k <> 0 -> V k = W k) as VW by (intros; unfold V; now rewrite aset_other).
  assert (forall k, k <> n - 1 -> Z k = V k) as ZV by (intros; unfold Z; now rewrite aset_other).
  assert (Z (n - 1) = (zq 2 * V (n - 2)%nat - V (n - 3)%nat)%Qc) as Zl by apply aset_same.
  assert (V 0 = (zq 2 * W 1%nat - W 2%nat)%Qc) as V0 by apply aset_same.
  assert (forall k, k <> 1 -> W k = B k) as WB by (intros; unfold W; now rewrite aset_other).
  assert (W 1 = (B 1%nat / zq 6)%Qc) as W1 by apply aset_same.
  clearbody W V Z.
  split; [rewrite !ZV by lia; rewrite V0, !VW by lia; reflexivity|].
  split; [rewrite Zl, !ZV by lia; reflexivity|].
  split; [rewrite ZV, VW, W1, EB1, D1 by lia; field; nz|].
  split; [rewrite ZV, VW, WB, EB2, F2 by lia; rewrite R1 by lia; field; nz|].
  split; [exact D1|].
  intros k H1 H2. rewrite !ZV, !VW, !WB by lia.
  split.
  - specialize (B1 (k - 1) ltac:(lia)). replace (k - 1 + 1) with k in B1 by lia. replace (k - 1 + 2) with (k + 1) in B1 by lia.
    rewrite B1. unfold E at 1. rewrite aset_other by lia. field. apply Qc_pos_neq, uc_pos.
  - specialize (F1 (k - 1) ltac:(lia)). replace (k - 1 + 1) with k in F1 by lia. rewrite F1, R1 by lia. reflexivity.
Qed.

Lemma qabs_nonneg x : (0 <= qabs x)%Qc.
Proof. unfold qabs. qcase; qlra. Qed.
Lemma exact_row r y z : r = 0%Qc -> (qabs r <= tol * (qabs y + qabs z))%Qc.
Proof.
  intros ->. change (qabs 0) with 0%Qc. pose proof (qabs_nonneg y). pose proof (qabs_nonneg z).
  apply Qcmult_nonneg; [discriminate|qlra].
Qed.
Lemma nak_solution :
  let y := nak_raw in
  (y 0%nat - zq 2 * y 1%nat + y 2%nat = 0)%Qc /\
  (y (n - 3)%nat - zq 2 * y (n - 2)%nat + y (n - 1)%nat = 0)%Qc /\
  forall k, 1 <= k -> k < n - 1 ->
    (qabs ((y (k - 1)%nat + zq 4 * y k + y (k + 1)%nat) - (f (k - 1)%nat - zq 2 * f k + f (k + 1)%nat))
     <= tol * (qabs (y (k - 1)%nat) + qabs (y k)))%Qc.
Proof.
  cbn zeta. destruct nak_facts as (D & Y0 & Yn & Y1 & Yn2 & D1 & Ys). cbn zeta in Y0, Yn, Y1, Yn2, D1, Ys.
  set (y := nak_raw) in *. clearbody y.
  split; [rewrite Y0; ring|]. split; [rewrite Yn; ring|].
  intros k H1 H2.
  destruct (Nat.eq_dec k 1) as [->|N1].
  { apply exact_row. cbn [Nat.sub Nat.add] in *. rewrite <- Y1, Y0.
    replace (zq 6) with (zq 2 + zq 4)%Qc by reflexivity. ring. }
  destruct (Nat.eq_dec k (n - 2)) as [->|N2].
  { apply exact_row. rewrite <- Yn2. replace (n - 2 + 1) with (n - 1) by lia. replace (n - 2 - 1) with (n - 3) by lia. rewrite Yn.
    replace (zq 6) with (zq 2 + zq 4)%Qc by reflexivity. ring. }
  destruct (Ys k ltac:(lia) ltac:(lia)) as [A1 A2].
  pose proof (table_ok (k - 2)) as T. unfold table_check in T. apply andb_true_iff in T. destruct T as [T1 T2].
  replace (S (k - 2)) with (k - 1) in T1, T2 by lia.
  set (dk := (f (k - 1)%nat - zq 2 * f k + f (k + 1)%nat)%Qc) in *. clearbody dk.
  assert (dk = D k + pc (k - 1) * D (k - 1)%nat)%Qc as Ed by (rewrite A2; ring).
  destruct (Nat.eq_dec k 2) as [->|N3].
  - cbn [Nat.sub Nat.add Nat.eqb] in *. rewrite <- Y1 in D1. rewrite <- A1, D1 in Ed. rewrite uc_0 in T1.
    replace (y 1%nat + zq 4 * y 2%nat + y 3%nat - dk)%Qc
      with ((1 - pc 1 * zq 6) * y 1%nat + (zq 4 - uc 1 - 0) * y 2%nat)%Qc by (rewrite Ed; ring).
    now apply residual_bound.
  - destruct (Ys (k - 1) ltac:(lia) ltac:(lia)) as [B1 _]. replace (k - 1 + 1) with k in B1 by lia. replace (k - 1 - 1) with (k - 2) in B1 by lia.
    replace (Nat.eqb (k - 2) 0) with false in T2 by (symmetry; apply Nat.eqb_neq; lia).
    rewrite <- A1, <- B1 in Ed.
    replace (y (k - 1)%nat + zq 4 * y k + y (k + 1)%nat - dk)%Qc
      with ((1 - pc (k - 1) * uc (k - 2)) * y (k - 1)%nat + (zq 4 - uc (k - 1) - pc (k - 1)) * y k)%Qc by (rewrite Ed; ring).
    now apply residual_bound.
Qed.
End Nak.

Lemma qabs_mult a b : qabs (a * b) = (qabs a * qabs b)%Qc.
Proof. unfold qabs. repeat qcase; try ring; qnra. Qed.
Lemma qabs_pos a : (0 < a)%Qc -> qabs a = a.
Proof. intro H. unfold qabs. qcase; [easy|]. exfalso. qlra. Qed.

Lemma notaknot_spline junk x0 h fp :
  (0 < h)%Qc -> 4 <= length fp ->
  let s := spline_cubic_notaknot junk fp h in
  let n := length fp in
  exists piece,
    piecewise (fun x => fast_eval_interp1d_cubic x x0 h fp s) x0 h n piece /\
    interpolates fp h piece /\
    (forall i, S (S i) < n ->
       curvature (piece i) h = curvature (piece (S i)) 0 /\
       (qabs (slope (piece i) h - slope (piece (S i)) 0)
        <= fq 1 4000000000000000 * (h / zq 6) * (qabs (curvature (piece i) 0) + qabs (curvature (piece i) h)))%Qc) /\
    third (piece 0) = third (piece 1) /\ third (piece (n - 3)) = third (piece (n - 2)).
Proof.
  intros Hh Hn s n. pose proof (Qc_pos_neq h Hh) as Hne.
  pose proof (nak_solution junk (fun i => nth i fp 0%Qc) n Hn) as (Y0 & Yn & Ys). cbn zeta in Y0, Yn, Ys.
  assert (s = map (fun i => nak_raw junk (fun i => nth i fp 0%Qc) n i * (zq 6 / (h * h)))%Qc (seq 0 n)) as Es by reflexivity.
  set (y := nak_raw junk (fun i => nth i fp 0%Qc) n) in *. clearbody y s.
  assert (length s = length fp) as Hl by (rewrite Es, map_length, seq_length; reflexivity).
  exists (piece_of fp s h). destruct (cubic_eval_piece x0 h fp s Hh ltac:(lia) Hl) as [P I].
  split; [exact P|]. split; [exact I|].
  assert (forall i, i < n -> nth i s 0%Qc = (y i * (zq 6 / (h * h)))%Qc) as Ns
    by (intros; rewrite Es; now rewrite nth_map_seq).
  split; [|split].
  - intros i Hi. split; [now rewrite piece_curv_h, piece_curv_0|].
    rewrite slope_jump by easy. rewrite piece_curv_0, piece_curv_h by easy. rewrite !Ns by lia.
    specialize (Ys (S i) ltac:(lia) ltac:(lia)). replace (S i - 1) with i in Ys by lia. replace (S i + 1) with (S (S i)) in Ys by lia.
    set (g := (zq 6 / (h * h))%Qc) in *. assert (0 < g)%Qc as Hg by (apply Qcdiv_pos; [reflexivity|now apply Qcmult_pos]).
    assert (0 < h / zq 6)%Qc as Hc by (apply Qcdiv_pos; [easy|reflexivity]).
    replace (h / zq 6 * (y i * g + zq 4 * (y (S i) * g) + y (S (S i)) * g
       - g * (nth (S (S i)) fp 0 - zq 2 * nth (S i) fp 0 + nth i fp 0)))%Qc
      with (h / zq 6 * g * (y i + zq 4 * y (S i) + y (S (S i)) - (nth i fp 0 - zq 2 * nth (S i) fp 0 + nth (S (S i)) fp 0)))%Qc by ring.
    rewrite qabs_mult, (qabs_pos (h / zq 6 * g)) by now apply Qcmult_pos. rewrite !qabs_mult, (qabs_pos g) by easy.
    replace (fq 1 4000000000000000 * (h / zq 6) * (qabs (y i) * g + qabs (y (S i)) * g))%Qc
      with (h / zq 6 * g * (tol * (qabs (y i) + qabs (y (S i)))))%Qc by (unfold tol; ring).
    rewrite !(Qcmult_comm (h / zq 6 * g)). apply Qcmult_le_compat_r; [exact Ys|]. apply Qclt_le_weak. now apply Qcmult_pos.
  - rewrite !piece_third by easy. rewrite !Ns by lia. f_equal. 
    set (g := (zq 6 / (h * h))%Qc). replace (y 0%nat) with (zq 2 * y 1%nat - y 2%nat)%Qc by (revert Y0; generalize (y 0%nat), (y 1%nat), (y 2%nat); intros; qlra).
    rewrite zq2. ring.
  - rewrite !piece_third by easy. replace (S (n - 3)) with (n - 2) by lia. replace (S (n - 2)) with (n - 1) by lia. rewrite !Ns by lia. f_equal.
    set (g := (zq 6 / (h * h))%Qc).
    replace (y (n - 1)%nat) with (zq 2 * y (n - 2)%nat - y (n - 3)%nat)%Qc by (revert Yn; generalize (y (n - 1)%nat), (y (n - 2)%nat), (y (n - 3)%nat); intros; qlra).
    rewrite zq2. ring.
Qed.

(** with three nodes the result contains uninitialised memory *)
Lemma notaknot_three junk a b c h :
  nth_error (spline_cubic_notaknot junk [a; b; c] h) 0 = Some ((zq 2 * ((a - zq 2 * b + c) / u_at 0 / u_at 0) - junk 2%nat) * (zq 6 / (h * h)))%Qc.
Proof. reflexivity. Qed.
Lemma notaknot_three_junk a b c h :
  h <> 0%Qc -> exists junk junk', spline_cubic_notaknot junk [a; b; c] h <> spline_cubic_notaknot junk' [a; b; c] h.
Proof.
  intro Hh. exists (fun _ => 0%Qc), (fun _ => 1%Qc). intro E. apply (f_equal (fun l => nth_error l 0)) in E.
  rewrite !notaknot_three in E.
  assert (zq 6 / (h * h) <> 0)%Qc as G.
  { apply Qc_pos_neq, Qcdiv_pos; [reflexivity|]. destruct (Qc_dec h 0) as [Z|Z]; [easy|].
    destruct (Qclt_le_dec 0 h); [now apply Qcmult_pos|].
    assert (h < 0)%Qc by (apply Qcle_lt_or_eq in q; destruct q; easy). qnra. }
  revert E. generalize (zq 2 * ((a - zq 2 * b + c) / u_at 0 / u_at 0))%Qc. generalize dependent (zq 6 / (h * h))%Qc.
  intros g G w E. assert ((w - 0) * g = (w - 1) * g)%Qc as E' by congruence.
  apply G. replace g with ((w - 0) * g - (w - 1) * g)%Qc by ring. rewrite E'. ring.
Qed.

(** objects *)
Lemma cubic_reset_init junk junk' x0 h fp0 bc s fp :
  cubic_init junk x0 h fp0 bc = Ok s -> cubic_init junk' x0 h fp bc = Ok (cubic_reset junk' s fp).
Proof. destruct bc; cbn; intro E; try discriminate; injection E as <-; reflexivity. Qed.
Lemma natural_object junk x0 h fp s :
  (0 < h)%Qc -> 2 <= length fp -> cubic_init junk x0 h fp Natural = Ok s ->
  exists piece,
    piecewise (cubic_call s) x0 h (length fp) piece /\
    interpolates fp h piece /\
    (forall i, S (S i) < length fp ->
       slope (piece i) h = slope (piece (S i)) 0 /\ curvature (piece i) h = curvature (piece (S i)) 0) /\
    curvature (piece 0) 0 = 0%Qc /\ curvature (piece (length fp - 2)) h = 0%Qc.
Proof. intros Hh Hn [= <-]. exact (natural_spline junk x0 h fp Hh Hn). Qed.
Lemma notaknot_object junk x0 h fp s :
  (0 < h)%Qc -> 4 <= length fp -> cubic_init junk x0 h fp NotAKnot = Ok s ->
  exists piece,
    piecewise (cubic_call s) x0 h (length fp) piece /\
    interpolates fp h piece /\
    (forall i, S (S i) < length fp ->
       curvature (piece i) h = curvature (piece (S i)) 0 /\
       (qabs (slope (piece i) h - slope (piece (S i)) 0)
        <= fq 1 4000000000000000 * (h / zq 6) * (qabs (curvature (piece i) 0) + qabs (curvature (piece i) h)))%Qc) /\
    third (piece 0) = third (piece 1) /\ third (piece (length fp - 3)) = third (piece (length fp - 2)).
Proof. intros Hh Hn [= <-]. exact (notaknot_spline junk x0 h fp Hh Hn). Qed.
Lemma mypoly1d_sum coef x :
  mypoly1d coef x = qsum (map (fun i => nth i coef 0 * x ^ i)%Qc (seq 0 (length coef))).
Proof. rewrite mypoly1d_horner. apply horner_sum. Qed.

(** ** uniqueness of the natural spline *)
Lemma cubic_ext p q : k0 p = k0 q -> k1 p = k1 q -> k2 p = k2 q -> k3 p = k3 q -> p = q.
Proof. destruct p, q; cbn; congruence. Qed.
(** a cubic is determined by its end values and end curvatures *)
Lemma cubic_determined h p y1 y2 m1 m2 :
  h <> 0%Qc -> value p 0 = y1 -> value p h = y2 -> curvature p 0 = m1 -> curvature p h = m2 ->
  p = mkcubic y1 ((y2 - y1) / h - h * (zq 2 * m1 + m2) / zq 6)%Qc (m1 / zq 2)%Qc ((m2 - m1) / (zq 6 * h))%Qc.
Proof.
  intros Hh <- <- <- <-. destruct p as [a b c d]. unfold value, curvature. cbn [k0 k1 k2 k3 Qcpower].
  apply cubic_ext; cbn [k0 k1 k2 k3]; try (rewrite zq6, zq2; field; nz); ring.
Qed.
(** the homogeneous system has only the zero solution *)
Lemma tridiag_growth (z : nat -> Qc) m :
  z 0 = 0%Qc -> (forall i, i < m -> (z i + zq 4 * z (S i) + z (S (S i)) = 0)%Qc) ->
  forall i, i <= m -> (qabs (z i) <= qabs (z (S i)))%Qc /\ (z (S i) = 0%Qc -> z 1 = 0%Qc).
Proof.
  intros Z0 H i. induction i as [|i IH]; intro Hi.
  - rewrite Z0. split; [|easy]. change (qabs 0) with 0%Qc. apply qabs_nonneg.
  - destruct (IH ltac:(lia)) as [A B]. specialize (H i ltac:(lia)).
    assert (zq 4 = 1+1+1+1)%Qc as E4 by reflexivity. rewrite E4 in H. split.
    + revert A H. unfold qabs. repeat qcase; intros; qlra.
    + intro C. apply B. rewrite C in H. revert A H. unfold qabs. repeat qcase; intros; qlra.
Qed.
Lemma tridiag_unique (z : nat -> Qc) m :
  z 0 = 0%Qc -> z (S m) = 0%Qc -> (forall i, i < m -> (z i + zq 4 * z (S i) + z (S (S i)) = 0)%Qc) ->
  forall i, i <= S m -> z i = 0%Qc.
Proof.
  intros Z0 Zm H. assert (z 1 = 0%Qc) as Z1.
  { destruct (tridiag_growth z m Z0 H m (le_n _)) as [_ B]. now apply B. }
  assert (forall i, i <= m -> z i = 0%Qc /\ z (S i) = 0%Qc) as A.
  { induction i as [|i IH]; intro Hi; [easy|]. destruct (IH ltac:(lia)) as [A B]. split; [easy|].
    specialize (H i ltac:(lia)). rewrite A, B in H. qlra. }
  intros i Hi. destruct i; [easy|]. now apply A; lia.
Qed.
Lemma natural_unique h fp (piece piece' : nat -> cubic) :
  (0 < h)%Qc -> 2 <= length fp ->
  let natural pc := interpolates fp h pc /\
    (forall i, S (S i) < length fp ->
       slope (pc i) h = slope (pc (S i)) 0 /\ curvature (pc i) h = curvature (pc (S i)) 0) /\
    curvature (pc 0) 0 = 0%Qc /\ curvature (pc (length fp - 2)) h = 0%Qc in
  natural piece -> natural piece' ->
  forall i, S i < length fp -> piece i = piece' i.
Proof.
  intros Hh Hn natural N N'. pose proof (Qc_pos_neq h Hh) as Hne.
  set (n := length fp) in *.
  (* curvatures at the nodes *)
  set (mm := fun (pc : nat -> cubic) i => if Nat.eqb i (n - 1) then 0%Qc else curvature (pc i) 0%Qc).
  assert (forall pc, natural pc -> mm pc 0 = 0%Qc /\ mm pc (n - 1) = 0%Qc /\
     forall i, S i < n -> pc i = piece_of fp (map (mm pc) (seq 0 n)) h i) as Det.
  { intros pc (I & C & C0 & Cn). unfold mm at 1 2. rewrite Nat.eqb_refl. split; [|split; [easy|]].
    - destruct (Nat.eqb_spec 0 (n - 1)); [lia|easy].
    - intros i Hi. destruct (I i Hi) as [I1 I2]. unfold piece_of. cbv zeta. rewrite !nth_map_seq by lia.
      apply cubic_determined; [easy|..].
      + apply (nth_error_nth fp i 0%Qc) in I1. now rewrite I1.
      + apply (nth_error_nth fp (S i) 0%Qc) in I2. now rewrite I2.
      + unfold mm. destruct (Nat.eqb_spec i (n - 1)); [lia|easy].
      + unfold mm. destruct (Nat.eqb_spec (S i) (n - 1)) as [E|E].
        * replace i with (n - 2) by lia. exact Cn.
        * apply C. lia. }
  destruct (Det piece N) as (M0 & Mn & P). destruct (Det piece' N') as (M0' & Mn' & P').
  assert (forall pc, natural pc -> (forall i, S i < n -> pc i = piece_of fp (map (mm pc) (seq 0 n)) h i) -> forall i, S (S i) < n ->
    (mm pc i + zq 4 * mm pc (S i) + mm pc (S (S i)) = zq 6 / (h * h) * (nth (S (S i)) fp 0 - zq 2 * nth (S i) fp 0 + nth i fp 0))%Qc) as Sys.
  { intros pc (I & C & C0 & Cn) Pe i Hi. destruct (C i Hi) as [S1 _]. rewrite (Pe i), (Pe (S i)) in S1 by lia.
    pose proof (slope_jump fp (map (mm pc) (seq 0 n)) h i Hne) as J. rewrite S1 in J. rewrite !nth_map_seq in J by lia.
    set (A := (mm pc i + zq 4 * mm pc (S i) + mm pc (S (S i)))%Qc) in *. 
    set (B := (zq 6 / (h * h) * (nth (S (S i)) fp 0 - zq 2 * nth (S i) fp 0 + nth i fp 0))%Qc) in *. clearbody A B.
    set (sl := slope _ _) in J. clearbody sl.
    assert (h / zq 6 <> 0)%Qc as G by (apply Qc_pos_neq, Qcdiv_pos; [easy|reflexivity]).
    assert (h / zq 6 * (A - B) = 0)%Qc as Q by (rewrite <- J; ring).
    apply Qcmult_integral in Q. destruct Q as [Q|Q]; [easy|]. qlra. }
  pose proof (Sys piece N P) as S1. pose proof (Sys piece' N' P') as S2.
  assert (forall i, i <= S (n - 2) -> (mm piece i - mm piece' i = 0)%Qc) as Z.
  { apply (tridiag_unique (fun i => mm piece i - mm piece' i)%Qc (n - 2)).
    - rewrite M0, M0'. ring.
    - replace (S (n - 2)) with (n - 1) by lia. rewrite Mn, Mn'. ring.
    - intros i Hi. specialize (S1 i ltac:(lia)). specialize (S2 i ltac:(lia)).
      replace (zq 4 * (mm piece (S i) - mm piece' (S i)))%Qc with (zq 4 * mm piece (S i) - zq 4 * mm piece' (S i))%Qc by ring.
      revert S1 S2. set (rhs := (zq 6 / (h * h) * _)%Qc). generalize rhs. intros r S1 S2. 
      replace (mm piece i - mm piece' i + (zq 4 * mm piece (S i) - zq 4 * mm piece' (S i)) + (mm piece (S (S i)) - mm piece' (S (S i))))%Qc
        with ((mm piece i + zq 4 * mm piece (S i) + mm piece (S (S i))) - (mm piece' i + zq 4 * mm piece' (S i) + mm piece' (S (S i))))%Qc by ring.
      rewrite S1, S2. ring. }
  intros i Hi. rewrite (P i Hi), (P' i Hi). f_equal. apply map_ext_in. intros k Hk. apply in_seq in Hk.
  specialize (Z k ltac:(lia)). revert Z. generalize (mm piece k), (mm piece' k). intros a b Z. qlra.
Qed.
