(** Property theorems: interpolators and polynomials (C20 - C23). *)
From Coq Require Import String ZArith List Bool Arith Lia Qcanon.
From Verif Require Import Num Exn ModelInterp SpecInterp ProofInterp ProofSpline ProofSplineNak.
Import ListNotations.
Local Open Scope nat_scope.

(** ** C20 *)
(** No access outside the table for any x, if the table has two nodes or more. *)
Theorem C20_reads_inside_table (x x0 h : Qc) (fp : list Qc) :
  2 <= length fp -> lin_call (mklin x0 h fp) x <> None.
Proof. exact (lin_eval_total x x0 h fp). Qed.
Print Assumptions C20_reads_inside_table.
(** A table with a single node is always read outside its bounds. *)
Theorem C20_single_node_out_of_bounds (x x0 h y : Qc) : lin_call (mklin x0 h [y]) x = None.
Proof. exact (lin_eval_one x x0 h y). Qed.
Print Assumptions C20_single_node_out_of_bounds.
Theorem C20_exact_on_nodes (x0 h : Qc) (fp : list Qc) (i : nat) (y : Qc) :
  (0 < h)%Qc -> 2 <= length fp -> nth_error fp i = Some y ->
  lin_call (mklin x0 h fp) (node x0 h i) = Some y.
Proof. exact (lin_eval_node x0 h fp i y). Qed.
Print Assumptions C20_exact_on_nodes.
(** On a segment, or beyond the table on the first or last one, the value lies
    on the chord of the segment. *)
Theorem C20_on_chord (x0 h : Qc) (fp : list Qc) (i : nat) (x y1 y2 : Qc) :
  (0 < h)%Qc -> in_segment x0 h (length fp) i x ->
  nth_error fp i = Some y1 -> nth_error fp (S i) = Some y2 ->
  lin_call (mklin x0 h fp) x = Some (chord (node x0 h i) y1 (node x0 h (S i)) y2 x).
Proof. exact (lin_eval_chord x0 h fp i x y1 y2). Qed.
Print Assumptions C20_on_chord.
(** Every x is in some segment, so that the previous theorem covers all x. *)
Theorem C20_segments_cover (x0 h : Qc) (n : nat) (x : Qc) :
  (0 < h)%Qc -> 2 <= n -> exists i, in_segment x0 h n i x.
Proof. exact (some_segment x0 h n x). Qed.
Print Assumptions C20_segments_cover.
Theorem C20_reproduces_affine (x0 h : Qc) (fp : list Qc) (a b x : Qc) :
  (0 < h)%Qc -> 2 <= length fp ->
  (forall i, i < length fp -> nth_error fp i = Some (a + b * node x0 h i)%Qc) ->
  lin_call (mklin x0 h fp) x = Some (a + b * x)%Qc.
Proof. exact (lin_eval_affine x0 h fp a b x). Qed.
Print Assumptions C20_reproduces_affine.
(** Inside the table the interpolation does not leave the range of the table. *)
Theorem C20_stays_in_range (x0 h : Qc) (fp : list Qc) (i : nat) (x lo hi : Qc) :
  (0 < h)%Qc -> S i < length fp -> (node x0 h i <= x)%Qc -> (x <= node x0 h (S i))%Qc ->
  (forall y, In y fp -> lo <= y /\ y <= hi)%Qc ->
  exists y, lin_call (mklin x0 h fp) x = Some y /\ (lo <= y /\ y <= hi)%Qc.
Proof. exact (lin_eval_range x0 h fp i x lo hi). Qed.
Print Assumptions C20_stays_in_range.
Theorem C20_reset_replaces_table (x0 h : Qc) (fp0 fp : list Qc) :
  lin_reset (mklin x0 h fp0) fp = mklin x0 h fp.
Proof. exact eq_refl. Qed.
Print Assumptions C20_reset_replaces_table.
Example C20_ex :
  let fp := [zq 1; zq 4; zq 2] in
  (0 < fq 1 2)%Qc /\ in_segment (zq 3) (fq 1 2) 3 1 (zq 5) /\ in_segment (zq 3) (fq 1 2) 3 0 (zq 0) /\
  lin_call (mklin (zq 3) (fq 1 2) fp) (fq 15 4) = Some (zq 3) /\
  lin_call (mklin (zq 3) (fq 1 2) fp) (zq 5) = Some (zq (-2)) /\
  lin_call (mklin (zq 3) (fq 1 2) fp) (zq 0) = Some (zq (-17)).
Proof.
  cbn zeta. split; [reflexivity|]. split; [|split].
  - split; [lia|]. split; [right; discriminate|now left].
  - split; [lia|]. split; [now left|right; discriminate].
  - repeat split; cbv [lin_call fast_eval_interp1d_lin]; cbn; f_equal; apply Qc_is_canon; reflexivity.
Qed.

(** ** C21 *)
Theorem C21_natural_spline (junk : nat -> Qc) (x0 h : Qc) (fp : list Qc) (s : cinterp) :
  (0 < h)%Qc -> 2 <= length fp -> cubic_init junk x0 h fp Natural = Ok s ->
  exists piece,
    piecewise (cubic_call s) x0 h (length fp) piece /\
    interpolates fp h piece /\
    (forall i, S (S i) < length fp ->
       slope (piece i) h = slope (piece (S i)) 0 /\ curvature (piece i) h = curvature (piece (S i)) 0) /\
    curvature (piece 0) 0 = 0%Qc /\ curvature (piece (length fp - 2)) h = 0%Qc.
Proof. exact (natural_object junk x0 h fp s). Qed.
Print Assumptions C21_natural_spline.
(** There is only one such curve, so that the result does not depend on
    uninitialised memory. *)
Theorem C21_natural_spline_unique (h : Qc) (fp : list Qc) (piece piece' : nat -> cubic) :
  (0 < h)%Qc -> 2 <= length fp ->
  let natural pc := interpolates fp h pc /\
    (forall i, S (S i) < length fp ->
       slope (pc i) h = slope (pc (S i)) 0 /\ curvature (pc i) h = curvature (pc (S i)) 0) /\
    curvature (pc 0) 0 = 0%Qc /\ curvature (pc (length fp - 2)) h = 0%Qc in
  natural piece -> natural piece' ->
  forall i, S i < length fp -> piece i = piece' i.
Proof. exact (natural_unique h fp piece piece'). Qed.
Print Assumptions C21_natural_spline_unique.
Theorem C21_reset_recomputes (junk junk' : nat -> Qc) (x0 h : Qc) (fp0 fp : list Qc) (bc : bc_type) (s : cinterp) :
  cubic_init junk x0 h fp0 bc = Ok s -> cubic_init junk' x0 h fp bc = Ok (cubic_reset junk' s fp).
Proof. exact (cubic_reset_init junk junk' x0 h fp0 bc s fp). Qed.
Print Assumptions C21_reset_recomputes.
Example C21_ex :
  (0 < fq 1 2)%Qc /\ 2 <= length [zq 0; zq 1; zq 0; zq 5] /\
  map this (spline_cubic_natural (fun _ => zq 77) [zq 0; zq 1; zq 0; zq 5] (fq 1 2))
  = map this [zq 0; fq (-112) 5; fq 208 5; zq 0].
Proof. split; [reflexivity|]. split; [cbn; lia|]. vm_compute. reflexivity. Qed.

(** ** C22 *)
Theorem C22_notaknot_spline (junk : nat -> Qc) (x0 h : Qc) (fp : list Qc) (s : cinterp) :
  (0 < h)%Qc -> 4 <= length fp -> cubic_init junk x0 h fp NotAKnot = Ok s ->
  exists piece,
    piecewise (cubic_call s) x0 h (length fp) piece /\
    interpolates fp h piece /\
    (forall i, S (S i) < length fp ->
       curvature (piece i) h = curvature (piece (S i)) 0 /\
       (qabs (slope (piece i) h - slope (piece (S i)) 0)
        <= fq 1 4000000000000000 * (h / zq 6) * (qabs (curvature (piece i) 0) + qabs (curvature (piece i) h)))%Qc) /\
    third (piece 0) = third (piece 1) /\ third (piece (length fp - 3)) = third (piece (length fp - 2)).
Proof. exact (notaknot_object junk x0 h fp s). Qed.
Print Assumptions C22_notaknot_spline.
(** With three nodes the curve depends on uninitialised memory. *)
Theorem C22_three_nodes_refuted (a b c h : Qc) :
  h <> 0%Qc -> exists junk junk', spline_cubic_notaknot junk [a; b; c] h <> spline_cubic_notaknot junk' [a; b; c] h.
Proof. exact (notaknot_three_junk a b c h). Qed.
Print Assumptions C22_three_nodes_refuted.
Example C22_ex :
  (0 < fq 1 2)%Qc /\ 4 <= length [zq 0; zq 1; zq 0; zq 5; zq 2] /\
  exists s, cubic_init (fun _ => zq 77) (zq 3) (fq 1 2) [zq 0; zq 1; zq 0; zq 5; zq 2] NotAKnot = Ok s /\
    map this (c_y2p s) <> map this (repeat 0%Qc 5).
Proof. split; [reflexivity|]. split; [cbn; lia|]. eexists. split; [reflexivity|]. vm_compute. discriminate. Qed.

(** ** C23 *)
Theorem C23_power_series (coef : list Qc) (x : Qc) :
  mypoly1d coef x = qsum (map (fun i => nth i coef 0 * x ^ i)%Qc (seq 0 (length coef))).
Proof. exact (mypoly1d_sum coef x). Qed.
Print Assumptions C23_power_series.
Theorem C23_horner (coef : list Qc) (x : Qc) : mypoly1d coef x = horner coef x.
Proof. exact (mypoly1d_horner coef x). Qed.
Print Assumptions C23_horner.
Example C23_ex : mypoly1d [zq 3; zq 0; zq 2] (fq 1 2) = fq 7 2.
Proof. apply Qc_is_canon. vm_compute. reflexivity. Qed.
