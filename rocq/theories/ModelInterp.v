(** Model of the interpolators of py/qsonic/mathtools.py.

    Tables [fp], [y2p] are lists; work arrays of the numba functions are
    functions of the index.  np.empty arrays start with the arbitrary content
    [junk].  The argument x of the evaluation functions is one element of the
    python array (all operations are elementwise). *)
From Coq Require Import String ZArith List Bool Arith Qcanon.
From Verif Require Import Num Exn.
Import ListNotations.
Local Open Scope nat_scope.

Definition nq (n : nat) : Qc := zq (Z.of_nat n).

(** np.clip(x, lo, hi) = minimum(maximum(x, lo), hi) *)
Definition np_clip (x lo hi : Qc) : Qc := qmin (qmax x lo) hi.

(** fp[i]; numba does not check bounds: [None] is an access outside the table. *)
Definition at_z {A} (l : list A) (i : Z) : option A :=
  if (i <? 0)%Z then None else nth_error l (Z.to_nat i).

(** mathtools.py:20-21 segment index *)
Definition segment (x xp0 dxp : Qc) (n : nat) : Z :=
  qtrunc (np_clip ((x - xp0) / dxp) 0 (nq n - 1 - fq 1 100000000)).

(** mathtools.py:17-26 _fast_eval_interp1d_lin *)
Definition fast_eval_interp1d_lin (x xp0 dxp : Qc) (fp : list Qc) : option Qc :=
  let xx := ((x - xp0) / dxp)%Qc in
  let idx := segment x xp0 dxp (length fp) in
  let d_idx := (xx - zq idx)%Qc in
  match at_z fp idx, at_z fp (idx + 1) with
  | Some y1, Some y2 => Some (y1 * (1 - d_idx) + y2 * d_idx)%Qc
  | _, _ => None
  end.

(** mathtools.py:29-43 _fast_eval_interp1d_cubic *)
Definition fast_eval_interp1d_cubic (x xp0 dxp : Qc) (fp y2p : list Qc) : option Qc :=
  let xx := ((x - xp0) / dxp)%Qc in
  let idx := segment x xp0 dxp (length fp) in
  let d_idx := (xx - zq idx)%Qc in
  let a := (1 - d_idx)%Qc in
  let b := d_idx in
  match at_z fp idx, at_z fp (idx + 1), at_z y2p idx, at_z y2p (idx + 1) with
  | Some y1, Some y2, Some ypp1, Some ypp2 =>
      let r1 := (a * y1 + b * y2)%Qc in
      let r2 := (((a + 1) * ypp1 + (b + 1) * ypp2) * (- a * b * (dxp * dxp) / zq 6))%Qc in
      Some (r1 + r2)%Qc
  | _, _, _, _ => None
  end.

(** work arrays *)
Definition arr := nat -> Qc.
Definition aset (a : arr) (i : nat) (v : Qc) : arr := fun k => if Nat.eqb k i then v else a k.
(** range(a, b) and range(b - 1, a - 1, -1) *)
Definition range (a b : nat) : list nat := seq a (b - a).
Definition range_down (a b : nat) : list nat := rev (range a b).

(** mathtools.py:73-77 one step of the forward loop on (y2p, u) *)
Definition natural_forward (fp : arr) (dxp : Qc) (st : arr * arr) (ii : nat) : arr * arr :=
  let '(y2p, u) := st in
  let sig := fq 1 2 in
  let p := (sig * y2p (ii - 1)%nat + zq 2)%Qc in
  let y2p := aset y2p ii ((sig - 1) / p)%Qc in
  let u := aset u ii ((fp (ii + 1)%nat + fp (ii - 1)%nat - zq 2 * fp ii) / dxp)%Qc in
  let u := aset u ii ((zq 3 * u ii / dxp - sig * u (ii - 1)%nat) / p)%Qc in
  (y2p, u).
(** mathtools.py:79-80 *)
Definition natural_backward (u : arr) (y2p : arr) (ii : nat) : arr :=
  aset y2p ii (y2p ii * y2p (ii + 1)%nat + u ii)%Qc.
(** mathtools.py:46-82 _spline_cubic_natural (fp.size >= 2: u[0] exists) *)
Definition spline_cubic_natural (junk : arr) (fp : list Qc) (dxp : Qc) : list Qc :=
  let n := length fp in
  let f i := nth i fp 0%Qc in
  let u := aset junk 0 0%Qc in
  let y2p := aset (aset junk (n - 1) 0%Qc) 0 0%Qc in
  let '(y2p, u) := fold_left (natural_forward f dxp) (range 1 (n - 1)) (y2p, u) in
  let y2p := fold_left (natural_backward u) (range_down 1 (n - 1)) y2p in
  map y2p (seq 0 n).

(** mathtools.py:109-126 tables of precalculated values (exact decimals) *)
Definition tab (l : list Z) (scale : positive) : list Qc := map (fun z => fq z scale) l.
Definition u_tab : list Qc := tab
  [6000000000000000000; 4000000000000000000; 3750000000000000000; 3733333333333333393;
   3732142857142857206; 3732057416267942518; 3732051282051282115; 3732050841635176752;
   3732050810014727382; 3732050807744481613; 3732050807581485330; 3732050807569782691;
   3732050807568942474; 3732050807568882078; 3732050807568877637; 3732050807568877193]%Z
  1000000000000000000.
Definition p_tab : list Qc := tab
  [1666666666666666574; 2500000000000000000; 2666666666666666630; 2678571428571428492;
   2679425837320574266; 2679487179487179405; 2679491583648230812; 2679491899852724512;
   2679491922555185535; 2679491924185148921; 2679491924302174755; 2679491924310576922;
   2679491924311180329; 2679491924311223627; 2679491924311226958]%Z
  10000000000000000000.
Definition u_at (i : nat) : Qc := nth i u_tab 0%Qc.
Definition p_at (i : nat) : Qc := nth i p_tab 0%Qc.

(** mathtools.py:128-129 *)
Definition nak_rhs (f : arr) (y : arr) (i : nat) : arr :=
  aset y i (f (i - 1)%nat - zq 2 * f i + f (i + 1)%nat)%Qc.
(** mathtools.py:131-134 y2p[i + 1] -= c * y2p[i] *)
Definition nak_forward (c : nat -> Qc) (y : arr) (i : nat) : arr :=
  aset y (i + 1) (y (i + 1)%nat - c i * y i)%Qc.
(** mathtools.py:137-140 *)
Definition nak_backward (c : nat -> Qc) (y : arr) (i : nat) : arr :=
  aset y (i + 1) ((y (i + 1)%nat - y (i + 2)%nat) / c i)%Qc.

(** mathtools.py:85-147 _spline_cubic_notaknot (N >= 3: y2p[-3] exists) *)
Definition spline_cubic_notaknot (junk : arr) (fp : list Qc) (dxp : Qc) : list Qc :=
  let n := length fp in
  let f i := nth i fp 0%Qc in
  let psize := length p_tab in
  let usize := length u_tab in
  let y := fold_left (nak_rhs f) (range 1 (n - 1)) junk in
  let y := fold_left (nak_forward (fun i => p_at (i - 1))) (range 1 (Nat.min (n - 3) (psize + 1))) y in
  let y := fold_left (nak_forward (fun _ => p_at (psize - 1))) (range (psize + 1) (n - 3)) y in
  let y := aset y (n - 2) (y (n - 2)%nat / u_at 0%nat)%Qc in
  let y := fold_left (nak_backward (fun _ => u_at (usize - 1))) (range_down usize (n - 3)) y in
  let y := fold_left (nak_backward u_at) (range_down 1 (S (Nat.min (n - 4) (usize - 1)))) y in
  let y := aset y 1 (y 1%nat / u_at 0%nat)%Qc in
  let y := aset y 0 (zq 2 * y 1%nat - y 2%nat)%Qc in
  let y := aset y (n - 1) (zq 2 * y (n - 2)%nat - y (n - 3)%nat)%Qc in
  map (fun i => y i * (zq 6 / (dxp * dxp)))%Qc (seq 0 n).

(** mathtools.py:150-169 mypoly1d *)
Definition mypoly1d (coef : list Qc) (x : Qc) : Qc :=
  fold_left (fun r ia => r + snd ia * Qcpower x (fst ia))%Qc
            (combine (seq 0 (length coef)) coef) 0%Qc.

(** ** The interpolator classes *)
(** mathtools.py:330-373 FastLinear1DInterp (copy and ep are bookkeeping) *)
Record linterp := mklin { l_xp0 : Qc; l_dxp : Qc; l_fp : list Qc }.
Definition lin_call (s : linterp) (x : Qc) : option Qc :=
  fast_eval_interp1d_lin x (l_xp0 s) (l_dxp s) (l_fp s).
Definition lin_reset (s : linterp) (fp : list Qc) : linterp := mklin (l_xp0 s) (l_dxp s) fp.

(** mathtools.py:376-436 FastCubic1DInterp *)
Inductive bc_type := NotAKnot | Natural | OtherBc.
Record cinterp := mkcub { c_xp0 : Qc; c_dxp : Qc; c_fp : list Qc; c_bc : bc_type; c_y2p : list Qc }.
(** mathtools.py:401-419 __init__ *)
Definition cubic_init (junk : arr) (xp0 dxp : Qc) (fp : list Qc) (bc : bc_type) : res cinterp :=
  match bc with
  | NotAKnot => Ok (mkcub xp0 dxp fp bc (spline_cubic_notaknot junk fp dxp))
  | Natural => Ok (mkcub xp0 dxp fp bc (spline_cubic_natural junk fp dxp))
  | OtherBc => Err (OtherExn "Unknown bc_type in FastCubic1DInterp.")
  end.
(** mathtools.py:425-436 reset *)
Definition cubic_reset (junk : arr) (s : cinterp) (fp : list Qc) : cinterp :=
  mkcub (c_xp0 s) (c_dxp s) fp (c_bc s)
    (match c_bc s with
     | NotAKnot => spline_cubic_notaknot junk fp (c_dxp s)
     | Natural => spline_cubic_natural junk fp (c_dxp s)
     | OtherBc => c_y2p s
     end).
(** mathtools.py:421-423 __call__ *)
Definition cubic_call (s : cinterp) (x : Qc) : option Qc :=
  fast_eval_interp1d_cubic x (c_xp0 s) (c_dxp s) (c_fp s) (c_y2p s).
