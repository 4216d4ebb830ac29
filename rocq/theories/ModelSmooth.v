(** Model of get_smooth_ivar and get_median_outlier_mask of mathtools.py, over the reals (square roots are
    exact).  Input arrays are finite; results can be special values. *)
From Coq Require Import String Reals List Bool Arith.
From Verif Require Import Exn.
Import ListNotations.
Local Open Scope R_scope.

(** float results: a real, NaN or +infinity *)
Inductive xr := XF (r : R) | XNaN | XInf.
Definition rltb (x y : R) : bool := if Rlt_dec x y then true else false.
Definition reqb (x y : R) : bool := if Req_EM_T x y then true else false.
Definition xsub (a b : xr) : xr :=
  match a, b with
  | XF x, XF y => XF (x - y) | XInf, XF _ => XInf | _, _ => XNaN end.
Definition xabs (a : xr) : xr := match a with XF x => XF (Rabs x) | _ => a end.
(** c * a for a finite positive constant c *)
Definition xscale (c : R) (a : xr) : xr := match a with XF x => XF (c * x) | _ => a end.
(** a > b; false if one is NaN *)
Definition xgtb (a b : xr) : bool :=
  match a, b with XF x, XF y => rltb y x | XInf, XF _ => true | _, _ => false end.
(** 1 / a**2 *)
Definition xinv_sq (a : xr) : xr :=
  match a with XF x => if reqb x 0 then XInf else XF (1 / (x * x)) | XNaN => XNaN | XInf => XF 0 end.

(** insertion sort *)
Fixpoint rinsert (x : R) (l : list R) : list R :=
  match l with [] => [x] | y :: r => if Rle_dec x y then x :: l else y :: rinsert x r end.
Fixpoint rsort (l : list R) : list R := match l with [] => [] | x :: r => rinsert x (rsort r) end.
(** np.median: NaN if empty, the middle element or the mean of the two middle ones *)
Definition rmedian (l : list R) : xr :=
  let s := rsort l in let n := List.length l in
  if Nat.eqb n 0 then XNaN
  else if Nat.odd n then XF (nth (n / 2) s 0) else XF ((nth (n / 2 - 1) s 0 + nth (n / 2) s 0) / 2).
(** np.median of an array with special values: NaN if there is one *)
Definition xmedian (l : list xr) : xr :=
  match fold_right (fun x acc => match x, acc with XF r, Some q => Some (r :: q) | _, _ => None end) (Some []) l with
  | Some q => rmedian q | None => XNaN end.

Section Smooth.
(** mathtools.fft_gaussian_smooth (218-247) *)
Variable gauss : list xr -> R -> list xr.

(** mathtools.py 286-327, get_smooth_ivar. *)
Definition get_smooth_ivar (sigma_pix esigma : R) (ivar : list R) : res (list xr) :=
  let good := map (fun i => 1 / sqrt i) (filter (fun i => rltb 0 i) ivar) in
  let median_err := rmedian good in
  let error := map (fun i => if rltb 0 i then XF (1 / sqrt i) else median_err) ivar in
  let mad := xscale (14826 / 10000) (xmedian (map (fun e => xabs (xsub (XF e) median_err)) good)) in
  let w2 := map (fun e => xgtb (xsub e median_err) (xscale esigma mad)) error in
  let replaced := map (fun e => if xgtb (xsub e median_err) (xscale esigma mad) then median_err else e) error in
  let smoothed := gauss replaced sigma_pix in
  if Nat.eqb (List.length smoothed) (List.length ivar) then
    let restored := map (fun p : bool * xr * xr => if fst (fst p) then snd (fst p) else snd p) (combine (combine w2 error) smoothed) in
    Ok (map (fun p => if rltb 0 (fst p) then xinv_sq (snd p) else XF 0) (combine ivar restored))
  else Err (OtherExn "IndexError"%string).
End Smooth.

Section Outliers.
(** scipy.ndimage.median_filter(x, nwindow) *)
Variable running_median : list R -> nat -> list R.
(** np.abs(a - b) *)
Definition absdiff (a b : list R) : list R := map (fun p => Rabs (fst p - snd p)) (combine a b).
(** arr[w] = v, v in the order of the true entries of w *)
Fixpoint put_where (w : list bool) (v : list bool) (default : bool) : list bool :=
  match w, v with
  | [], _ => []
  | true :: w', b :: v' => b :: put_where w' v' default
  | true :: w', [] => default :: put_where w' [] default
  | false :: w', _ => default :: put_where w' v default
  end.
(** mathtools.py 250-283, get_median_outlier_mask (ivar >= 0; median_filter keeps the length). *)
Definition get_median_outlier_mask (esigma : R) (nwindow : nat) (flux ivar : list R) : list bool :=
  let w := map (fun i => negb (reqb i 0)) ivar in
  let fw := map fst (filter (fun p => negb (reqb (snd p) 0)) (combine flux ivar)) in
  let iw := map snd (filter (fun p => negb (reqb (snd p) 0)) (combine flux ivar)) in
  let abs_diff := absdiff fw (running_median fw nwindow) in
  let isig_mad := map (fun m => Rmin 1 (1 / (14826 / 10000 * m + / 1000000000000))) (running_median abs_diff nwindow) in
  let isig_cut := map (fun p => Rmin (sqrt (fst p)) (snd p) / esigma) (combine iw isig_mad) in
  let out := map (fun p => rltb 1 (fst p * snd p)) (combine abs_diff isig_cut) in
  put_where w out true.
End Outliers.
