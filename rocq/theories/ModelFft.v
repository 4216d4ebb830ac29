(** Model of fft_gaussian_smooth (py/qsonic/mathtools.py 218-247) over the reals, with the discrete
    Fourier transforms of numpy written out; rounding is not modelled. *)
From Coq Require Import String Reals List ZArith.
From Verif Require Import Exn ModelSmooth.
Import ListNotations.
Local Open Scope R_scope.

(** sum of f 0, ..., f (n-1) *)
Fixpoint sumn (n : nat) (f : nat -> R) : R := match n with O => 0 | S n => sumn n f + f n end.

(** np.fft.rfft: X_k = sum_j x_j exp(-2 pi i j k / N); real and imaginary part *)
Definition rfft_re (x : list R) (k : nat) : R :=
  let N := List.length x in sumn N (fun j => nth j x 0 * cos (2 * PI * INR j * INR k / INR N)).
Definition rfft_im (x : list R) (k : nat) : R :=
  let N := List.length x in sumn N (fun j => - (nth j x 0 * sin (2 * PI * INR j * INR k / INR N))).
(** np.fft.irfft(X, n=N) at index j: the coefficients above N/2 are the conjugates of those below; the
    imaginary parts of the first and, for even N, of the last coefficient are ignored *)
Definition irfft (re im : nat -> R) (N j : nat) : R :=
  (re 0%nat
   + sumn ((N - 1) / 2) (fun k => 2 * (re (S k) * cos (2 * PI * INR j * INR (S k) / INR N)
                                       - im (S k) * sin (2 * PI * INR j * INR (S k) / INR N)))
   + (if Nat.even N then re (N / 2)%nat * cos (PI * INR j) else 0)) / INR N.
(** np.fft.rfftfreq(N)[k] (line 242) *)
Definition rfftfreq (N k : nat) : R := INR k / INR N.

(** line 238; int() truncates *)
Definition pad_size (sigma_pix : R) : nat := Nat.max 1 (Z.to_nat (Int_part (3 * sigma_pix))).
(** np.pad with mode='edge' (line 240; other modes are not used) *)
Definition pad_edge (x : list R) (p : nat) : list R := repeat (hd 0 x) p ++ x ++ repeat (last x 0) p.

(** mathtools.py 218-247; np.pad raises for an empty array.  arrsize is the length of the padded array *)
Definition fft_gaussian_smooth (x : list R) (sigma_pix : R) : res (list R) :=
  match x with
  | [] => Err (OtherExn "ValueError"%string)
  | _ =>
    let p := pad_size sigma_pix in
    let arrsize := (List.length x + 2 * p)%nat in
    let padded := pad_edge x p in
    let damp k := exp (- (rfftfreq arrsize k * sigma_pix) ^ 2 / 2) in
    let y := map (irfft (fun k => rfft_re padded k * damp k) (fun k => rfft_im padded k * damp k) arrsize) (seq 0 arrsize) in
    Ok (firstn (arrsize - 2 * p) (skipn p y))
  end.

(** As used by get_smooth_ivar (line 320), where values may be nan or infinite: every entry of the transform of an array
    with such a value is nan.  An exception of np.pad shows as an empty array (the input is then empty too). *)
Definition gauss (l : list xr) (sigma_pix : R) : list xr :=
  match fold_right (fun x acc => match x, acc with XF r, Some q => Some (r :: q) | _, _ => None end) (Some []) l with
  | Some q => match fft_gaussian_smooth q sigma_pix with Ok y => map XF y | Err _ => [] end
  | None => map (fun _ => XNaN) l
  end.
