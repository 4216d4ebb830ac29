(** Model of the DLA absorption profile (py/qsonic/masks.py 218-372) over the reals;
    rounding is not modelled.  Arrays of wavelengths are treated one by one. *)
From Coq Require Import Reals List.
Import ListNotations.
Local Open Scope R_scope.

(** masks.py 13, 15 *)
Definition LIGHT_SPEED : R := 299792.458.
Definition sqrt_pi : R := 1.77245385091.
(** masks.py 218-243: class attributes *)
Definition qe : R := 4.803204 / 10 ^ 10.
Definition me : R := 9.109384 / 10 ^ 28.
Definition c_cms : R := LIGHT_SPEED * 10 ^ 5.
Definition aij_coeff : R := PI * qe ^ 2 / me / c_cms.
Definition wave_lya_A : R := 1215.67.
Definition f12_lya : R := 0.41641.
Definition A12_lya : R := 6.2648 * 10 ^ 8.
Definition wave_lyb_A : R := 1025.7220.
Definition f12_lyb : R := 0.079142.
Definition A12_lyb : R := 1.6725 * 10 ^ 8.

(** masks.py 246-266 *)
Definition H_tepper_garcia (a u : R) : R :=
  let P := u ^ 2 + 1 / 10 ^ 12 in
  let Q := 1.5 / P in
  let R := exp (- P) in
  let corr := (R ^ 2 * (4 * P ^ 2 + 7 * P + 4 + Q) - Q - 1) * (a / P / sqrt_pi) in
  R - corr.

(** masks.py 268-287 *)
Definition voigt_tepper_garcia (x sigma gamma : R) : R := H_tepper_garcia (gamma / sigma) (x / sigma).

(** masks.py 289-322; 10**y is Rpower *)
Definition get_optical_depth (wave_A lambda12_A log10N b f12 A12 : R) : R :=
  let a12 := aij_coeff * f12 in
  let gamma := A12 * lambda12_A * (1 / 10 ^ 8) / 4 / PI / c_cms in
  let sigma_gauss := b / LIGHT_SPEED in
  voigt_tepper_garcia (wave_A / lambda12_A - 1) sigma_gauss gamma *
  (a12 * Rpower 10 (log10N - 13) * (lambda12_A / b) / sqrt_pi).

(** masks.py 324-351 *)
Definition get_dla_flux (wave z_dla nhi b : R) : R :=
  let wave_rf := wave / (1 + z_dla) in
  exp (- (get_optical_depth wave_rf wave_lya_A nhi b f12_lya A12_lya +
          get_optical_depth wave_rf wave_lyb_A nhi b f12_lyb A12_lyb)).

(** masks.py 353-372; the DLAs are pairs of Z_DLA and NHI, b has its default *)
Definition get_all_dlas (wave : R) (dlas : list (R * R)) : R :=
  fold_left (fun transmission d => transmission * get_dla_flux wave (fst d) (snd d) 10) dlas 1.
