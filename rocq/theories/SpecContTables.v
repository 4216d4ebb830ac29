(** Specification vocabulary for C76: what a reader of attributes.fits and of the chi2 catalog computes. *)
From Coq Require Import ZArith String List Bool Arith Qcanon.
From Verif Require Import Num NpList Exn Dict Mpi ModelSpectrum ModelStack ModelFitter ModelAttributes ModelChi2 SpecSpectrum SpecContinuum.
Import ListNotations.
Local Open Scope nat_scope.

(** the extension of this name *)
Definition extension (file : list ext) (name : string) : option ext := find (fun e => String.eqb (x_name e) name) file.
(** The column stacked_flux of the extension x is the table of the stacked flux k, on the wavelengths of x. *)
Definition stacked_in (x : ext) (k : stacker) : Prop :=
  dget "stacked_flux" (x_cols x) = Some (k_fp k) /\
  x_wave x = map (fun i => (k_w0 k + zq (Z.of_nat i) * k_dw k)%Qc) (seq 0 (length (x_wave x))).
(** the mean flux of the run: that of the file, or else 1 *)
Definition mean_flux_of (o : fitopts) (mf : interp) : Prop :=
  match o_meanflux o with Some file => file = Some mf | None => i_linear mf = true /\ i_fp mf = [n1; n1; n1] end.
(** The continuum of s is, in every pixel of its forest, the mean continuum c times the polynomial with the
    coefficients CONT_x of the row (in the slope variable of the rest-frame wavelength), times the mean flux mf
    and times the factor k of the flux normalisation, where all of these are finite. *)
Definition continuum_from (c slope mf k : Qc -> num) (row : chi2row) (s : spec) : Prop :=
  forall arm i w a m t f q, at_pix (fw (s_f s)) arm i = Some w -> r_x row = map Fin a ->
    c (w / (1 + r_z row))%Qc = Fin m -> slope (w / (1 + r_z row))%Qc = Fin t -> mf w = Fin f -> k w = Fin q ->
    at_pix (s_cont s) arm i = Some (Fin (m * polynomial a ((1 + 1) * t - 1) * f * q)%Qc).
