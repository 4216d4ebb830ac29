(** Specification vocabulary for C49. *)
From Coq Require Import ZArith String List Bool Arith Qcanon.
From Verif Require Import Num NpList Exn Dict ModelSpectrum SpecSpectrum SpecWeights.
Import ListNotations.
Local Open Scope nat_scope.

(** a spectrum on uniform grids of spacing dwave, one continuum value per pixel if it has a continuum *)
Definition on_grid (dwave : Qc) (s : spec) : Prop := forall arm w, dget arm (fw (s_f s)) = Some w -> uniform dwave w.
Definition has_continuum (s : spec) : Prop :=
  forall arm w, dget arm (fw (s_f s)) = Some w -> exists c, dget arm (s_cont s) = Some c /\ length c = length w.
(** the grids of two spectra are shifted by whole pixels, d pixels for this arm *)
Definition shifted (dwave : Qc) (d : Z) (wc w : list Qc) : Prop :=
  exists x0 y0, nth_error w 0 = Some x0 /\ nth_error wc 0 = Some y0 /\ x0 = (y0 + zq d * dwave)%Qc.

(** every pixel of the exposure s' has the continuum of the coadd at a wavelength within [tol] *)
Definition inherits (tol : Qc) (coadd s' : spec) : Prop :=
  forall arm w, dget arm (fw (s_f s')) = Some w ->
    exists c wc cc, dget arm (s_cont s') = Some c /\ length c = length w /\
      dget arm (fw (s_f coadd)) = Some wc /\ dget arm (s_cont coadd) = Some cc /\
      forall k x v, nth_error w k = Some x -> nth_error c k = Some v ->
        exists m y, nth_error wc m = Some y /\ nth_error cc m = Some v /\ (y - tol <= x /\ x <= y + tol)%Qc.
(** the arrays of one arm are cut to the same range of pixels i..j *)
Definition cut_to (arm : string) (i j : nat) (s s' : spec) : Prop :=
  dget arm (fw (s_f s')) = option_map (slice i j) (dget arm (fw (s_f s))) /\
  dget arm (ff (s_f s')) = option_map (slice i j) (dget arm (ff (s_f s))) /\
  dget arm (fivar (s_f s')) = option_map (slice i j) (dget arm (fivar (s_f s))) /\
  dget arm (fivar_sm (s_f s')) = option_map (slice i j) (dget arm (fivar_sm (s_f s))) /\
  dget arm (fweight (s_f s')) = option_map (slice i j) (dget arm (fweight (s_f s))).
(** w' is the part of w inside the range of wc *)
Definition inside (wc w w' : list Qc) : Prop :=
  (exists i j, w' = slice i j w) /\
  forall x, In x w' <-> In x w /\ (exists y, In y wc /\ (y <= x)%Qc) /\ (exists y, In y wc /\ (x <= y)%Qc).
(** ivar, ivar_sm and weight are three different dictionary objects *)
Definition unaliased (f : forest) : Prop := ri f <> rs f /\ ri f <> rw f /\ rs f <> rw f.
(** every arm of the exposure shares a pixel with the coadd, on a grid shifted by whole pixels *)
Definition overlaps (dw : Qc) (coadd s : spec) : Prop :=
  forall arm w, dget arm (fw (s_f s)) = Some w ->
    exists wc d x, dget arm (fw (s_f coadd)) = Some wc /\ shifted dw d wc w /\ In x w /\ In x wc.
