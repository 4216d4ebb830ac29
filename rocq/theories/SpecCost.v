(** Specification for the cost function of the continuum fit. *)
From Coq Require Import ZArith String List Bool Arith Qcanon.
From Verif Require Import Num NpList Exn Dict ModelSpectrum ModelContinuum SpecSpectrum SpecStack SpecContinuum.
Import ListNotations.
Local Open Scope nat_scope.

(** -2 log likelihood up to a constant: chi2 - sum of log(weight) over the pixels with a weight *)
Definition minus_two_log_likelihood (log : Qc -> Qc) (s : spec) : Qc :=
  (weighted_chi2 s - qsum (map log (filter (qltb 0) (map q_weight (spec_pixels s)))))%Qc.

(** the same spectrum with another flux *)
Definition with_flux (d : dict arr) (s : spec) : spec := set_f (set_ff d (s_f s)) s.

(** the flux d differs from that of s in masked pixels only (smoothed ivar zero) *)
Definition differs_where_masked (d : dict arr) (s : spec) : Prop :=
  forall arm k, at_pix d arm k = at_pix (ff (s_f s)) arm k \/ at_pix (fivar_sm (s_f s)) arm k = Some n0.

(** a function of a function that looks at its values only *)
Definition extensional {A B C} (opt : (A -> B) -> C) : Prop :=
  forall f g : A -> B, (forall x, f x = g x) -> opt f = opt g.
