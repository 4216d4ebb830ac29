(** Specification vocabulary for the signal-to-noise ratios (C63). *)
From Coq Require Import ZArith String List Bool Arith Qcanon.
From Verif Require Import Num NpList Dict ModelSpectrum SpecSpectrum SpecCoadd.
Import ListNotations.
Local Open Scope nat_scope.

(** sq is the square root: only its sign matters here *)
Definition square_root (nsqrt : num -> num) (sq : Qc -> Qc) : Prop :=
  (forall q, (0 <= q)%Qc -> nsqrt (Fin q) = Fin (sq q)) /\ sq 0%Qc = 0%Qc /\ forall q, (0 < q)%Qc -> (0 < sq q)%Qc.
(** flux / sigma of a pixel *)
Definition pixel_snr (sq : Qc -> Qc) (p : pixel) : Qc := (nval (p_flux p) * sq (nval (p_ivar p)))%Qc.
Definition unmasked (p : pixel) : bool := nltb n0 (p_ivar p).
(** finite values, inverse variances not negative *)
Definition usable (l : list pixel) : Prop :=
  forall p, In p l -> (exists f, p_flux p = Fin f) /\ exists i, p_ivar p = Fin i /\ (0 <= i)%Qc.

(** all pixels of the spectrum; those redwards of the Lyman alpha emission line *)
Definition spectrum_pixels (s : spec) : list pixel :=
  flat_map (fun aw => pixels (snd aw) (dlist (fst aw) (s_flux s)) (dlist (fst aw) (s_ivar s))) (s_wave s).
Definition redside (z : Qc) (p : pixel) : bool := qleb ((1 + z) * fq 121567 100)%Qc (p_wave p).
(** sum of the signal-to-noise ratios of the unmasked pixels, and their number *)
Definition snr_sum (sq : Qc -> Qc) (l : list pixel) : Qc := qsum (map (pixel_snr sq) (filter unmasked l)).
Definition snr_count (l : list pixel) : Qc := zq (Z.of_nat (length (filter unmasked l))).

(** the pixels of one arm of the forest, and of all arms *)
Definition forest_arm (s : spec) (arm : string) : list pixel :=
  pixels (dlist arm (fw (s_f s))) (dlist arm (ff (s_f s))) (dlist arm (fivar (s_f s))).
Definition forest_pixels (s : spec) : list pixel := flat_map (forest_arm s) (dkeys (fivar (s_f s))).
Definition bright (p : pixel) : bool := nltb n0 (p_flux p).
Definition ivar_flux_sum (l : list pixel) : Qc := qsum (map (fun p => nval (p_flux p) * nval (p_ivar p))%Qc (filter bright l)).
Definition ivar_sum (l : list pixel) : Qc := qsum (map (fun p => nval (p_ivar p)) (filter bright l)).
