(** Specification vocabulary for the signal-to-noise ratios behind the selection (C80). *)
From Coq Require Import ZArith String List Bool Arith Qcanon.
From Verif Require Import Num NpList Exn Dict ModelSpectrum ModelPipeline SpecSpectrum SpecSnr SpecSelect.
Import ListNotations.
Local Open Scope nat_scope.

(** a spectrum as the readers construct it, with finite fluxes and inverse variances *)
Definition readable (s : spec) : Prop := fresh s /\ usable (spectrum_pixels s).
(** the mean signal-to-noise of the unmasked pixels of one arm of the forest of s *)
Definition arm_snr (sq : Qc -> Qc) (s : spec) (arm : string) : Qc :=
  (snr_sum sq (forest_arm s arm) / snr_count (forest_arm s arm))%Qc.
(** MEANSNR of s is, arm by arm, the mean signal-to-noise of the forest of s1 *)
Definition meansnr_of (sq : Qc -> Qc) (s s1 : spec) : Prop :=
  exists m, s_msnr s = Some m /\ dkeys m = dkeys (fivar (s_f s1)) /\
    forall arm, In arm (dkeys m) -> (0 < snr_count (forest_arm s1 arm))%Qc /\ dget arm m = Some (Fin (arm_snr sq s1 arm)).
