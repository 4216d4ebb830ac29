(** C64: the mean resolution of an arm (MEANRESO).  Vocabulary: SpecMeanReso.v. *)
From Coq Require Import Bool Reals List ZArith Lra Lia.
From Verif Require Import ModelMeanReso SpecMeanReso ProofMeanReso.
Import ListNotations.
Local Open Scope R_scope.

(** If the resolution of every pixel is a Gaussian, of any height, and the widths of the pixels with weight lie in [lo, hi]
    (in pixels), the mean resolution is a width in this range, in km/s at the weighted mean wavelength. *)
Theorem C64_gaussian n c l lo hi dwave : physical l -> 0 < lo ->
  (forall p, In p l -> 0 < p_weight p -> lo <= p_sigma p <= hi) -> (2 <= c)%nat -> (c + 2 < n)%nat ->
  exists v, lo <= v <= hi /\
    mean_resolution dwave (Some (gaussian_matrix n c l)) (map p_wave l) (map p_weight l) = Value (v * 300000 * dwave / mean_wave l).
Proof. exact (fun P L I => gaussian_thm n c l P lo hi L I dwave). Qed.
Print Assumptions C64_gaussian.

(** In particular it is exact for a constant width, whatever the weights and heights. *)
Theorem C64_constant n c l sigma dwave : physical l ->
  (forall p, In p l -> 0 < p_weight p -> p_sigma p = sigma) -> (2 <= c)%nat -> (c + 2 < n)%nat ->
  mean_resolution dwave (Some (gaussian_matrix n c l)) (map p_wave l) (map p_weight l) = Value (sigma * 300000 * dwave / mean_wave l).
Proof. exact (constant_thm n c l sigma dwave). Qed.
Print Assumptions C64_constant.

(** The wavelength lies between those of the pixels with weight. *)
Theorem C64_wave l a b : physical l -> (forall p, In p l -> 0 < p_weight p -> a <= p_wave p <= b) -> a <= mean_wave l <= b.
Proof. exact (mean_wave_thm l a b). Qed.
Print Assumptions C64_wave.

(** Any matrix: only the ratios of the weights matter; *)
Theorem C64_scale k dwave m wave weight : k <> 0 ->
  mean_resolution dwave m wave (map (Rmult k) weight) = mean_resolution dwave m wave weight.
Proof. exact (scale_thm k dwave m wave weight). Qed.
Print Assumptions C64_scale.

(** finite entries of pixels without weight do not matter; *)
Theorem C64_masked dwave m m' wave wave' weight : Forall2 (agree weight) m m' -> agree weight wave wave' ->
  mean_resolution dwave (Some (finite_matrix m)) wave weight = mean_resolution dwave (Some (finite_matrix m')) wave' weight.
Proof. exact (masked_thm dwave m m' wave wave' weight). Qed.
Print Assumptions C64_masked.

(** but a column of nan (which coadding leaves in gaps, C62) makes the result nan, even if its pixel has no weight. *)
Theorem C64_nan dwave m wave weight k : (3 <= length m)%nat -> length wave = length weight ->
  (forall row, In row m -> length row = length weight /\ nth_error row k = Some None) ->
  mean_resolution dwave (Some m) wave weight = Nan.
Proof. exact (nan_thm dwave m wave weight k). Qed.
Print Assumptions C64_nan.

(** A matrix with fewer than two diagonals above the main one raises IndexError. *)
Theorem C64_few n c l dwave : physical l -> (c < n)%nat -> (n <= c + 2)%nat ->
  mean_resolution dwave (Some (gaussian_matrix n c l)) (map p_wave l) (map p_weight l) = Raised.
Proof. exact (fun P => few_thm n c l P dwave). Qed.
Print Assumptions C64_few.

(** three pixels with widths 0.8 and 1.2, and a masked one with width 5; a column of nan *)
Example C64_ex :
  let l := [mkPixel 3600 2 1 0.8; mkPixel 3601 0 1 5; mkPixel 3602 1 0.5 1.2] in
  physical l /\ (forall p, In p l -> 0 < p_weight p -> 0.8 <= p_sigma p <= 1.2) /\ (2 <= 5)%nat /\ (5 + 2 < 11)%nat /\
  (forall p, In p l -> 0 < p_weight p -> 3600 <= p_wave p <= 3602) /\
  Forall2 (agree [1; 0]) [[1; 2]; [3; 4]] [[1; 7]; [3; 8]] /\
  mean_resolution 0.8 (Some (repeat [Some 1; None] 3)) [3600; 3601] [1; 0] = Nan.
Proof.
  cbv zeta. repeat split; try lia.
  1-4: destruct H as [<-|[<-|[<-|[]]]]; cbn; lra.
  - exists (mkPixel 3600 2 1 0.8). cbn. split; [auto|lra].
  - destruct H as [<-|[<-|[<-|[]]]]; cbn in *; lra.
  - destruct H as [<-|[<-|[<-|[]]]]; cbn in *; lra.
  - destruct H as [<-|[<-|[<-|[]]]]; cbn in *; lra.
  - destruct H as [<-|[<-|[<-|[]]]]; cbn in *; lra.
  - repeat constructor; intros [|[|[|k]]] w E N; cbn in *; try easy; injection E as <-; lra.
  - apply (C64_nan _ _ _ _ 1); [cbn; lia|easy|]. intros row [<-|[<-|[<-|[]]]]; easy.
Qed.
