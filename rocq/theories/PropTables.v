(** C67: calibration and fiducial tables are used at their own wavelengths. *)
From Coq Require Import ZArith String List Bool Arith Lia Qcanon.
From Verif Require Import Num Exn ModelInterp ModelTables ModelVarFit SpecInterp SpecTables SpecVarFit ProofTables.
Import ListNotations.
Local Open Scope nat_scope.

(** A table is accepted exactly if it has two rows and all its steps are close to the first. *)
Theorem C67_accepts w v : ((exists s, read_fiducial w v = Ok s) <-> spaced_within w) /\ ((exists s, read_stacked_flux w v = Ok s) <-> spaced_within w).
Proof. exact (accepts_thm w v). Qed.
Print Assumptions C67_accepts.
Theorem C67_accepts_noise junk junk' w var_lss eta : (exists s, read_var_func junk junk' w var_lss eta = Ok s) <-> spaced_within w.
Proof. exact (accepts_noise_thm junk junk' w var_lss eta). Qed.
Print Assumptions C67_accepts_noise.

(** Equally spaced tables: each value is used at its own wavelength (zeros of stacked_flux
    and eta stand for one). *)
Theorem C67_exact x0 h w v i x y : (0 < h)%Qc -> equally_spaced x0 h w -> 2 <= length w -> length v = length w ->
  nth_error w i = Some x -> nth_error v i = Some y ->
  (exists s, read_fiducial w v = Ok s /\ lin_call s x = Some y) /\ (exists s, read_stacked_flux w v = Ok s /\ lin_call s x = Some (or_one y)).
Proof. exact (exact_linear_thm x0 h w v i x y). Qed.
Print Assumptions C67_exact.
Theorem C67_exact_noise junk junk' x0 h w vl eta : (0 < h)%Qc -> equally_spaced x0 h w -> 4 <= length w -> length vl = length w -> length eta = length w ->
  exists e v, read_var_func junk junk' w vl eta = Ok (e, v) /\
    forall i x, nth_error w i = Some x -> cubic_call e x = option_map or_one (nth_error eta i) /\ cubic_call v x = nth_error vl i.
Proof. exact (exact_noise_thm junk junk' x0 h w vl eta). Qed.
Print Assumptions C67_exact_noise.

(** In particular the VAR_FUNC table that a fit writes is read back value by value. *)
Theorem C67_round_trip w1 w2 nw nv edges nsub uc rank size vl eta junk junk' : (w1 < w2)%Qc -> 4 <= nw -> length vl = nw -> length eta = nw ->
  exists e v, read_var_func junk junk' (v_wave (vfit_init w1 w2 nw nv edges nsub uc rank size)) vl eta = Ok (e, v) /\
    forall i, i < nw -> cubic_call e (bin_center w1 w2 nw i) = option_map or_one (nth_error eta i) /\ cubic_call v (bin_center w1 w2 nw i) = nth_error vl i.
Proof. exact (round_trip_thm w1 w2 nw nv edges nsub uc rank size vl eta junk junk'). Qed.
Print Assumptions C67_round_trip.

(** The flux correction is positive between the first and the last row if no value is negative. *)
Theorem C67_positive x0 h w v i x : (0 < h)%Qc -> equally_spaced x0 h w -> length v = length w -> (forall y, In y v -> 0 <= y)%Qc ->
  S i < length w -> (node x0 h i <= x)%Qc -> (x <= node x0 h (S i))%Qc ->
  exists s c, read_stacked_flux w v = Ok s /\ lin_call s x = Some c /\ (0 < c)%Qc.
Proof. exact (positive_thm x0 h w v i x). Qed.
Print Assumptions C67_positive.
(** Beyond the last row it may be negative. *)
Theorem C67_extrapolation_refuted : exists w v s x c, equally_spaced 0%Qc 1%Qc w /\ 2 <= length w /\ length v = length w /\ (forall y, In y v -> 0 < y)%Qc /\
  read_stacked_flux w v = Ok s /\ x = node 0%Qc 1%Qc (length w) /\ lin_call s x = Some c /\ (c < 0)%Qc.
Proof. exact extrapolation_thm. Qed.
Print Assumptions C67_extrapolation_refuted.

(** Any accepted, increasing table: each value is used at a wavelength that is off by at most the
    tolerance of one step for each preceding row. *)
Theorem C67_drift_partial w v s i x y : read_stacked_flux w v = Ok s -> (nth 0 w 0 < nth 1 w 0)%Qc -> length v = length w ->
  nth_error w i = Some x -> nth_error v i = Some y ->
  exists x', (qabs (x - x') <= nq i * step_tolerance (step w 0))%Qc /\ lin_call s x' = Some (or_one y).
Proof. exact (drift_thm w v s i x y). Qed.
Print Assumptions C67_drift_partial.
(** The deviations add up: a value can be off by any number of rows. *)
Theorem C67_drift_refuted n : exists w v s x y, read_stacked_flux w v = Ok s /\ length v = length w /\ nth_error w (n + 1) = Some x /\ nth_error v (n + 1) = Some y /\
  y <> 0%Qc /\ lin_call s x = Some (y + nq n * fq 1 100000)%Qc.
Proof. exact (drift_refuted_thm n). Qed.
Print Assumptions C67_drift_refuted.
(** A table with one wavelength repeated is accepted, with spacing zero. *)
Theorem C67_equal_wavelengths_refuted x n v : exists s, read_stacked_flux (repeat x (S (S n))) v = Ok s /\ l_dxp s = 0%Qc.
Proof. exact (equal_refuted_thm x n v). Qed.
Print Assumptions C67_equal_wavelengths_refuted.

(** Example: five rows, a zero, and a step that is too long *)
Example C67_ex : let w := map zq [3600; 3602; 3604; 3606; 3608]%Z in let v := map zq [3; 0; 4; 1; 2]%Z in
  equally_spaced (zq 3600) (zq 2) w /\ spaced_within w /\ ~ spaced_within (map zq [3600; 3602; 3605]%Z) /\ ~ spaced_within [zq 3600] /\
  (exists s, read_stacked_flux w v = Ok s /\ map (fun x => option_map this (lin_call s (zq x))) [3600; 3602; 3603; 3606]%Z =
     map Some [this (zq 3); this (zq 1); this (fq 5 2); this (zq 1)]).
Proof.
  cbv zeta. split; [|split; [|split; [|split]]].
  - intros [|[|[|[|[|i]]]]] x; cbn; intro H; try (injection H as <-; apply Qc_is_canon; reflexivity). destruct i; discriminate.
  - split; [cbn; lia|]. intros [|[|[|[|i]]]] Hi; try (vm_compute; discriminate). cbn in Hi. lia.
  - intros [_ H]. specialize (H 1 ltac:(cbn; lia)). vm_compute in H. now apply H.
  - intros [H _]. cbn in H. lia.
  - eexists. split; [lazy; reflexivity|]. vm_compute. reflexivity.
Qed.
