(** Specification of the stacked flux, independent of the model's helpers. *)
From Coq Require Import ZArith String List Bool Arith Qcanon.
From Verif Require Import Num NpList Exn Dict Mpi ModelSpectrum ModelStack.
Import ListNotations.
Local Open Scope nat_scope.

(** A forest pixel of a quasar at redshift [q_z] with its continuum and weight. *)
Record stackpix := mkSP { q_z : Qc; q_wave : Qc; q_flux : Qc; q_cont : Qc; q_weight : Qc }.

Definition values (d : dict arr) (arm : string) : list Qc :=
  match dget arm d with Some a => map nval a | None => [] end.
(** the forest pixels of a spectrum *)
Definition arm_pixels (s : spec) (aw : string * list Qc) : list stackpix :=
  let arm := fst aw in
  map (fun t : Qc * (Qc * (Qc * Qc)) =>
         let '(w, (f, (c, wt))) := t in mkSP (s_z s) w f c wt)
      (combine (snd aw) (combine (values (ff (s_f s)) arm)
                        (combine (values (s_cont s) arm) (values (fweight (s_f s)) arm)))).
Definition spec_pixels (s : spec) : list stackpix := flat_map (arm_pixels s) (fw (s_f s)).
(** the pixels of all spectra with a valid continuum *)
Definition sample_pixels (l : list spec) : list stackpix := flat_map spec_pixels (filter s_valid l).

(** flux, continuum and weight are finite arrays of the length of the
    wavelengths, and the continuum vanishes nowhere *)
Definition stackable (s : spec) : Prop :=
  forall arm w, In (arm, w) (fw (s_f s)) ->
  exists f c wt,
    dget arm (ff (s_f s)) = Some (map Fin f) /\ dget arm (s_cont s) = Some (map Fin c) /\
    dget arm (fweight (s_f s)) = Some (map Fin wt) /\
    length f = length w /\ length c = length w /\ length wt = length w /\
    forall x, In x c -> x <> 0%Qc.

(** pixels in the observed range and in the forest *)
Definition in_region (w1 w2 lya1 lya2 : Qc) (p : stackpix) : Prop :=
  (0 < 1 + q_z p)%Qc /\ (w1 <= q_wave p)%Qc /\ (q_wave p < w2)%Qc /\
  (lya1 <= q_wave p / (1 + q_z p))%Qc /\ (q_wave p / (1 + q_z p) < lya2)%Qc.

(** bin number b of width dw, starting at lo *)
Definition in_bin (lo dw : Qc) (b : nat) (w : Qc) : bool :=
  qleb (lo + zq (Z.of_nat b) * dw)%Qc w && qltb w (lo + zq (Z.of_nat b + 1) * dw)%Qc.
Definition obs_bin (w1 dw : Qc) (b : nat) (p : stackpix) : bool := in_bin w1 dw b (q_wave p).
Definition rf_bin (lya1 dw : Qc) (b : nat) (p : stackpix) : bool :=
  in_bin lya1 dw b (q_wave p / (1 + q_z p))%Qc.

(** the weight of flux/continuum is the weight of the flux times continuum^2 *)
Definition rel_weight (p : stackpix) : Qc := (q_weight p * (q_cont p * q_cont p))%Qc.
Definition total_rel_weight (l : list stackpix) : Qc := qsum (map rel_weight l).
(** weighted mean of g; 0 without weight *)
Definition stack_mean (g : stackpix -> Qc) (l : list stackpix) : Qc :=
  if qltb 0 (total_rel_weight l)
  then (qsum (map (fun p => rel_weight p * g p)%Qc l) / total_rel_weight l)%Qc
  else 0%Qc.
Definition transmission (p : stackpix) : Qc := (q_flux p / q_cont p)%Qc.

(** a stacker with the bins of k0, whatever was added to it before *)
Definition like (k0 k : stacker) : Prop :=
  k_w0 k = k_w0 k0 /\ k_dw k = k_dw k0 /\ k_n k = k_n k0 /\
  k_rf0 k = k_rf0 k0 /\ k_drf k = k_drf k0 /\ k_nrf k = k_nrf k0 /\
  length (k_fp k) = length (k_fp k0) /\ length (k_ep k) = length (k_ep k0) /\
  length (k_rfp k) = length (k_rfp k0) /\ length (k_rep k) = length (k_rep k0).
