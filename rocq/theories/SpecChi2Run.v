(** Specification vocabulary for the chi2 catalog of a run (C75). *)
From Coq Require Import ZArith String List Bool Arith Qcanon.
From Verif Require Import Num NpList Exn Dict Mpi ModelSpectrum ModelFitter ModelDelta ModelChi2 SpecSpectrum.
Import ListNotations.
Local Open Scope nat_scope.

(** the number of unmasked pixels of the forest *)
Definition unmasked (s : spec) : nat :=
  fold_right (fun (a : string * list num) n => length (filter npos (snd a)) + n) 0 (fivar (s_f s)).
(** row is about the quasar s, of this rank *)
Definition about (rank : nat) (s : spec) (row : chi2row) : Prop :=
  r_id row = c_targetid (s_cat s) /\ r_z row = c_z (s_cat s) /\ r_hpx row = c_hpix (s_cat s) /\ r_rank row = rank.

(** DELTA and WEIGHT of an HDU of a delta file; the columns start with LAMBDA, DELTA, IVAR, WEIGHT *)
Definition delta_weight (h : hdu) (ds ws : list Qc) : Prop :=
  exists x ivs rest, map snd (h_cols h) = CWave x :: CNum (map Fin ds) :: CNum ivs :: CNum (map Fin ws) :: rest.
(** sum of WEIGHT DELTA^2 over the rows *)
Fixpoint weighted_squares (ds ws : list Qc) : Qc :=
  match ds, ws with d :: ds', w :: ws' => (w * (d * d) + weighted_squares ds' ws')%Qc | _, _ => 0%Qc end.
(** and over the HDUs of a quasar *)
Fixpoint total (l : list (list Qc * list Qc)) : Qc :=
  match l with [] => 0%Qc | (ds, ws) :: r => (weighted_squares ds ws + total r)%Qc end.

(** only masked pixels have a continuum of zero (such pixels have IVAR = 0 in the file) *)
Definition zero_is_masked (s : spec) : Prop :=
  forall arm k, at_pix (s_cont s) arm k = Some n0 -> at_pix (fivar (s_f s)) arm k = Some n0.
