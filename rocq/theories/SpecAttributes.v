(** Specification vocabulary for attributes.fits (C68). *)
From Coq Require Import ZArith String List Bool Arith Qcanon DecimalString.
From Verif Require Import Num Dict ModelVarFit ModelFitter ModelAttributes.
Import ListNotations.
Local Open Scope nat_scope.

Definition is_some {A} (x : option A) : bool := match x with Some _ => true | None => false end.
(** the suffix of the k-th iteration: -1, -2, ... *)
Definition suffix_of (k : nat) : string := "-" ++ NilEmpty.string_of_uint (Nat.to_uint k).
(** the extensions of one set; [fitting]: with the variance functions *)
Definition set_names (suff : string) (fitting : bool) : list string :=
  ["CONT" ++ suff; "STACKED_FLUX" ++ suff; "STACKED_FLUX_RF" ++ suff]%string ++ (if fitting then ["VAR_FUNC" ++ suff]%string else []).
(** the extensions after k iterations.  With a fiducial var_lss (not fitting) the variance functions are
    fitted once at the end. *)
Definition attribute_names (fitting : bool) (k : nat) : list string :=
  flat_map (fun i => set_names (suffix_of (S i)) fitting) (seq 0 k) ++ set_names "" fitting ++
  (if fitting then [] else set_names "-fit" true) ++ ["VAR_STATS"%string].
(** the column [col] of the extension [name] *)
Definition column_of (file : list ext) (name col : string) : option (list num) :=
  match find (fun e => String.eqb (x_name e) name) file with Some e => dget col (x_cols e) | None => None end.
(** the extensions whose name begins with [base], in file order *)
Definition exts_of (base : string) (file : list ext) : list ext := filter (fun e => String.prefix base (x_name e)) file.
(** the continuum model sees the tables of the fitter (as constructed by PiccaContinuumFitter) *)
Definition shared (t : fitter) : Prop := t_mvar t = t_var t /\ t_meta t = t_eta t.
(** an outcome without the record of the fits and of the file *)
Definition forget {A B} (o : Mpi.outcome (A * B)) : Mpi.outcome A :=
  match o with
  | Mpi.Done l => Mpi.Done (map (fun e => match e with Mpi.Finished x => Mpi.Finished (fst x) | Mpi.Failed e => Mpi.Failed e end) l)
  | Mpi.Deadlock => Mpi.Deadlock
  | Mpi.Aborted => Mpi.Aborted
  end.

(** The column [col] of the extension x is the table of the interpolator i, on the wavelengths of x: what a
    reader needs in order to evaluate i. *)
Definition table_in (x : ext) (col : string) (i : interp) : Prop :=
  i_linear i = false /\ dget col (x_cols x) = Some (i_fp i) /\
  x_wave x = map (fun k => (i_x0 i + zq (Z.of_nat k) * i_dx i)%Qc) (seq 0 (length (x_wave x))).
