(** Model of the option handling of scripts/qsonic_fit.py. *)
From Coq Require Import ZArith String List Bool Arith Qcanon.
From Verif Require Import Num NpList Exn.
Import ListNotations.
Local Open Scope nat_scope.

(** scripts/qsonic_fit.py 459-461: redshift limits of the catalog (zmin, zmax). *)
Definition z_limits (wave1 wave2 forest_w1 forest_w2 skip : Qc) : Qc * Qc :=
  let tol := ((forest_w2 - forest_w1) * skip)%Qc in
  (wave1 / (forest_w2 - tol) - 1, wave2 / (forest_w1 + tol) - 1)%Qc.

(** ** Options *)
(** Options used by args_logic; an absent path is "". Wavelengths are floats (argparse's type=float
    accepts "nan" and "inf"). *)
Record fitargs := mkArgs {
  a_arms : list string; a_true : bool; a_model : string; a_mock : bool;
  a_meanflux : string; a_varlss : string; a_inputdir : string;
  a_wave1 : num; a_wave2 : num; a_fw1 : num; a_fw2 : num;
  a_tile : bool; a_byhpx : bool; a_exposures : string }.
Definition given (path : string) : bool := negb (String.eqb path "").
(** scripts/qsonic_fit.py 60-95, args_logic_fnc_qsonic_fit.  [set_list] is list(set(...)). *)
Definition args_logic (set_list : list string -> list string) (a : fitargs) : fitargs * bool :=
  let tru := a_true a || String.eqb (a_model a) "true" in
  let conditions :=
    [ tru && negb (a_mock a);
      tru && negb (given (a_meanflux a));
      tru && negb (given (a_varlss a));
      tru && given (a_inputdir a);
      nleb (a_wave2 a) (a_wave1 a);
      nleb (a_fw2 a) (a_fw1 a);
      a_mock a && a_tile a;
      a_tile a && a_byhpx a;
      negb (String.eqb (a_exposures a) "disable") && a_tile a ] in
  let failed := filter (fun c : bool => c) conditions in
  let model1 := if tru then "true"%string else a_model a in
  let model2 := if given (a_inputdir a) then "input"%string else model1 in
  (mkArgs (set_list (a_arms a)) tru model2 (a_mock a) (a_meanflux a) (a_varlss a) (a_inputdir a)
     (a_wave1 a) (a_wave2 a) (a_fw1 a) (a_fw2 a) (a_tile a) (a_byhpx a) (a_exposures a),
   Nat.eqb (length failed) 0).
(** io.py 712-728, _float_range; [parse] is float(arg), None for ValueError. *)
Definition float_range (parse : string -> option num) (f1 f2 : num) (arg : string) : res num :=
  match parse arg with
  | None => Err (OtherExn "ArgumentTypeError")
  | Some f => if nltb f f1 || nltb f2 f then Err (OtherExn "ArgumentTypeError") else Ok f
  end.
