(** Model of py/qsonic/mpi_utils.py. *)
From Coq Require Import String ZArith List Bool Arith.
From Verif Require Import Exn NpList Mpi.
Import ListNotations.
Local Open Scope list_scope.

(** mpi_utils.py:110-133 balance_load.  [cats] is the list of catalogs (arrays
    of rows, here lists), sorted by size in descending order with a stable sort
    (list.sort(key=..., reverse=True)), then appended one by one to the queue
    with the smallest number of spectra (np.argmin: first minimum).
    [mpi_size] >= 1; for 0 np.argmin raises (not modelled, MPI sizes are >= 1).
    The in-place sort of the argument is not visible to the callers. *)
Definition balance_step {A} (st : list Z * list (list (list A))) (cat : list A)
  : list Z * list (list (list A)) :=
  let '(number_of_spectra, local_queues) := st in
  let min_idx := argmin number_of_spectra in
  (upd min_idx (fun n => n + Z.of_nat (length cat))%Z number_of_spectra,
   upd min_idx (fun q => q ++ [cat]) local_queues).

Definition balance_load {A} (split_catalog : list (list A)) (mpi_size : nat)
  : list (list (list A)) :=
  let sorted := isort (fun a b => Nat.leb (length b) (length a)) split_catalog in
  snd (fold_left balance_step sorted
         (repeat 0%Z mpi_size, repeat [] mpi_size)).

(** mpi_utils.py:48-107 mpi_fnc_bcast.  [fnc] is the outcome of calling the
    function on a rank.  `except Exception` catches everything but SystemExit
    (KeyboardInterrupt, GeneratorExit are not modelled).  The sentinel class
    _INVALID_VALUE is [None]. *)
Definition invalid_or {T} (r : res T) : res (option T) :=
  match r with
  | Ok v => Ok (Some v)
  | Err SysExit => Err SysExit
  | Err _ => Ok None
  end.
Definition finish_bcast {V T} (err_msg : string) (r : option T) : prog V T :=
  match r with
  | None => Raise (QsonicExn err_msg)
  | Some v => Ret v
  end.
Definition mpi_fnc_bcast {T} (use_comm : bool) (mpi_rank : nat)
  (err_msg : string) (fnc : res T) : prog (option T) T :=
  let evaluated := Nat.eqb mpi_rank 0 || negb use_comm in
  match (if evaluated then invalid_or fnc else Ok None) with
  | Err e => Raise e
  | Ok result =>
      if use_comm then Bcast result (fun r => finish_bcast err_msg r)
      else finish_bcast err_msg result
  end.

(** mpi_utils.py:13-45 mpi_parse.  [parse] is the outcome of
    parser.parse_args(options) on rank 0, [logic] the args_logic_fnc, which may
    itself raise.  args = -1 is [None]; exit(0) is SystemExit. *)
Definition mpi_parse {T} (mpi_rank : nat) (parse : res T) (logic : T -> res bool)
  : prog (option T) T :=
  let args : res (option T) :=
    if Nat.eqb mpi_rank 0 then
      match parse with
      | Ok a => match logic a with
                | Ok true => Ok (Some a)
                | Ok false => Ok None
                | Err SysExit => Ok None
                | Err e => Err e
                end
      | Err SysExit => Ok None
      | Err e => Err e
      end
    else Ok None in
  match args with
  | Err e => Raise e
  | Ok a => Bcast a (fun r => match r with
                              | None => Raise SysExit
                              | Some v => Ret v
                              end)
  end.
