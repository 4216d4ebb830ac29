(** How the ranks of an SPMD program may end together. *)
From Coq Require Import String List Bool Arith.
From Verif Require Import Exn Mpi.
Import ListNotations.

(** No rank waits forever.  Either some rank raised an unexpected exception
    (neither QsonicException nor SystemExit: comm.Abort()), or all ranks raised
    the same QsonicException (or SystemExit), or all ranks finished, with results
    that satisfy Q. *)
Definition together {V A} (n : nat) (p : nat -> prog V A) (Q : (nat -> A) -> Prop) : Prop :=
  match spmd n p with
  | Deadlock => False
  | Aborted => True
  | Done l =>
      (exists m, In (Failed (OtherExn m)) l) \/
      (exists e, (forall m, e <> OtherExn m) /\ l = repeat (Failed e) n) \/
      (exists f, l = map (fun r => Finished (f r)) (seq 0 n) /\ Q f)
  end.

(** What update_mean_cont reports in the successive iterations, for at most n of
    them: no convergence, until the first time it does; the loop ends there. *)
Definition iteration_log (n : nat) (log : list bool) : Prop :=
  (exists k, k < n /\ log = repeat false k ++ [true]) \/ log = repeat false n.
