(** Semantics of an SPMD MPI program: one resumable program per rank.

    A rank program runs local python code until it reaches a collective call of
    MPI.COMM_WORLD (mpi4py bcast / scatter / allreduce), where it waits for all
    other ranks.  qsonic only uses these (blocking) collectives, so that the
    communication is deterministic and the lock-step semantics below covers all
    schedules of the ranks.

    How a rank ends (scripts/qsonic_fit.py:518-526 and qsonic_calib.py:273-281):
    normally, by QsonicException (the rank logs and exits, no MPI Abort), by
    SystemExit, or by any other exception (comm.Abort() ends all ranks). *)
From Coq Require Import String List Bool Arith.
From Verif Require Import Exn.
Import ListNotations.

Section Mpi.
Context {V A : Type}.

Inductive prog :=
| Ret (a : A)
| Raise (e : exn)
| Bcast (v : V) (k : V -> prog)              (* comm.bcast(v), root=0 *)
| Scatter (v : option (list V)) (k : V -> prog)  (* comm.scatter(v), root=0 *)
| Allreduce (op : V -> V -> V) (v : V) (k : V -> prog).  (* comm.allreduce *)

Inductive ending := Finished (a : A) | Failed (e : exn).

Inductive outcome :=
| Done (l : list ending)   (* every rank ended, result of each rank *)
| Deadlock                 (* some rank waits forever in a collective *)
| Aborted.                 (* comm.Abort() was called: everything is killed *)

Definition ending_of (p : prog) : option ending :=
  match p with Ret a => Some (Finished a) | Raise e => Some (Failed e) | _ => None end.

Definition aborts (p : prog) : bool :=
  match p with Raise (OtherExn _) => true | _ => false end.

Fixpoint all_some {B} (l : list (option B)) : option (list B) :=
  match l with
  | [] => Some []
  | Some x :: r => option_map (cons x) (all_some r)
  | None :: _ => None
  end.

Definition bcast_k (p : prog) : option (V -> prog) :=
  match p with Bcast _ k => Some k | _ => None end.
Definition scatter_k (p : prog) : option (V -> prog) :=
  match p with Scatter _ k => Some k | _ => None end.
Definition allreduce_k (p : prog) : option (V * (V -> prog)) :=
  match p with Allreduce _ v k => Some (v, k) | _ => None end.

(** What happens when the ranks do not agree on the next collective. *)
Definition mismatch (ps : list prog) : outcome :=
  if existsb aborts ps then Aborted else Deadlock.

Definition final (ps : list prog) : outcome :=
  match all_some (map ending_of ps) with
  | Some l => Done l
  | None => mismatch ps
  end.

(** [run p0 ps]: rank 0 executes [p0], ranks 1, 2, ... execute [ps]. *)
Fixpoint run (p0 : prog) (ps : list prog) : outcome :=
  match p0 with
  | Ret _ | Raise _ => final (p0 :: ps)
  | Bcast v k =>
      match all_some (map bcast_k ps) with
      | Some ks => run (k v) (map (fun k' => k' v) ks)
      | None => mismatch (p0 :: ps)
      end
  | Scatter (Some (v0 :: vs)) k =>
      match all_some (map scatter_k ps) with
      | Some ks => if Nat.eqb (length ks) (length vs)
                   then run (k v0) (map (fun kv => fst kv (snd kv)) (combine ks vs))
                   else Aborted (* mpi4py: ValueError on the root *)
      | None => mismatch (p0 :: ps)
      end
  | Scatter _ _ => Aborted
  | Allreduce op v k =>
      match all_some (map allreduce_k ps) with
      | Some vks => let r := fold_left op (map fst vks) v in
                    run (k r) (map (fun vk => snd vk r) vks)
      | None => mismatch (p0 :: ps)
      end
  end.

(** [spmd n p]: all of the n >= 1 ranks run the program [p rank]. *)
Definition spmd (n : nat) (p : nat -> prog) : outcome :=
  match n with
  | O => Done []
  | S m => run (p 0) (map p (seq 1 m))
  end.
End Mpi.
Arguments prog : clear implicits.
Arguments ending : clear implicits.
Arguments outcome : clear implicits.

(** Sequencing of rank programs. *)
Fixpoint pbind {V A B} (p : prog V A) (f : A -> prog V B) : prog V B :=
  match p with
  | Ret a => f a
  | Raise e => Raise e
  | Bcast v k => Bcast v (fun x => pbind (k x) f)
  | Scatter v k => Scatter v (fun x => pbind (k x) f)
  | Allreduce op v k => Allreduce op v (fun x => pbind (k x) f)
  end.
Definition of_res {V A} (r : res A) : prog V A :=
  match r with Ok a => Ret a | Err e => Raise e end.
