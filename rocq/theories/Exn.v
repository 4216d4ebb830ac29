(** Python exceptions as values. *)
From Coq Require Import String.

(** py/qsonic/__init__.py defines QsonicException ("raised on all MPI ranks");
    all other exceptions (ValueError, IndexError, KeyError, ...) are [OtherExn]
    with a tag that says which one.  [SysExit] is python's SystemExit. *)
Inductive exn := QsonicExn (msg : string) | OtherExn (msg : string) | SysExit.

Inductive res (A : Type) := Ok (a : A) | Err (e : exn).
Arguments Ok {A} a. Arguments Err {A} e.

Definition rbind {A B} (x : res A) (f : A -> res B) : res B :=
  match x with Ok a => f a | Err e => Err e end.
Definition rmap {A B} (f : A -> B) (x : res A) : res B :=
  match x with Ok a => Ok (f a) | Err e => Err e end.

(** Evaluate a list of fallible computations left to right. *)
Fixpoint rseq {A} (l : list (res A)) : res (list A) :=
  match l with
  | nil => Ok nil
  | cons x r => rbind x (fun a => rmap (cons a) (rseq r))
  end.

(** IndexError when the index is out of range. *)
Definition of_option {A} (msg : string) (o : option A) : res A :=
  match o with Some a => Ok a | None => Err (OtherExn msg) end.
