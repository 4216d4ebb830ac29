(** Specification vocabulary for calibration tables (C67). *)
From Coq Require Import ZArith List Bool Arith Qcanon.
From Verif Require Import Num SpecInterp.
Import ListNotations.
Local Open Scope nat_scope.

(** wavelengths x0, x0 + h, x0 + 2 h, ... *)
Definition equally_spaced (x0 h : Qc) (w : list Qc) : Prop := forall i x, nth_error w i = Some x -> x = node x0 h i.
(** the largest deviation of a step of the table from its first step that is documented as equal spacing *)
Definition step_tolerance (h : Qc) : Qc := (fq 1 100000000 + fq 1 100000 * qabs h)%Qc.
Definition step (w : list Qc) (i : nat) : Qc := (nth (S i) w 0 - nth i w 0)%Qc.
(** zeros of a table stand for "no correction" *)
Definition or_one (y : Qc) : Qc := if Qc_eq_dec y 0 then 1%Qc else y.
Definition spaced_within (w : list Qc) : Prop :=
  2 <= length w /\ forall i, S i < length w -> (qabs (step w i - step w 0) <= step_tolerance (step w 0))%Qc.
