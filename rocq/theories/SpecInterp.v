(** Specification vocabulary for the interpolators. *)
From Coq Require Import ZArith List Bool Arith Qcanon.
From Verif Require Import Num.
Import ListNotations.
Local Open Scope nat_scope.

(** i-th node of the equally spaced grid *)
Definition node (x0 h : Qc) (i : nat) : Qc := (x0 + zq (Z.of_nat i) * h)%Qc.

(** x belongs to the segment between node i and node i+1 of a grid with n nodes;
    the first and the last segment extend to infinity. *)
Definition in_segment (x0 h : Qc) (n i : nat) (x : Qc) : Prop :=
  S i < n /\ (i = 0 \/ (node x0 h i <= x)%Qc) /\ (S (S i) = n \/ (x <= node x0 h (S i))%Qc).

(** the line through (xa, ya) and (xb, yb) *)
Definition chord (xa ya xb yb x : Qc) : Qc := (ya + (yb - ya) * (x - xa) / (xb - xa))%Qc.

(** cubic polynomials and their derivatives *)
Record cubic := mkcubic { k0 : Qc; k1 : Qc; k2 : Qc; k3 : Qc }.
Definition value (p : cubic) (t : Qc) : Qc := (k0 p + k1 p * t + k2 p * t ^ 2 + k3 p * t ^ 3)%Qc.
Definition slope (p : cubic) (t : Qc) : Qc := (k1 p + zq 2 * k2 p * t + zq 3 * k3 p * t ^ 2)%Qc.
Definition curvature (p : cubic) (t : Qc) : Qc := (zq 2 * k2 p + zq 6 * k3 p * t)%Qc.
Definition third (p : cubic) : Qc := (zq 6 * k3 p)%Qc.

(** [call] is on segment i the polynomial [piece i] of the distance from node i *)
Definition piecewise (call : Qc -> option Qc) (x0 h : Qc) (n : nat) (piece : nat -> cubic) : Prop :=
  forall i x, in_segment x0 h n i x -> call x = Some (value (piece i) (x - node x0 h i)%Qc).
Definition interpolates (fp : list Qc) (h : Qc) (piece : nat -> cubic) : Prop :=
  forall i, S i < length fp ->
    nth_error fp i = Some (value (piece i) 0%Qc) /\ nth_error fp (S i) = Some (value (piece i) h).

Definition qabs (x : Qc) : Qc := if qleb 0 x then x else (- x)%Qc.

(** Horner's rule *)
Fixpoint horner (coef : list Qc) (x : Qc) : Qc :=
  match coef with [] => 0%Qc | a :: r => (a + x * horner r x)%Qc end.
