(** Specification of the normalisation and of the convergence of the mean
    continuum, independent of the model's helpers. *)
From Coq Require Import ZArith String List Bool Arith Qcanon.
From Verif Require Import Num NpList.
Import ListNotations.
Local Open Scope nat_scope.

(** a linear quadrature of functions given at n nodes *)
Definition linear (n : nat) (quad : list Qc -> Qc) : Prop :=
  forall a b u v, length u = n -> length v = n ->
    quad (map2 (fun x y => a * x + b * y)%Qc u v) = (a * quad u + b * quad v)%Qc.
(** the polynomials P 1, ..., P order at the nodes are orthogonal with norms
    1/(2i+1) for this quadrature *)
Definition orthogonal (P : nat -> Qc -> Qc) (xs : list Qc) (quad : list Qc -> Qc) (order : nat) : Prop :=
  forall i j, 1 <= i <= order -> 1 <= j <= order ->
    quad (map (fun x => P i ((1 + 1) * x - 1) * P j ((1 + 1) * x - 1))%Qc xs)
    = if Nat.eqb i j then (1 / zq (2 * Z.of_nat i + 1))%Qc else 0%Qc.

(** ** the natural cubic spline through (0, a), (1/2, b), (1, c) *)
(** polynomials of degree 3, value, first and second derivative, integral from s to t *)
Record cubic := mkCubic { c0 : Qc; c1 : Qc; c2 : Qc; c3 : Qc }.
Definition at_ (p : cubic) (x : Qc) : Qc := (c0 p + c1 p * x + c2 p * (x * x) + c3 p * (x * x * x))%Qc.
Definition d1 (p : cubic) (x : Qc) : Qc := (c1 p + zq 2 * c2 p * x + zq 3 * c3 p * (x * x))%Qc.
Definition d2 (p : cubic) (x : Qc) : Qc := (zq 2 * c2 p + zq 6 * c3 p * x)%Qc.
Definition anti (p : cubic) (x : Qc) : Qc :=
  (c0 p * x + c1 p * (x * x) / zq 2 + c2 p * (x * x * x) / zq 3 + c3 p * (x * x * x * x) / zq 4)%Qc.
Definition integral (p : cubic) (s t : Qc) : Qc := (anti p t - anti p s)%Qc.
(** p on [0, 1/2] and q on [1/2, 1] *)
Definition natural_spline (a b c : Qc) (p q : cubic) : Prop :=
  let h := fq 1 2 in
  at_ p 0 = a /\ at_ p h = b /\ at_ q h = b /\ at_ q 1 = c /\
  d1 p h = d1 q h /\ d2 p h = d2 q h /\ d2 p 0 = 0%Qc /\ d2 q 1 = 0%Qc.
Definition spline_quad (y : list Qc) : Qc :=
  (fq 3 16 * nth 0 y 0 + fq 10 16 * nth 1 y 0 + fq 3 16 * nth 2 y 0)%Qc.
