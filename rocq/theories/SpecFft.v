(** Specification vocabulary for the Gaussian smoothing (C65). *)
From Coq Require Import Reals List ZArith.
Import ListNotations.
Local Open Scope R_scope.

(** The array continued by its edge values *)
Definition edge (x : list R) (z : Z) : R :=
  if (z <? 0)%Z then hd 0 x else if (Z.of_nat (length x) <=? z)%Z then last x 0 else nth (Z.to_nat z) x 0.
(** sum of f a, ..., f (a + n - 1) *)
Fixpoint sum_range (f : Z -> R) (a : Z) (n : nat) : R :=
  match n with O => 0 | S n => sum_range f a n + f (a + Z.of_nat n)%Z end.
(** Smoothing of arrays of n pixels with weights h that depend only on the distance, over the array continued by p pixels *)
Definition smooths_with (h : Z -> R) (p n : nat) (x y : list R) : Prop :=
  length y = n /\ forall j, (j < n)%nat ->
    nth j y 0 = sum_range (fun i => h (Z.of_nat j - i)%Z * edge x i) (- Z.of_nat p) (n + 2 * p).
(** weights are symmetric, and those of all pixels add up to one for each output pixel *)
Definition averaging (h : Z -> R) (p n : nat) : Prop :=
  (forall d, h (- d)%Z = h d) /\ forall j, sum_range (fun i => h (j - i)%Z) (- Z.of_nat p) (n + 2 * p) = 1.
(** one bright pixel *)
Definition impulse (before after : nat) : list R := repeat 0 before ++ 1 :: repeat 0 after.
(** the normal distribution *)
Definition gaussian_density (s x : R) : R := exp (- x ^ 2 / (2 * s ^ 2)) / (s * sqrt (2 * PI)).
