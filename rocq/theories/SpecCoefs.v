(** Specification vocabulary for the coefficients in the chi2 catalog (C78). *)
From Coq Require Import ZArith String List Bool Arith Qcanon.
From Verif Require Import Num NpList Exn Dict ModelSpectrum ModelContinuum ModelVarFit ModelFitter ModelChi2.
Import ListNotations.
Local Open Scope nat_scope.

(** x and xcov are the minimum and the covariance of one and the same successful answer of the minimizer for quasar [cat] *)
Definition one_answer (minimizer : interp -> interp -> interp -> interp -> spec -> num -> option minres) (cat : catrow) (x xcov : list num) : Prop :=
  exists mf cont var eta s a0 m, minimizer mf cont var eta s a0 = Some m /\ m_valid m = true /\ s_cat s = cat /\
    x = m_x m /\ xcov = concat (m_xcov m).
(** they are the values before the first fit: the first coefficient is the one the reader set, the others are zero and
    the covariance is the identity matrix *)
Definition start_values (order : nat) (s : spec) (x xcov : list num) : Prop :=
  exists x0 rest, s_x s = x0 :: rest /\ x = x0 :: repeat n0 order /\
    xcov = concat (map (fun i => map (fun j => if Nat.eqb i j then n1 else n0) (seq 0 (S order))) (seq 0 (S order))).
(** the minimizer returns as many coefficients as the model has, and a square matrix *)
Definition answers_sized (order : nat) (minimizer : interp -> interp -> interp -> interp -> spec -> num -> option minres) : Prop :=
  forall mf cont var eta s a0 m, minimizer mf cont var eta s a0 = Some m -> m_valid m = true ->
    length (m_x m) = S order /\ length (concat (m_xcov m)) = S order * S order.
