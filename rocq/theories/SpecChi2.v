(** Specification vocabulary for the chi2 catalog (C61). *)
From Coq Require Import ZArith String List Bool Arith Qcanon.
From Verif Require Import Num NpList Dict Exn ModelSpectrum ModelChi2.
Import ListNotations.
Local Open Scope nat_scope.

(** the k-th of the n columns of a vector field: a vector of one number is repeated *)
Definition component (v : list num) (k : nat) : option num :=
  match v with [x] => Some x | _ => nth_error v k end.
Definition matrix_component (c : mat) (i j : nat) : option num :=
  match c with [[x]] => Some x | _ => match nth_error c i with Some r => nth_error r j | None => None end end.

(** row describes the spectrum e of this rank, fitted with n parameters *)
Definition describes (rank n : nat) (e : entry) (row : chi2row) : Prop :=
  let s := e_spec e in
  r_id row = c_targetid (s_cat s) /\ r_z row = c_z (s_cat s) /\ r_hpx row = c_hpix (s_cat s) /\ r_rank row = rank /\
  r_rsnr row = s_rsnr s /\ r_valid row = s_valid s /\ r_chi2 row = s_chi2 s /\ r_dof row = e_dof e /\
  (exists m, s_msnr s = Some m /\
     (String.length (String.concat "," (map fst m)) <= 5 -> r_arms row = String.concat "," (map fst m)) /\
     length (r_snr row) = 3 /\
     forall k, k < 3 -> nth_error (r_snr row) k = Some (match nth_error m k with Some (_, v) => v | None => n0 end)) /\
  length (r_x row) = n /\ (forall k, k < n -> nth_error (r_x row) k = component (s_x s) k) /\
  length (r_xcov row) = n * n /\
  (forall i j, i < n -> j < n -> nth_error (r_xcov row) (i * n + j) = matrix_component (e_xcov e) i j).

(** the spectrum has a row: at most three arms, and as many parameters as the fit (or one) *)
Definition square (n : nat) (c : mat) : Prop := length c = n /\ Forall (fun r => length r = n) c.
Definition fits_row (n : nat) (e : entry) : Prop :=
  (exists m, s_msnr (e_spec e) = Some m /\ length m <= 3) /\
  ((length (s_x (e_spec e)) = n \/ length (s_x (e_spec e)) = 1) /\ (square n (e_xcov e) \/ square 1 (e_xcov e))).

(** what a fit never changes: whose spectrum it is and its signal-to-noise *)
Definition same_quasar (s s' : spec) : Prop := s_cat s' = s_cat s /\ s_rsnr s' = s_rsnr s /\ s_msnr s' = s_msnr s.
(** b: the spectrum sx after [init] and k fits, with any states t of the fitter *)
Inductive fitted {X T : Type} (init : X -> res X) (fit : T -> X -> res X) : X -> nat -> X -> Prop :=
| fitted_init sx a : init sx = Ok a -> fitted init fit sx 0 a
| fitted_fit sx k t a b : fitted init fit sx k a -> fit t a = Ok b -> fitted init fit sx (S k) b.

(** f: what the ranks write; one table on rank 0, with one row per spectrum of each of the n ranks, in this order *)
Definition the_table (n np : nat) (l : nat -> list entry) (f : nat -> option (list chi2row)) : Prop :=
  exists rows, (forall r, r < n -> Forall2 (describes r np) (l r) (rows r)) /\
    f 0 = Some (concat (map rows (seq 0 n))) /\ forall r, 0 < r < n -> f r = None.
