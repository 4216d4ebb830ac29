(** Specification vocabulary for the subsampling statistics. *)
From Coq Require Import String ZArith List Bool Arith Qcanon.
From Verif Require Import Num ModelSubsample.
Import ListNotations.
Local Open Scope nat_scope.

(** One measurement: values x_jk (data set j, element k) with weights w_k. *)
Record measurement := mkmeas { value : nat -> nat -> Qc; weight : nat -> Qc }.

Definition total_weight (ms : list measurement) (k : nat) : Qc :=
  qsum (map (fun m => weight m k) ms).
Definition weighted_sum (ms : list measurement) (j k : nat) : Qc :=
  qsum (map (fun m => weight m k * value m j k)%Qc ms).
(** weighted mean of all measurements; 0 where there is no weight *)
Definition weighted_mean (ms : list measurement) (j k : nat) : Qc :=
  if qeqb (total_weight ms k) 0 then 0%Qc else (weighted_sum ms j k / total_weight ms k)%Qc.

Definition nonneg_weights (ms : list measurement) : Prop :=
  forall m k, In m ms -> (0 <= weight m k)%Qc.

(** The t-th measurement since the start belongs to subsample (start + t) mod n. *)
Definition others (n start i : nat) (ms : list measurement) : list measurement :=
  map snd (filter (fun p => negb (Nat.eqb ((start + fst p) mod n) i))
                  (combine (seq 0 (length ms)) ms)).
(** Delete-one estimate: weighted mean of all measurements that are not in
    subsample i, with the denominator regularised by eps * total weight. *)
Definition delete_one (n start : nat) (ms : list measurement) (i j k : nat) : Qc :=
  if qeqb (total_weight ms k) 0 then 0%Qc
  else (weighted_sum (others n start i ms) j k
        / (total_weight (others n start i ms) k + eps * total_weight ms k))%Qc.
Definition average (n : nat) (f : nat -> Qc) : Qc := (qsum (map f (seq 0 n)) / qnat n)%Qc.
(** Delete-one jackknife covariance of element a and b of data set j. *)
Definition jackknife (n start : nat) (ms : list measurement) (j a b : nat) : Qc :=
  let dev k i := (delete_one n start ms i j k - average n (fun i => delete_one n start ms i j k))%Qc in
  ((qnat n - 1) / qnat n * qsum (map (fun i => dev a i * dev b i) (seq 0 n)))%Qc.

Definition symmetric (n : nat) (c : nat -> nat -> Qc) : Prop :=
  forall a b, a < n -> b < n -> c a b = c b a.
Definition positive_semidefinite (n : nat) (c : nat -> nat -> Qc) : Prop :=
  forall v : nat -> Qc,
    (0 <= qsum (map (fun a => qsum (map (fun b => v a * c a b * v b) (seq 0 n))) (seq 0 n)))%Qc.

(** ** Histories of calls *)
Inductive call :=
| Add (m : measurement)
| Mean
| Cov (indices : option (list nat)) (blockdim : option nat) (bias_correct : bool)
| Var (bias_correct : bool)
| Reset.
Definition to_op (c : call) : sub_op :=
  match c with
  | Add m => OpAdd (fun j k => weight m k * value m j k)%Qc (weight m)
  | Mean => OpMean
  | Cov i b c => OpCov i b c
  | Var c => OpVar c
  | Reset => OpReset
  end.
Definition calls (s : sub) (h : list call) : sub := sub_calls s (map to_op h).

Definition is_getter (c : call) : bool :=
  match c with Mean | Cov _ _ _ | Var _ => true | _ => false end.

(** (measurements taken since the last reset and before the first getter,
     has a getter been called since the last reset?) *)
Definition history_step (st : list measurement * bool) (c : call) : list measurement * bool :=
  match c with
  | Add m => if snd st then st else (fst st ++ [m], false)
  | Reset => ([], false)
  | _ => (fst st, true)
  end.
Definition history (h : list call) : list measurement * bool := fold_left history_step h ([], false).
Definition accepted (h : list call) : list measurement := fst (history h).
Definition closed (h : list call) : bool := snd (history h).

Definition nonneg_history (h : list call) : Prop :=
  forall m k, In (Add m) h -> (0 <= weight m k)%Qc.
