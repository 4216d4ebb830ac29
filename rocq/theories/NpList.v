(** numpy / python list primitives used by qsonic, on Coq lists.
    Definitions only (the lemmas are in NpListFacts.v). *)
From Coq Require Import ZArith List Bool Arith Lia Qcanon.
From Verif Require Import Num.
Import ListNotations.
Local Open Scope nat_scope.

(** l[i:j] for 0 <= i, j (python: empty if j <= i, clipped at the end). *)
Definition slice {A} (i j : nat) (l : list A) : list A :=
  firstn (j - i) (skipn i l).

(** np.split(l, idxs): l[0:i1], l[i1:i2], ..., l[ik:]. *)
Fixpoint split_from {A} (l : list A) (start : nat) (idxs : list nat)
  : list (list A) :=
  match idxs with
  | [] => [skipn start l]
  | j :: r => slice start j l :: split_from l j r
  end.
Definition np_split {A} (l : list A) (idxs : list nat) : list (list A) :=
  split_from l 0 idxs.

(** Position of the first element equal to [v]. *)
Fixpoint index_of (v : Z) (l : list Z) : nat :=
  match l with
  | [] => 0
  | x :: r => if Z.eqb x v then 0 else S (index_of v r)
  end.

(** np.unique on integers: sorted values without repetitions. *)
Fixpoint insert_uniq (v : Z) (l : list Z) : list Z :=
  match l with
  | [] => [v]
  | x :: r => if (v <? x)%Z then v :: l
              else if (v =? x)%Z then l else x :: insert_uniq v r
  end.
Definition np_unique (l : list Z) : list Z := fold_right insert_uniq [] l.
(** np.unique(l, return_index=True)[1]: index of the first occurrence of each
    unique value, in the order of the sorted values. *)
Definition np_unique_index (l : list Z) : list nat :=
  map (fun v => index_of v l) (np_unique l).

(** The idiom
      unique, s = np.unique(arr[key], return_index=True); np.split(arr, s[1:]) *)
Definition split_by_key {A} (key : A -> Z) (l : list A) : list (list A) :=
  np_split l (tl (np_unique_index (map key l))).

(** Stable sort by a boolean "less or equal". *)
Fixpoint sort_insert {A} (leb : A -> A -> bool) (x : A) (l : list A) : list A :=
  match l with
  | [] => [x]
  | y :: r => if leb x y then x :: l else y :: sort_insert leb x r
  end.
Definition isort {A} (leb : A -> A -> bool) (l : list A) : list A :=
  fold_right (sort_insert leb) [] l.

(** Comparison of records by a list of integer fields (numpy sort(order=...)). *)
Fixpoint lexleb {A} (keys : list (A -> Z)) (a b : A) : bool :=
  match keys with
  | [] => true
  | k :: ks => if (k a <? k b)%Z then true
               else if (k a =? k b)%Z then lexleb ks a b else false
  end.

(** np.isin *)
Definition zmem (v : Z) (l : list Z) : bool := existsb (Z.eqb v) l.

(** np.argmin: first position of the minimum. *)
Fixpoint argmin_from (best : nat) (bv : Z) (i : nat) (l : list Z) : nat :=
  match l with
  | [] => best
  | x :: r => if (x <? bv)%Z then argmin_from i x (S i) r
              else argmin_from best bv (S i) r
  end.
Definition argmin (l : list Z) : nat :=
  match l with [] => 0 | x :: r => argmin_from 0 x 1 r end.

(** l[i] = f(l[i]) *)
Fixpoint upd {A} (i : nat) (f : A -> A) (l : list A) : list A :=
  match l, i with
  | [], _ => []
  | x :: r, O => f x :: r
  | x :: r, S i => x :: upd i f r
  end.

(** np.searchsorted(l, x) (side='left') on an ascending array: index of the
    first element >= x.  numpy uses binary search, which returns the same index
    for sorted arrays. *)
Fixpoint searchsorted (l : list Qc) (x : Qc) : nat :=
  match l with
  | [] => 0
  | y :: r => if qltb y x then S (searchsorted r x) else 0
  end.

(** Same on integers (np.searchsorted(cat['TARGETID'], ids)). *)
Fixpoint zsearchsorted (l : list Z) (x : Z) : nat :=
  match l with
  | [] => 0
  | y :: r => if (y <? x)%Z then S (zsearchsorted r x) else 0
  end.

(** np.intersect1d(a, b, return_indices=True): common values in ascending order,
    index of the first occurrence in a and in b. *)
Definition intersect1d (a b : list Z) : list (Z * nat * nat) :=
  map (fun v => (v, index_of v a, index_of v b))
      (filter (fun v => zmem v b) (np_unique a)).

(** np.nonzero(mask)[0] *)
Fixpoint nonzero_from (i : nat) (l : list bool) : list nat :=
  match l with
  | [] => []
  | b :: r => if b then i :: nonzero_from (S i) r else nonzero_from (S i) r
  end.
Definition nonzero (l : list bool) : list nat := nonzero_from 0 l.

(** fancy indexing l[idx]; [None] when an index is out of bounds (IndexError). *)
Fixpoint take_idx {A} (l : list A) (idx : list nat) : option (list A) :=
  match idx with
  | [] => Some []
  | i :: r => match nth_error l i, take_idx l r with
              | Some x, Some xs => Some (x :: xs)
              | _, _ => None
              end
  end.

(** zip of two lists followed by a function (elementwise array operation). *)
Fixpoint map2 {A B C} (f : A -> B -> C) (a : list A) (b : list B) : list C :=
  match a, b with
  | x :: a', y :: b' => f x y :: map2 f a' b'
  | _, _ => []
  end.
Fixpoint map3 {A B C D} (f : A -> B -> C -> D)
  (a : list A) (b : list B) (c : list C) : list D :=
  match a, b, c with
  | x :: a', y :: b', z :: c' => f x y z :: map3 f a' b' c'
  | _, _, _ => []
  end.

(** Number of true elements. *)
Definition count {A} (p : A -> bool) (l : list A) : nat := length (filter p l).

(** np.linspace(a, b, n) for n >= 2: a + i*(b-a)/(n-1). *)
Definition linspace (a b : Qc) (n : nat) : list Qc :=
  map (fun i => a + zq (Z.of_nat i) * ((b - a) / zq (Z.of_nat n - 1)))%Qc
      (seq 0 n).

(** np.bincount(idx, weights=w, minlength=n), restricted to the first n bins:
    sum of the weights whose index is k. *)
Definition bincount (idx : list nat) (w : list Qc) (n : nat) : list Qc :=
  map (fun k => qsum (map snd (filter (fun p => Nat.eqb (fst p) k)
                                      (combine idx w))))
      (seq 0 n).
