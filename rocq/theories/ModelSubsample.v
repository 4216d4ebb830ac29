(** Model of SubsampleCov and block_covariance_of_square
    (py/qsonic/mathtools.py).

    numpy arrays of a fixed shape are functions of their indices; only indices
    inside the shape are meaningful.  Shape mismatches of the arguments (numpy
    ValueError) are not modelled. *)
From Coq Require Import String ZArith List Bool Arith Qcanon.
From Verif Require Import Num Exn Mpi.
Import ListNotations.
Local Open Scope nat_scope.

(** sum over the axis of length n *)
Definition sumn (n : nat) (f : nat -> Qc) : Qc := qsum (map f (seq 0 n)).
Definition qnat (n : nat) : Qc := zq (Z.of_nat n).

(** np.finfo(float).eps = 2^-52 *)
Definition eps : Qc := fq 1 4503599627370496.

(** shape (nsamples, nset, ndata); the weights have shape (nsamples, 1, ndata) *)
Definition arr3 := nat -> nat -> nat -> Qc.
Definition arr2 := nat -> nat -> Qc.

(** element of the list self.covariance *)
Inductive covar :=
| FullCov (c : arr2)
| BlockCov (nblock blockdim : nat) (c : arr3).

(** mathtools.py:492-513 attributes *)
Record sub := mksub {
  nsamples : nat; nset : nat; ndata : nat;
  istart : nat; isample : nat;
  meas : arr3; wts : arr2;
  normalized : bool;
  s_mean : option arr2;
  s_cov : option (list (option covar));
  s_var : option arr2;
  s_xdiff : option arr3 }.

(** mathtools.py:492-513 __init__ with ndata=(nset, ndata); ndata=int is
    nset = 1.  (nsamples = 0 raises ZeroDivisionError, not modelled; a negative
    istart is not used by qsonic.) *)
Definition sub_init (nset ndata nsamples istart : nat) : sub :=
  mksub nsamples nset ndata (istart mod nsamples) (istart mod nsamples)
        (fun _ _ _ => 0%Qc) (fun _ _ => 0%Qc) false None None None None.

(** mathtools.py:515-544 add_measurement *)
Definition add_measurement (xvec : arr2) (wvec : nat -> Qc) (s : sub) : sub * res unit :=
  if normalized s
  then (s, Err (OtherExn "RuntimeError"))
  else
    (mksub (nsamples s) (nset s) (ndata s) (istart s)
       (Nat.modulo (isample s + 1) (nsamples s))
       (fun i j k => if Nat.eqb i (isample s) then (meas s i j k + xvec j k)%Qc else meas s i j k)
       (fun i k => if Nat.eqb i (isample s) then (wts s i k + wvec k)%Qc else wts s i k)
       (normalized s) (s_mean s) (s_cov s) (s_var s) (s_xdiff s), Ok tt).

(** mathtools.py:564-572 _normalize.  np.divide(..., where=) leaves the
    elements with zero divisor unchanged (out is the array itself). *)
Definition normalize (s : sub) : sub :=
  let norm k := sumn (nsamples s) (fun i => wts s i k) in
  mksub (nsamples s) (nset s) (ndata s) (istart s) (isample s)
    (fun i j k => if qeqb (wts s i k) 0 then meas s i j k else (meas s i j k / wts s i k)%Qc)
    (fun i k => if qeqb (norm k) 0 then wts s i k else (wts s i k / norm k)%Qc)
    true (s_mean s) (s_cov s) (s_var s) (s_xdiff s).

Definition set_mean (m : arr2) (s : sub) : sub :=
  mksub (nsamples s) (nset s) (ndata s) (istart s) (isample s) (meas s) (wts s)
        (normalized s) (Some m) (s_cov s) (s_var s) (s_xdiff s).
Definition set_mean_xdiff (m : arr2) (x : arr3) (s : sub) : sub :=
  mksub (nsamples s) (nset s) (ndata s) (istart s) (isample s) (meas s) (wts s)
        (normalized s) (Some m) (s_cov s) (s_var s) (Some x).
Definition set_cov (c : list (option covar)) (s : sub) : sub :=
  mksub (nsamples s) (nset s) (ndata s) (istart s) (isample s) (meas s) (wts s)
        (normalized s) (s_mean s) (Some c) (s_var s) (s_xdiff s).
Definition set_var (v : arr2) (s : sub) : sub :=
  mksub (nsamples s) (nset s) (ndata s) (istart s) (isample s) (meas s) (wts s)
        (normalized s) (s_mean s) (s_cov s) (Some v) (s_xdiff s).

(** mathtools.py:574-593 get_mean *)
Definition get_mean (s : sub) : sub * arr2 :=
  let s := if normalized s then s else normalize s in
  let m : arr2 := fun j k => sumn (nsamples s) (fun i => (meas s i j k * wts s i k)%Qc) in
  (set_mean m s, m).

(** mathtools.py:595-608 _get_xdiff *)
Definition get_xdiff (s : sub) (mean_xvec : arr2) (bias_correct : bool) : arr2 * arr3 :=
  let jack_i : arr3 := fun i j k =>
    ((mean_xvec j k - meas s i j k * wts s i k) / (1 - wts s i k + eps))%Qc in
  let mean_jack : arr2 := fun j k =>
    (sumn (nsamples s) (fun i => jack_i i j k) / qnat (nsamples s))%Qc in
  let mean_xvec' : arr2 :=
    if bias_correct
    then fun j k => (mean_xvec j k - (qnat (nsamples s) - 1) * (mean_jack j k - mean_xvec j k))%Qc
    else mean_xvec in
  (mean_xvec', fun i j k => (jack_i i j k - mean_jack j k)%Qc).

(** mathtools.py:645-647, 686-688: first call after normalisation *)
Definition ensure_mean (bias_correct : bool) (s : sub) : sub :=
  match s_mean s with
  | Some _ => s
  | None =>
      let '(s, m) := get_mean s in
      let '(m', x) := get_xdiff s m bias_correct in
      set_mean_xdiff m' x s
  end.

(** (x.T @ x) * (nsamples - 1) / nsamples *)
Definition jack_cov (n : nat) (x : arr2) : arr2 :=
  fun a b => (sumn n (fun i => x i a * x i b) * (qnat n - 1) / qnat n)%Qc.

(** mathtools.py:610-617 _get_block_covariance *)
Definition get_block_covariance (s : sub) (x : arr2) (blockdim : nat) : covar :=
  BlockCov (ndata s / blockdim) blockdim
    (fun kk a b => jack_cov (nsamples s) (fun i a => x i (kk * blockdim + a)) a b).

Fixpoint list_set {A} (l : list A) (i : nat) (x : A) : list A :=
  match l, i with
  | [], _ => []
  | _ :: r, O => x :: r
  | y :: r, S i => y :: list_set r i x
  end.

(** mathtools.py:656-663: loop over the requested data sets *)
Fixpoint cov_loop (blockdim : option nat) (indices : list nat) (s : sub)
  (acc : list (option covar)) : sub * res unit :=
  match indices with
  | [] => (set_cov acc s, Ok tt)
  | jj :: rest =>
      match s_xdiff s with
      | None => (set_cov acc s, Err (OtherExn "TypeError: 'NoneType' object is not subscriptable"))
      | Some xd =>
          if negb (Nat.ltb jj (nset s)) then (set_cov acc s, Err (OtherExn "IndexError"))
          else
            let x : arr2 := fun i k => xd i jj k in
            let c := match blockdim with
                     | None => FullCov (jack_cov (nsamples s) x)
                     | Some b => get_block_covariance s x b
                     end in
            cov_loop blockdim rest s (list_set acc jj (Some c))
      end
  end.

(** mathtools.py:619-665 get_mean_n_cov (indices >= 0). *)
Definition get_mean_n_cov (indices : option (list nat)) (blockdim : option nat)
  (bias_correct : bool) (s : sub) : sub * res (arr2 * list (option covar)) :=
  let s := ensure_mean bias_correct s in
  let indices := match indices with None => seq 0 (nset s) | Some l => l end in
  let bad_block := match blockdim with
                   | None => false
                   | Some b => Nat.eqb b 0 || negb (Nat.eqb (ndata s mod b) 0)
                   end in
  if bad_block then (s, Err (OtherExn "AssertionError"))
  else
    let '(s, r) := cov_loop blockdim indices s (repeat None (nset s)) in
    match r with
    | Err e => (s, Err e)
    | Ok _ => match s_mean s, s_cov s with
              | Some m, Some c => (s, Ok (m, c))
              | _, _ => (s, Err (OtherExn "unreachable"))
              end
    end.

(** mathtools.py:667-695 get_mean_n_var *)
Definition get_mean_n_var (bias_correct : bool) (s : sub) : sub * res (arr2 * arr2) :=
  let s := ensure_mean bias_correct s in
  match s_xdiff s with
  | None => (s, Err (OtherExn "TypeError"))
  | Some xd =>
      let v : arr2 := fun j k =>
        (sumn (nsamples s) (fun i => xd i j k * xd i j k) * (qnat (nsamples s) - 1)
         / qnat (nsamples s))%Qc in
      let s := set_var v s in
      match s_mean s with
      | Some m => (s, Ok (m, v))
      | None => (s, Err (OtherExn "unreachable"))
      end
  end.

(** mathtools.py:697-707 reset *)
Definition sub_reset (s : sub) : sub :=
  mksub (nsamples s) (nset s) (ndata s) (istart s) (istart s)
        (fun _ _ _ => 0%Qc) (fun _ _ => 0%Qc) false None None None None.

(** mathtools.py:546-562 allreduce: two Allreduce(IN_PLACE) with MPI.SUM.  The
    data exchanged are arrays. *)
Definition arr_add (a b : arr3) : arr3 := fun i j k => (a i j k + b i j k)%Qc.
Definition set_data (m : arr3) (w : arr2) (s : sub) : sub :=
  mksub (nsamples s) (nset s) (ndata s) (istart s) (isample s) m w
        (normalized s) (s_mean s) (s_cov s) (s_var s) (s_xdiff s).
Definition sub_allreduce {A} (s : sub) (k : sub -> prog arr3 A) : prog arr3 A :=
  Allreduce arr_add (meas s) (fun m =>
  Allreduce arr_add (fun i _ k => wts s i k) (fun w =>
  k (set_data m (fun i k => w i 0 k) s))).

(** The public operations and histories of calls. *)
Inductive sub_op :=
| OpAdd (xvec : arr2) (wvec : nat -> Qc)
| OpMean
| OpCov (indices : option (list nat)) (blockdim : option nat) (bias_correct : bool)
| OpVar (bias_correct : bool)
| OpReset.
(** A call changes the object even when it raises. *)
Definition sub_call (s : sub) (op : sub_op) : sub :=
  match op with
  | OpAdd x w => fst (add_measurement x w s)
  | OpMean => fst (get_mean s)
  | OpCov i b c => fst (get_mean_n_cov i b c s)
  | OpVar c => fst (get_mean_n_var c s)
  | OpReset => sub_reset s
  end.
Definition sub_calls (s : sub) (ops : list sub_op) : sub := fold_left sub_call ops s.

(** mathtools.py:173-215 block_covariance_of_square: element (a, b) of block jj,
    for arrays mean, var of length nblock * n and cov of shape (nblock, n, n). *)
Definition block_covariance_of_square (n : nat) (mean var : nat -> Qc) (cov : arr3) : arr3 :=
  fun jj a b =>
    let v i := var (jj * n + i) in
    let m i := mean (jj * n + i) in
    let c1 i j := (v i * (m j * m j))%Qc in
    (v a * v b + cov jj a b * cov jj a b + zq 2 * cov jj a b * (m a * m b) + (c1 a b + c1 b a))%Qc.
