(** Model of the blinding decision of scripts/qsonic_fit.py. *)
From Coq Require Import ZArith String List Bool Arith Qcanon.
From Verif Require Import Num NpList Exn Dict Mpi ModelSpectrum.
Import ListNotations.
Local Open Scope nat_scope.

(** ndarray.max(): ValueError if empty *)
Definition zmax_list (l : list Z) : res Z :=
  match l with [] => Err (OtherExn "ValueError") | x :: r => Ok (fold_left Z.max r x) end.
(** scripts/qsonic_fit.py 472: np.max([_['LASTNIGHT'].max() for _ in local_queue]) *)
Definition local_lastnight (queue : list (list Z)) : res Z :=
  rbind (rseq (map zmax_list queue)) zmax_list.
(** scripts/qsonic_fit.py 468-474.  Each rank starts with class state st. *)
Definition blinding_prog (mock skip_resomat : bool) (forest_w1 : Qc) (queues : list (list (list Z)))
  (st : statics) (rank : nat) : prog Z statics :=
  if mock then of_res (set_blinding None mock forest_w1 skip_resomat st)
  else pbind (of_res (local_lastnight (nth rank queues []))) (fun m =>
       Allreduce Z.max m (fun r => of_res (set_blinding (Some r) mock forest_w1 skip_resomat st))).
(** a history of set_blinding calls in one process: (maxlastnight, mock, forest_w1, skip_resomat) *)
Record bcall := mkCall { b_last : option Z; b_mock : bool; b_fw1 : Qc; b_skip : bool }.
Definition blind_call (c : bcall) (st : statics) : res statics := set_blinding (b_last c) (b_mock c) (b_fw1 c) (b_skip c) st.
Definition blind_history (calls : list bcall) (st : statics) : res statics := for_each calls blind_call st.
