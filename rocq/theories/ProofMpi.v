(** General lemmas about the SPMD semantics. *)
From Coq Require Import String List Bool Arith Lia.
From Verif Require Import Exn Mpi ProofCatalog.
Import ListNotations.
Local Open Scope nat_scope.

Lemma spmd_ret {V A} n (f : nat -> A) :
  spmd n (fun r => @Ret V A (f r)) = Done (map (fun r => Finished (f r)) (seq 0 n)).
Proof.
  destruct n as [|m]; [easy|]. unfold spmd. rewrite <- (map_map f (@Ret V A)). rewrite run_ret.
  cbn. now rewrite map_map.
Qed.
Lemma spmd_raise {V A} n e :
  1 <= n -> spmd n (fun r => @Raise V A e) = Done (repeat (Failed e) n).
Proof.
  intro H. destruct n as [|m]; [lia|]. unfold spmd.
  rewrite (map_seq_const _ (Raise e)) by easy. now rewrite run_raise.
Qed.
Lemma spmd_bcast {V A} n (v : nat -> V) (k : nat -> V -> prog V A) :
  1 <= n -> spmd n (fun r => Bcast (v r) (k r)) = spmd n (fun r => k r (v 0)).
Proof.
  intro H. destruct n as [|m]; [lia|]. unfold spmd. cbn [run].
  rewrite map_map. cbn [bcast_k]. rewrite (all_some_map _ k) by easy.
  now rewrite map_map.
Qed.
Lemma spmd_allreduce {V A} n op (v : nat -> V) (k : nat -> V -> prog V A) :
  1 <= n -> spmd n (fun r => Allreduce op (v r) (k r))
  = spmd n (fun r => k r (fold_left op (map v (seq 1 (n - 1))) (v 0))).
Proof.
  intro H. destruct n as [|m]; [lia|]. unfold spmd. cbn [run].
  rewrite map_map. cbn [allreduce_k]. rewrite (all_some_map _ (fun r => (v r, k r))) by easy.
  rewrite !map_map. cbn [fst snd]. replace (S m - 1) with m by lia. reflexivity.
Qed.
Lemma run_ext {V A} (p q : prog V A) ps qs : p = q -> ps = qs -> run p ps = run q qs.
Proof. now intros -> ->. Qed.
Lemma spmd_ext {V A} n (p q : nat -> prog V A) :
  (forall r, r < n -> p r = q r) -> spmd n p = spmd n q.
Proof.
  intro H. destruct n as [|m]; [easy|]. unfold spmd. rewrite (H 0) by lia. f_equal.
  apply map_ext_in. intros r Hr. apply in_seq in Hr. apply H. lia.
Qed.
