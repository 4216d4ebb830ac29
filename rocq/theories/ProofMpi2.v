(** Equality of rank programs up to their continuations. *)
From Coq Require Import String List Bool Arith Lia.
From Verif Require Import Exn Mpi ProofMpi.
Import ListNotations.

Section Peq.
Context {V : Type}.
Inductive peq {A} : prog V A -> prog V A -> Prop :=
| peq_ret a : peq (Ret a) (Ret a)
| peq_raise e : peq (Raise e) (Raise e)
| peq_bcast v k k' : (forall x, peq (k x) (k' x)) -> peq (Bcast v k) (Bcast v k')
| peq_scatter v k k' : (forall x, peq (k x) (k' x)) -> peq (Scatter v k) (Scatter v k')
| peq_allreduce op v k k' : (forall x, peq (k x) (k' x)) -> peq (Allreduce op v k) (Allreduce op v k').

Lemma peq_refl {A} (p : prog V A) : peq p p.
Proof. induction p; now constructor. Qed.
Lemma pbind_ret {A} (p : prog V A) : peq (pbind p (@Ret V A)) p.
Proof. induction p; now constructor. Qed.
Lemma pbind_assoc {A B C} (p : prog V A) (f : A -> prog V B) (g : B -> prog V C) :
  peq (pbind (pbind p f) g) (pbind p (fun a => pbind (f a) g)).
Proof. induction p; cbn [pbind]; [apply peq_refl|constructor..]; assumption. Qed.

Lemma all_some_rel {A B} (f : A -> option B) (R : A -> A -> Prop) (S : B -> B -> Prop) l l' :
  (forall x y, R x y -> match f x, f y with Some u, Some v => S u v | None, None => True | _, _ => False end) ->
  Forall2 R l l' ->
  match all_some (map f l), all_some (map f l') with
  | Some u, Some v => Forall2 S u v | None, None => True | _, _ => False end.
Proof.
  intros H F. induction F as [|x y l l' Hxy F IH]; [constructor|]. cbn [map all_some]. specialize (H x y Hxy).
  destruct (f x), (f y); try easy. destruct (all_some (map f l)), (all_some (map f l')); try easy. now constructor.
Qed.
Lemma Forall2_eq {A} (l l' : list A) : Forall2 eq l l' -> l = l'.
Proof. induction 1; congruence. Qed.
Lemma peq_aborts {A} (l l' : list (prog V A)) : Forall2 peq l l' -> existsb aborts l = existsb aborts l'.
Proof. induction 1 as [|x y l l' H F IH]; [easy|]. cbn [existsb]. rewrite IH. now destruct H. Qed.
Lemma peq_mismatch {A} (l l' : list (prog V A)) : Forall2 peq l l' -> mismatch l = mismatch l'.
Proof. intro H. unfold mismatch. now rewrite (peq_aborts _ _ H). Qed.
Lemma peq_final {A} (l l' : list (prog V A)) : Forall2 peq l l' -> final l = final l'.
Proof.
  intro H. unfold final.
  assert (match all_some (map ending_of l), all_some (map ending_of l') with
    | Some u, Some v => Forall2 eq u v | None, None => True | _, _ => False end) as K
    by (refine (all_some_rel ending_of peq eq l l' _ H); intros x y E; now destruct E).
  destruct (all_some (map ending_of l)), (all_some (map ending_of l')); try easy.
  - now rewrite (Forall2_eq _ _ K).
  - now apply peq_mismatch.
Qed.
Lemma Forall2_maps {A B C D} (R : A -> B -> Prop) (S : C -> D -> Prop) f g l l' :
  (forall x y, R x y -> S (f x) (g y)) -> Forall2 R l l' -> Forall2 S (map f l) (map g l').
Proof. intros H F. induction F; cbn; constructor; auto. Qed.
Lemma Forall2_len {A B} (R : A -> B -> Prop) l l' : Forall2 R l l' -> length l = length l'.
Proof. induction 1; cbn; congruence. Qed.

Lemma run_peq {A} (p p' : prog V A) : peq p p' -> forall ps ps', Forall2 peq ps ps' -> run p ps = run p' ps'.
Proof.
  induction 1 as [a|e|v k k' H IH|v k k' H IH|op v k k' H IH]; intros ps ps' F; cbn [run].
  - apply peq_final. now constructor; [constructor|].
  - apply peq_final. now constructor; [constructor|].
  - assert (match all_some (map bcast_k ps), all_some (map bcast_k ps') with
      | Some u, Some w => Forall2 (fun k k' => forall x, peq (k x) (k' x)) u w | None, None => True | _, _ => False end) as K
      by (refine (all_some_rel bcast_k peq _ ps ps' _ F); intros x y E; now destruct E).
    destruct (all_some (map bcast_k ps)), (all_some (map bcast_k ps')); try easy.
    + apply IH. refine (Forall2_maps _ _ _ _ _ _ _ K). auto.
    + apply peq_mismatch. constructor; [now constructor|assumption].
  - destruct v as [[|v0 vs]|]; try reflexivity.
    assert (match all_some (map scatter_k ps), all_some (map scatter_k ps') with
      | Some u, Some w => Forall2 (fun k k' => forall x, peq (k x) (k' x)) u w | None, None => True | _, _ => False end) as K
      by (refine (all_some_rel scatter_k peq _ ps ps' _ F); intros x y E; now destruct E).
    destruct (all_some (map scatter_k ps)) as [ks|], (all_some (map scatter_k ps')) as [ks'|]; try easy.
    + rewrite (Forall2_len _ _ _ K). destruct (Nat.eqb (length ks') (length vs)); [|reflexivity].
      apply IH. clear - K. revert vs. induction K as [|x y ks ks' E K IHk]; intro vs; [constructor|].
      destruct vs; [constructor|]. cbn. constructor; [apply E|apply IHk].
    + apply peq_mismatch. constructor; [now constructor|assumption].
  - assert (match all_some (map allreduce_k ps), all_some (map allreduce_k ps') with
      | Some u, Some w => Forall2 (fun a b => fst a = fst b /\ forall x, peq (snd a x) (snd b x)) u w | None, None => True | _, _ => False end) as K
      by (refine (all_some_rel allreduce_k peq _ ps ps' _ F); intros x y E; now destruct E).
    destruct (all_some (map allreduce_k ps)) as [u|], (all_some (map allreduce_k ps')) as [w|]; try easy.
    + assert (map fst u = map fst w) as -> by (clear - K; induction K as [|x y u w [E _] K IHk]; cbn; congruence).
      apply IH. refine (Forall2_maps _ _ _ _ _ _ _ K). intros x y [_ E]. apply E.
    + apply peq_mismatch. constructor; [now constructor|assumption].
Qed.
Lemma spmd_peq {A} n (p p' : nat -> prog V A) : (forall r, r < n -> peq (p r) (p' r)) -> spmd n p = spmd n p'.
Proof.
  intro H. destruct n as [|m]; [easy|]. unfold spmd. apply run_peq; [apply H; lia|].
  assert (forall r, In r (seq 1 m) -> peq (p r) (p' r)) as K by (intros r Hr; apply in_seq in Hr; apply H; lia).
  induction (seq 1 m) as [|r l IH]; [constructor|]. cbn. constructor; [apply K; now left|]. apply IH. intros; apply K; now right.
Qed.
End Peq.
