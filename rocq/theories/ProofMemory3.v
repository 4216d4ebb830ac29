(** C77: the run, with two contents of np.empty. *)
From Coq Require Import ZArith String List Bool Arith Lia Qcanon.
From Verif Require Import Num NpList NpListFacts Exn Dict Mpi ModelMpiUtils ModelSpectrum ModelDelta ModelIO ModelVarFit ModelFitter ModelPipeline
  SpecMemory ProofSpectrum1 ProofMpi ProofMpi2 ProofFinal ProofMemory ProofMemory2.
Import ListNotations.
Local Open Scope nat_scope.

(** ** Programs that take the same steps *)
Inductive prel {V A} (R : A -> A -> Prop) : prog V A -> prog V A -> Prop :=
| prel_ret a b : R a b -> prel R (Ret a) (Ret b)
| prel_raise e : prel R (Raise e) (Raise e)
| prel_bcast v k k' : (forall x, prel R (k x) (k' x)) -> prel R (Bcast v k) (Bcast v k')
| prel_scatter v k k' : (forall x, prel R (k x) (k' x)) -> prel R (Scatter v k) (Scatter v k')
| prel_allreduce op v k k' : (forall x, prel R (k x) (k' x)) -> prel R (Allreduce op v k) (Allreduce op v k').
Section Prel.
Context {V : Type}.
Lemma prel_refl {A} (R : A -> A -> Prop) (p : prog V A) : (forall a, R a a) -> prel R p p.
Proof. intro H. induction p; constructor; auto. Qed.
Lemma prel_bind {A B} (R : A -> A -> Prop) (S : B -> B -> Prop) (p p' : prog V A) f f' :
  prel R p p' -> (forall a b, R a b -> prel S (f a) (f' b)) -> prel S (pbind p f) (pbind p' f').
Proof. intros H F. induction H; cbn; try constructor; auto. Qed.
Lemma prel_bind2 {A B} (S : B -> B -> Prop) (p : prog V A) f f' : (forall a, prel S (f a) (f' a)) -> prel S (pbind p f) (pbind p f').
Proof. intro F. apply (prel_bind eq); [now apply prel_refl|]. intros a b <-. apply F. Qed.
Lemma prel_res {A} (R : A -> A -> Prop) (x y : res A) : same_res R x y -> prel R (@of_res V A x) (of_res y).
Proof. destruct x, y; cbn; try contradiction; [now constructor|intros ->; constructor]. Qed.
Lemma prel_weaken {A} (R S : A -> A -> Prop) (p q : prog V A) : (forall a b, R a b -> S a b) -> prel R p q -> prel S p q.
Proof. intros H K. induction K; constructor; auto. Qed.

Definition same_heads {A} (p q : prog V A) := aborts p = aborts q.
Lemma prel_mismatch {A} (R : A -> A -> Prop) (l l' : list (prog V A)) : Forall2 (prel R) l l' -> same_outcome R (mismatch l) (mismatch l').
Proof.
  intro H. unfold mismatch. assert (existsb aborts l = existsb aborts l') as ->.
  { induction H as [|x y l l' H F IH]; [reflexivity|]. cbn [existsb]. rewrite IH. now destruct H. }
  now destruct (existsb aborts l').
Qed.
Lemma prel_final {A} (R : A -> A -> Prop) (l l' : list (prog V A)) : Forall2 (prel R) l l' -> same_outcome R (final l) (final l').
Proof.
  intro H. unfold final.
  assert (match all_some (map ending_of l), all_some (map ending_of l') with
    | Some u, Some v => Forall2 (same_ending R) u v | None, None => True | _, _ => False end) as K.
  { refine (all_some_rel ending_of (prel R) (same_ending R) l l' _ H). intros x y E. destruct E; cbn; auto. }
  destruct (all_some (map ending_of l)), (all_some (map ending_of l')); try contradiction; [exact K|].
  now apply prel_mismatch.
Qed.
Lemma run_prel {A} (R : A -> A -> Prop) (p p' : prog V A) : prel R p p' -> forall ps ps', Forall2 (prel R) ps ps' -> same_outcome R (run p ps) (run p' ps').
Proof.
  induction 1 as [a b H|e|v k k' H IH|v k k' H IH|op v k k' H IH]; intros ps ps' F; cbn [run].
  - apply prel_final. constructor; [now constructor|assumption].
  - apply prel_final. constructor; [now constructor|assumption].
  - assert (match all_some (map bcast_k ps), all_some (map bcast_k ps') with
      | Some u, Some w => Forall2 (fun k k' => forall x, prel R (k x) (k' x)) u w | None, None => True | _, _ => False end) as K
      by (refine (all_some_rel bcast_k (prel R) _ ps ps' _ F); intros x y E; now destruct E).
    destruct (all_some (map bcast_k ps)), (all_some (map bcast_k ps')); try contradiction.
    + apply IH. refine (Forall2_maps _ _ _ _ _ _ _ K). auto.
    + apply prel_mismatch. constructor; [now constructor|assumption].
  - destruct v as [[|v0 vs]|]; try exact I.
    assert (match all_some (map scatter_k ps), all_some (map scatter_k ps') with
      | Some u, Some w => Forall2 (fun k k' => forall x, prel R (k x) (k' x)) u w | None, None => True | _, _ => False end) as K
      by (refine (all_some_rel scatter_k (prel R) _ ps ps' _ F); intros x y E; now destruct E).
    destruct (all_some (map scatter_k ps)) as [ks|], (all_some (map scatter_k ps')) as [ks'|]; try contradiction.
    + rewrite (Forall2_len _ _ _ K). destruct (Nat.eqb (length ks') (length vs)); [|exact I].
      apply IH. clear - K. revert vs. induction K as [|x y ks ks' E K IHk]; intro vs; [constructor|].
      destruct vs; [constructor|]. cbn. constructor; [apply E|apply IHk].
    + apply prel_mismatch. constructor; [now constructor|assumption].
  - assert (match all_some (map allreduce_k ps), all_some (map allreduce_k ps') with
      | Some u, Some w => Forall2 (fun a b => fst a = fst b /\ forall x, prel R (snd a x) (snd b x)) u w | None, None => True | _, _ => False end) as K
      by (refine (all_some_rel allreduce_k (prel R) _ ps ps' _ F); intros x y E; now destruct E).
    destruct (all_some (map allreduce_k ps)) as [u|], (all_some (map allreduce_k ps')) as [w|]; try contradiction.
    + assert (map fst u = map fst w) as -> by (clear - K; induction K as [|x y u w [E _] K IHk]; cbn; congruence).
      apply IH. refine (Forall2_maps _ _ _ _ _ _ _ K). intros x y [_ E]. apply E.
    + apply prel_mismatch. constructor; [now constructor|assumption].
Qed.
Lemma spmd_prel {A} (R : A -> A -> Prop) n (p p' : nat -> prog V A) : (forall r, r < n -> prel R (p r) (p' r)) -> same_outcome R (spmd n p) (spmd n p').
Proof.
  intro H. destruct n as [|m]; [constructor|]. unfold spmd. apply run_prel; [apply H; lia|].
  assert (forall r, In r (seq 1 m) -> prel R (p r) (p' r)) as K by (intros r Hr; apply in_seq in Hr; apply H; lia).
  induction (seq 1 m) as [|r l IH]; [constructor|]. cbn. constructor; [apply K; now left|]. apply IH. intros; apply K; now right.
Qed.
End Prel.
Lemma prel_lift {W V A} (inj : W -> V) prj (R : A -> A -> Prop) (p q : prog W A) : prel R p q -> prel R (lift inj prj p) (lift inj prj q).
Proof. intro H. induction H; cbn; constructor; auto. Qed.

(** the arguments: all ranks get those of rank 0 *)
Lemma parse_prel {B} (inj : option runargs -> pval) (prj : pval -> option runargs) n (parse : res runargs) logic (R : B -> B -> Prop) (K K' : nat -> runargs -> prog pval B) :
  (forall x, prj (inj x) = x) -> (forall a r, parse = Ok a -> prel R (K r a) (K' r a)) ->
  same_outcome R (spmd n (fun r => pbind (lift inj prj (mpi_parse r parse logic)) (K r)))
                 (spmd n (fun r => pbind (lift inj prj (mpi_parse r parse logic)) (K' r))).
Proof.
  intros PI H. destruct n as [|m]; [constructor|].
  set (args := match parse with
      | Ok a => match logic a with Ok true => Ok (Some a) | Ok false => Ok None | Err SysExit => Ok None | Err e => Err e end
      | Err SysExit => Ok None | Err e => Err e end).
  assert (forall a, args = Ok (Some a) -> parse = Ok a) as HA.
  { unfold args. intros a E. destruct parse as [b|[| |]]; try discriminate. destruct (logic b) as [[]|[| |]]; try discriminate. congruence. }
  set (k := fun r : option runargs => match r return prog (option runargs) runargs with None => Raise SysExit | Some v => Ret v end).
  assert (forall r, mpi_parse r parse logic = match (if Nat.eqb r 0 then args else Ok None) with Err e => Raise e | Ok a => Bcast a k end) as M by reflexivity.
  destruct args as [o|e] eqn:Ea.
  - assert (forall (C : nat -> runargs -> prog pval B), spmd (S m) (fun r => pbind (lift inj prj (mpi_parse r parse logic)) (C r)) =
              spmd (S m) (fun r => pbind (lift inj prj (k o)) (C r))) as Q.
    { intro C. transitivity (spmd (S m) (fun r => Bcast (inj (if Nat.eqb r 0 then o else None)) (fun x => pbind (lift inj prj (k (prj x))) (C r)))).
      - apply spmd_peq. intros r _. rewrite M. destruct (Nat.eqb r 0); cbn; apply peq_refl.
      - rewrite spmd_bcast by lia. cbn [Nat.eqb]. rewrite PI. reflexivity. }
    rewrite !Q. apply spmd_prel. intros r _. destruct o as [a|]; cbn; [|constructor]. apply H. now apply HA.
  - assert (forall (C : nat -> runargs -> prog pval B), spmd (S m) (fun r => pbind (lift inj prj (mpi_parse r parse logic)) (C r)) =
              match m with 0 => Done [Failed e] | _ => if aborts (@Raise pval B e) then Aborted else Deadlock end) as Q.
    { intro C. unfold spmd. rewrite M. cbn [Nat.eqb lift pbind run]. unfold final.
      assert (forall l, (forall r, In r l -> r <> 0) -> existsb aborts (map (fun r => pbind (lift inj prj (mpi_parse r parse logic)) (C r)) l) = false) as Ab.
      { induction l as [|r l IH]; intro Hl; [reflexivity|]. cbn [map existsb]. rewrite IH by (intros; apply Hl; now right).
        rewrite M. assert (r <> 0) as Hr by (apply Hl; now left). apply Nat.eqb_neq in Hr. rewrite Hr. reflexivity. }
      destruct m as [|m]; [reflexivity|]. cbn [map ending_of all_some seq]. rewrite M. cbn [Nat.eqb lift pbind ending_of all_some option_map].
      unfold mismatch. cbn [existsb aborts orb].
      rewrite (Ab (seq 2 m)) by (intros r Hr; apply in_seq in Hr; lia). now rewrite orb_false_r. }
    rewrite !Q. destruct m; cbn; [constructor; [reflexivity|constructor]|]. now destruct e.
Qed.
