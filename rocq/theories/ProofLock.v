(** A program logic for [together]. *)
From Coq Require Import String List Bool Arith Lia.
From Verif Require Import Exn Mpi NpList SpecMpi ProofCatalog ProofMpi ProofMpi2 ModelVarFit.
Import ListNotations.
Local Open Scope nat_scope.

Definition abortlike {A} (o : outcome A) : Prop := o = Aborted \/ exists l m, o = Done l /\ In (Failed (OtherExn m)) l.
Section Bind.
Context {V A B : Type}.
Lemma aborts_spec {C} (p : prog V C) : aborts p = true -> exists m, p = Raise (OtherExn m).
Proof. destruct p as [|e| | |]; try discriminate. destruct e; try discriminate. eauto. Qed.
Lemma existsb_aborts {C} (ps : list (prog V C)) : existsb aborts ps = true -> exists m, In (Raise (OtherExn m)) ps.
Proof. intro H. apply existsb_exists in H as (p & Hin & Hp). apply aborts_spec in Hp as (m & ->). eauto. Qed.
Lemma all_some_None {C D} (f : C -> option D) l x : In x l -> f x = None -> all_some (map f l) = None.
Proof.
  intros Hin Hx. induction l as [|y l IH]; [destruct Hin|]. cbn. destruct Hin as [->|Hin]; [now rewrite Hx|].
  destruct (f y); [|reflexivity]. now rewrite (IH Hin).
Qed.
Lemma all_some_In {C D} (f : C -> option D) l x y k : In x l -> f x = Some y -> all_some (map f l) = Some k -> In y k.
Proof.
  revert k. induction l as [|z l IH]; intros k Hin Hx H; [destruct Hin|]. cbn in H. destruct Hin as [->|Hin].
  - rewrite Hx in H. destruct (all_some (map f l)); [|discriminate]. injection H as <-. now left.
  - destruct (f z); [|discriminate]. destruct (all_some (map f l)) as [k'|] eqn:E; [|discriminate]. injection H as <-.
    right. now apply (IH k').
Qed.
Lemma mismatch_abort {C} (ps : list (prog V C)) m : In (Raise (OtherExn m)) ps -> mismatch ps = Aborted.
Proof.
  intro H. unfold mismatch. assert (existsb aborts ps = true) as ->; [|reflexivity]. apply existsb_exists.
  eexists. split; [exact H|]. reflexivity.
Qed.
Lemma run_abort {C} (p0 : prog V C) ps m : In (Raise (OtherExn m)) (p0 :: ps) -> abortlike (run p0 ps).
Proof.
  intro H.
  assert (forall (q : prog V C), p0 = q -> ending_of q <> None -> abortlike (final (q :: ps))) as F.
  { intros q -> _. unfold final. destruct (all_some (map ending_of (q :: ps))) as [l|] eqn:E.
    - right. exists l, m. split; [reflexivity|]. exact (all_some_In ending_of _ _ _ _ H eq_refl E).
    - left. now apply mismatch_abort with m. }
  destruct p0 as [a|e|v k|v k|op v k]; cbn [run].
  - now apply F.
  - now apply F.
  - destruct H as [H|H]; [discriminate|]. rewrite (all_some_None bcast_k ps _ H eq_refl). left. apply mismatch_abort with m. now right.
  - destruct H as [H|H]; [discriminate|]. destruct v as [[|v0 vs]|]; [now left| |now left].
    rewrite (all_some_None scatter_k ps _ H eq_refl). left. apply mismatch_abort with m. now right.
  - destruct H as [H|H]; [discriminate|]. rewrite (all_some_None allreduce_k ps _ H eq_refl). left. apply mismatch_abort with m. now right.
Qed.

Notation binds := (map2 (@pbind V A B)).
Lemma binds_raise ps (fs : list (A -> prog V B)) e : length fs = length ps -> In (Raise e) ps -> In (Raise e) (binds ps fs).
Proof.
  revert fs. induction ps as [|p ps IH]; intros [|f fs] L H; try discriminate; [destruct H|]. cbn. destruct H as [->|H]; [now left|].
  right. apply IH; [now injection L|assumption].
Qed.
Definition related (o : outcome A) (o' : outcome B) (f0 : A -> prog V B) (fs : list (A -> prog V B)) : Prop :=
  match o with
  | Deadlock => True
  | Aborted => abortlike o'
  | Done l =>
      length l = S (length fs) /\
      ((exists m, In (Failed (OtherExn m)) l) -> abortlike o') /\
      (forall e, (forall m, e <> OtherExn m) -> l = repeat (Failed e) (S (length fs)) -> o' = Done (repeat (Failed e) (S (length fs)))) /\
      (forall v0 vs, l = map (@Finished A) (v0 :: vs) -> o' = run (f0 v0) (map2 (fun f v => f v) fs vs))
  end.
Lemma all_some_length {C} (l : list (option C)) k : all_some l = Some k -> length k = length l.
Proof.
  revert k. induction l as [|[x|] l IH]; intros k H; cbn in H; [now injection H as <-| |discriminate].
  destruct (all_some l) as [k'|]; [|discriminate]. injection H as <-. cbn. f_equal. now apply IH.
Qed.
Lemma ending_raise l ps m : all_some (map ending_of ps) = Some l -> In (Failed (OtherExn m)) l -> In (@Raise V A (OtherExn m)) ps.
Proof.
  revert l. induction ps as [|p ps IH]; intros l H Hin; cbn in H; [injection H as <-; destruct Hin|].
  destruct (ending_of p) as [x|] eqn:E; [|discriminate]. destruct (all_some (map ending_of ps)) as [l'|] eqn:E'; [|discriminate].
  injection H as <-. destruct Hin as [->|Hin]; [|right; now apply (IH l')].
  left. destruct p; try discriminate. now injection E as ->.
Qed.
Lemma ending_all_raise e ps n : all_some (map ending_of ps) = Some (repeat (Failed e) n) -> ps = repeat (@Raise V A e) n.
Proof.
  revert n. induction ps as [|p ps IH]; intros n H; cbn in H.
  - destruct n; [reflexivity|discriminate].
  - destruct (ending_of p) as [x|] eqn:E; [|discriminate]. destruct (all_some (map ending_of ps)) as [l'|] eqn:E'; [|discriminate].
    destruct n as [|n]; [discriminate|]. cbn in H. injection H as -> ->. cbn. rewrite (IH n eq_refl).
    destruct p; try discriminate. now injection E as ->.
Qed.
Lemma ending_all_ret vs ps : all_some (map ending_of ps) = Some (map (@Finished A) vs) -> ps = map (@Ret V A) vs.
Proof.
  revert vs. induction ps as [|p ps IH]; intros vs H; cbn in H.
  - destruct vs; [reflexivity|discriminate].
  - destruct (ending_of p) as [x|] eqn:E; [|discriminate]. destruct (all_some (map ending_of ps)) as [l'|] eqn:E'; [|discriminate].
    destruct vs as [|v vs]; [discriminate|]. cbn in H. injection H as -> ->. cbn. rewrite (IH vs eq_refl).
    destruct p; try discriminate. now injection E as ->.
Qed.
Lemma binds_repeat e n (fs : list (A -> prog V B)) : length fs = n -> binds (repeat (Raise e) n) fs = repeat (Raise e) n.
Proof. revert fs. induction n as [|n IH]; intros [|f fs] L; try discriminate; [reflexivity|]. cbn. f_equal. apply IH. now injection L. Qed.
Lemma binds_ret vs (fs : list (A -> prog V B)) : binds (map (@Ret V A) vs) fs = map2 (fun f v => f v) fs vs.
Proof. revert fs. induction vs as [|v vs IH]; intros [|f fs]; try reflexivity. cbn. f_equal. apply IH. Qed.
Lemma final_all_raise {C} (e : exn) n : (forall m, e <> OtherExn m) -> final (repeat (@Raise V C e) n) = Done (repeat (Failed e) n).
Proof.
  intro H. unfold final. assert (all_some (map ending_of (repeat (@Raise V C e) n)) = Some (repeat (Failed e) n)) as ->; [|reflexivity].
  induction n; [reflexivity|]. cbn. now rewrite IHn.
Qed.
Lemma all_some_binds {K} (kk : forall C, prog V C -> option (K -> prog V C)) ks ps (fs : list (A -> prog V B)) :
  (forall (p : prog V A) (f : A -> prog V B) k, kk A p = Some k -> kk B (pbind p f) = Some (fun x => pbind (k x) f)) ->
  length fs = length ps -> all_some (map (kk A) ps) = Some ks ->
  all_some (map (kk B) (binds ps fs)) = Some (map2 (fun k f => fun x => pbind (k x) f) ks fs).
Proof.
  intros Hk. revert ks fs. induction ps as [|p ps IH]; intros ks [|f fs] L H; try discriminate; cbn in *; [injection H as <-; reflexivity|].
  destruct (kk A p) as [k|] eqn:E; [|discriminate]. rewrite (Hk p f k E). destruct (all_some (map (kk A) ps)) as [ks'|]; [|discriminate].
  injection H as <-. rewrite (IH ks' fs); [reflexivity|now injection L|reflexivity].
Qed.
Lemma all_some_binds_ar ks ps (fs : list (A -> prog V B)) :
  length fs = length ps -> all_some (map allreduce_k ps) = Some ks ->
  all_some (map allreduce_k (binds ps fs)) = Some (map2 (fun (vk : V * (V -> prog V A)) f => (fst vk, fun x => pbind (snd vk x) f)) ks fs).
Proof.
  revert ks fs. induction ps as [|p ps IH]; intros ks [|f fs] L H; try discriminate; cbn in *; [injection H as <-; reflexivity|].
  destruct p as [| | | |op v k]; try discriminate. cbn in *. destruct (all_some (map allreduce_k ps)) as [ks'|]; [|discriminate].
  injection H as <-. rewrite (IH ks' fs); [reflexivity|now injection L|reflexivity].
Qed.
Lemma related_abort o' f0 fs : abortlike o' -> related Aborted o' f0 fs.
Proof. easy. Qed.
Lemma related_mismatch (p0 : prog V A) ps f0 fs : length fs = length ps ->
  related (mismatch (p0 :: ps)) (run (pbind p0 f0) (binds ps fs)) f0 fs.
Proof.
  intro L. unfold mismatch. destruct (existsb aborts (p0 :: ps)) eqn:E; [|exact I].
  apply existsb_aborts in E as (m & Hin). cbn [related]. apply run_abort with m.
  destruct Hin as [->|Hin]; [left; reflexivity|right; now apply binds_raise].
Qed.
Lemma related_final (p0 : prog V A) ps f0 fs : length fs = length ps ->
  related (final (p0 :: ps)) (run (pbind p0 f0) (binds ps fs)) f0 fs.
Proof.
  intro L. unfold final. destruct (all_some (map ending_of (p0 :: ps))) as [l|] eqn:E; [|now apply related_mismatch].
  cbn [related]. split; [|split; [|split]].
  - apply all_some_length in E. rewrite map_length in E. cbn in E. congruence.
  - intros (m & Hin). apply (ending_raise _ _ _ E) in Hin. apply run_abort with m.
    destruct Hin as [->|Hin]; [left; reflexivity|right; now apply binds_raise].
  - intros e He El. subst l. apply ending_all_raise in E. cbn [repeat] in E. injection E as -> ->. cbn [pbind].
    rewrite binds_repeat by reflexivity. cbn [run]. exact (final_all_raise e (S (length fs)) He).
  - intros v0 vs El. subst l. apply ending_all_ret in E. cbn [map] in E. injection E as -> ->. cbn [pbind].
    now rewrite binds_ret.
Qed.
Lemma map2_maps {C D E F} (h : D -> E -> F) (u : C -> D) l m : map2 h (map u l) m = map2 (fun x y => h (u x) y) l m.
Proof. revert m. induction l; intros [|y m]; cbn; try reflexivity. f_equal. apply IHl. Qed.
Lemma map_map2 {C D E F} (h : E -> F) (u : C -> D -> E) l m : map h (map2 u l m) = map2 (fun x y => h (u x y)) l m.
Proof. revert m. induction l; intros [|y m]; cbn; try reflexivity. f_equal. apply IHl. Qed.
Lemma map2_length {C D E} (h : C -> D -> E) l m : length l = length m -> length (map2 h l m) = length m.
Proof. revert m. induction l; intros [|y m] L; try discriminate; [reflexivity|]. cbn. f_equal. apply IHl. now injection L. Qed.

Lemma run_bind (p0 : prog V A) : forall ps f0 (fs : list (A -> prog V B)), length fs = length ps ->
  related (run p0 ps) (run (pbind p0 f0) (binds ps fs)) f0 fs.
Proof.
  induction p0 as [a|e|v k IH|v k IH|op v k IH]; intros ps f0 fs L.
  - cbn [run]. now apply related_final.
  - cbn [run]. now apply related_final.
  - cbn [run]. destruct (all_some (map bcast_k ps)) as [ks|] eqn:E; [|now apply related_mismatch].
    cbn [pbind run]. rewrite (all_some_binds (fun C => @bcast_k V C) ks ps fs) by
      (try assumption; intros p f k' Hk; destruct p; try discriminate; now injection Hk as <-).
    rewrite map_map2. rewrite <- (map2_maps (fun p f => pbind p f) (fun k' => k' v)).
    apply IH. apply all_some_length in E. rewrite map_length in *. congruence.
  - cbn [run]. destruct v as [[|v0 vs]|]; [now left| |now left].
    destruct (all_some (map scatter_k ps)) as [ks|] eqn:E; [|now apply related_mismatch].
    cbn [pbind run]. rewrite (all_some_binds (fun C => @scatter_k V C) ks ps fs) by
      (try assumption; intros p f k' Hk; destruct p; try discriminate; now injection Hk as <-).
    apply all_some_length in E. rewrite map_length in E.
    rewrite map2_length by congruence. replace (length fs) with (length ks) by congruence.
    destruct (Nat.eqb_spec (length ks) (length vs)) as [Ev|]; [|now left].
    assert (map (fun kv => fst kv (snd kv)) (combine (map2 (fun (k : V -> prog V A) f => fun x => pbind (k x) f) ks fs) vs)
            = binds (map (fun kv => fst kv (snd kv)) (combine ks vs)) fs) as ->.
    { clear - Ev. revert vs fs Ev. induction ks as [|k ks IHk]; intros [|w vs] [|f fs] Ev; try discriminate; try reflexivity.
      cbn. f_equal. apply IHk. now injection Ev. }
    apply IH. rewrite map_length, combine_length. lia.
  - cbn [run]. destruct (all_some (map allreduce_k ps)) as [ks|] eqn:E; [|now apply related_mismatch].
    cbn [pbind run]. rewrite (all_some_binds_ar ks ps fs) by assumption.
    apply all_some_length in E. rewrite map_length in E.
    rewrite !map_map2. cbn [fst snd].
    assert (map2 (fun (x : V * (V -> prog V A)) (_ : A -> prog V B) => fst x) ks fs = map fst ks) as ->.
    { assert (length fs = length ks) as L' by congruence. clear - L'. revert fs L'.
      induction ks as [|k ks IHk]; intros [|f fs] L'; try discriminate; [reflexivity|]. cbn. f_equal. apply IHk. now injection L'. }
    rewrite <- (map2_maps (fun p f => pbind p f) (fun vk : V * (V -> prog V A) => snd vk (fold_left op (map fst ks) v))).
    apply IH. rewrite map_length. congruence.
Qed.
End Bind.

Lemma map2_map_l {A B C D} (h : B -> C -> D) (u : A -> B) (w : A -> C) l : map2 h (map u l) (map w l) = map (fun x => h (u x) (w x)) l.
Proof. induction l; cbn; congruence. Qed.
Lemma spmd_bind {V A B} n (p : nat -> prog V A) (f : nat -> A -> prog V B) (g : nat -> A) :
  spmd n p = Done (map (fun r => Finished (g r)) (seq 0 n)) ->
  spmd n (fun r => pbind (p r) (f r)) = spmd n (fun r => f r (g r)).
Proof.
  destruct n as [|m]; [reflexivity|]. unfold spmd. intro E.
  pose proof (run_bind (p 0) (map p (seq 1 m)) (f 0) (map f (seq 1 m)) ltac:(now rewrite !map_length)) as H.
  rewrite E in H. rewrite map2_map_l in H. destruct H as (_ & _ & _ & H).
  rewrite (H (g 0) (map g (seq 1 m))); [now rewrite map2_map_l|]. cbn. now rewrite map_map.
Qed.
Lemma together_abort {V A} n (p : nat -> prog V A) Q : abortlike (spmd n p) -> together n p Q.
Proof. unfold together. intros [->|(l & m & -> & Hin)]; [exact I|]. left. eauto. Qed.

Theorem together_bind {V A B} n (p : nat -> prog V A) (f : nat -> A -> prog V B) Q R :
  1 <= n -> together n p Q -> (forall g, Q g -> together n (fun r => f r (g r)) R) ->
  together n (fun r => pbind (p r) (f r)) R.
Proof.
  intros Hn H K. destruct n as [|m]; [lia|]. unfold together in H.
  pose proof (run_bind (p 0) (map p (seq 1 m)) (f 0) (map f (seq 1 m)) ltac:(now rewrite !map_length)) as Hr.
  rewrite map2_map_l in Hr. change (run (p 0) (map p (seq 1 m))) with (spmd (S m) p) in Hr.
  change (run (pbind (p 0) (f 0)) _) with (spmd (S m) (fun r => pbind (p r) (f r))) in Hr.
  destruct (spmd (S m) p) as [l| |] eqn:E.
  - cbn [related] in Hr. rewrite map_length, seq_length in Hr. destruct Hr as (_ & H1 & H2 & H3).
    destruct H as [H|[(e & He & El)|(g & El & HQ)]].
    + apply together_abort. now apply H1.
    + unfold together. rewrite (H2 e He El). right. left. exists e. split; [assumption|reflexivity].
    + subst l. unfold together. rewrite (spmd_bind _ _ _ _ E). apply (K g HQ).
  - destruct H.
  - apply together_abort. exact Hr.
Qed.
Lemma together_ret {V A} n (f : nat -> A) (Q : (nat -> A) -> Prop) : Q f -> together n (fun r => @Ret V A (f r)) Q.
Proof. intro H. unfold together. rewrite spmd_ret. right. right. eauto. Qed.
Lemma together_weaken {V A} n (p : nat -> prog V A) (Q R : (nat -> A) -> Prop) :
  (forall f, Q f -> R f) -> together n p Q -> together n p R.
Proof.
  intros H. unfold together. destruct (spmd n p); try easy. intros [K|[K|(f & E & K)]]; [now left|right; now left|right; right; eauto].
Qed.
Lemma together_ext {V A} n (p q : nat -> prog V A) Q : (forall r, r < n -> p r = q r) -> together n q Q -> together n p Q.
Proof. intros H. unfold together. now rewrite (spmd_ext n p q H). Qed.
Lemma together_peq {V A} n (p q : nat -> prog V A) Q : (forall r, r < n -> peq (p r) (q r)) -> together n q Q -> together n p Q.
Proof. intros H. unfold together. now rewrite (spmd_peq n p q H). Qed.
Lemma together_raise {V A} n e Q : 1 <= n -> together n (fun r => @Raise V A e) Q.
Proof.
  intro Hn. unfold together. rewrite spmd_raise by assumption. destruct e as [m|m|].
  - right. left. eexists. split; [|reflexivity]. discriminate.
  - left. exists m. destruct n; [lia|]. now left.
  - right. left. eexists. split; [|reflexivity]. discriminate.
Qed.
Lemma together_bcast {V A} n (v : nat -> V) (k : nat -> V -> prog V A) Q :
  1 <= n -> together n (fun r => k r (v 0)) Q -> together n (fun r => Bcast (v r) (k r)) Q.
Proof. intros Hn. unfold together. now rewrite spmd_bcast. Qed.
Lemma together_allreduce {V A} n op (v : nat -> V) (k : nat -> V -> prog V A) Q :
  1 <= n -> together n (fun r => k r (fold_left op (map v (seq 1 (n - 1))) (v 0))) Q -> together n (fun r => Allreduce op (v r) (k r)) Q.
Proof. intros Hn. unfold together. now rewrite spmd_allreduce. Qed.

(** local computations that only raise unexpected exceptions *)
Definition safe {A} (r : res A) : Prop := match r with Err (QsonicExn _) | Err SysExit => False | _ => True end.
Lemma In_map_seq {A} (f : nat -> A) n r : r < n -> In (f r) (map f (seq 0 n)).
Proof. intro H. apply in_map. apply in_seq. lia. Qed.
Lemma together_local {V A} n (x : nat -> res A) (Q : (nat -> A) -> Prop) :
  1 <= n -> (forall r, r < n -> safe (x r)) -> (forall g, (forall r, r < n -> x r = Ok (g r)) -> Q g) ->
  together n (fun r => @of_res V A (x r)) Q.
Proof.
  intros Hn Hs HQ.
  destruct (existsb (fun r => match x r with Err _ => true | Ok _ => false end) (seq 0 n)) eqn:E.
  - apply existsb_exists in E as (r & Hr & Hx). apply in_seq in Hr. destruct (x r) as [|e] eqn:Er; [discriminate|].
    pose proof (Hs r ltac:(lia)) as S. rewrite Er in S. destruct e as [m|m|]; try destruct S.
    apply together_abort. destruct n as [|k]; [lia|]. unfold spmd. apply run_abort with m.
    assert (Raise (OtherExn m) = @of_res V A (x r)) as -> by now rewrite Er.
    exact (In_map_seq (fun r => @of_res V A (x r)) (S k) r ltac:(lia)).
  - assert (exists a : A, True) as [a0 _].
    { destruct (x 0) as [a|] eqn:E0; [eauto|]. exfalso.
      assert (existsb (fun r => match x r with Err _ => true | Ok _ => false end) (seq 0 n) = true) as K; [|congruence].
      apply existsb_exists. exists 0. split; [apply in_seq; lia|now rewrite E0]. }
    assert (forall r, r < n -> x r = Ok (match x r with Ok a => a | Err _ => a0 end)) as Hx.
    { intros r Hr. destruct (x r) eqn:Er; [reflexivity|]. exfalso.
      assert (existsb (fun r => match x r with Err _ => true | Ok _ => false end) (seq 0 n) = true) as K; [|congruence].
      apply existsb_exists. exists r. split; [apply in_seq; lia|now rewrite Er]. }
    apply together_ext with (fun r => Ret (match x r with Ok a => a | Err _ => a0 end)).
    { intros r Hr. rewrite (Hx r Hr) at 1. reflexivity. }
    apply together_ret. now apply HQ.
Qed.
(** the same computation on all ranks *)
Lemma together_same {V A} n (x : res A) (Q : (nat -> A) -> Prop) :
  1 <= n -> (forall a, x = Ok a -> Q (fun _ => a)) -> together n (fun r => @of_res V A x) Q.
Proof. intros Hn HQ. destruct x as [a|e]; [apply together_ret; now apply HQ|now apply together_raise]. Qed.

(** [lift] does not change the outcome *)
Section Lift.
Context {W V A : Type}.
Variables (inj : W -> V) (prj : V -> W).
Hypothesis Hi : forall w, prj (inj w) = w.
Notation L := (@lift W V A inj prj).
Lemma lift_ending p : ending_of (L p) = ending_of p.
Proof. now destruct p. Qed.
Lemma lift_aborts p : aborts (L p) = aborts p.
Proof. now destruct p. Qed.
Lemma lift_mismatch ps : mismatch (map L ps) = mismatch ps.
Proof. unfold mismatch. replace (existsb aborts (map L ps)) with (existsb aborts ps); [reflexivity|]. induction ps; [reflexivity|]. cbn. now rewrite lift_aborts, IHps. Qed.
Lemma lift_final ps : final (map L ps) = final ps.
Proof.
  unfold final. rewrite map_map, (map_ext _ ending_of) by apply lift_ending. destruct (all_some _); [reflexivity|]. apply lift_mismatch.
Qed.
Lemma lift_run p : forall ps, run (L p) (map L ps) = run p ps.
Proof.
  induction p as [a|e|v k IH|v k IH|op v k IH]; intro ps.
  - exact (lift_final (Ret a :: ps)).
  - exact (lift_final (Raise e :: ps)).
  - cbn [lift run]. rewrite map_map.
    assert (all_some (map (fun x => bcast_k (L x)) ps) = option_map (map (fun k x => L (k (prj x)))) (all_some (map bcast_k ps))) as ->.
    { induction ps as [|p ps IHp]; [reflexivity|]. cbn. destruct p; try reflexivity. cbn. rewrite IHp. now destruct (all_some (map bcast_k ps)). }
    destruct (all_some (map bcast_k ps)) as [ks|]; cbn [option_map]; [|exact (lift_mismatch (Bcast v k :: ps))].
    rewrite Hi, map_map. rewrite <- (IH v (map (fun k' => k' v) ks)). rewrite map_map. f_equal. apply map_ext. intro a. now rewrite Hi.
  - cbn [lift run]. destruct v as [[|v0 vs]|]; cbn [option_map map]; [reflexivity| |reflexivity]. rewrite map_map.
    assert (all_some (map (fun x => scatter_k (L x)) ps) = option_map (map (fun k x => L (k (prj x)))) (all_some (map scatter_k ps))) as ->.
    { induction ps as [|p ps IHp]; [reflexivity|]. cbn. destruct p; try reflexivity. cbn. rewrite IHp. now destruct (all_some (map scatter_k ps)). }
    destruct (all_some (map scatter_k ps)) as [ks|]; cbn [option_map]; [|exact (lift_mismatch (Scatter (Some (v0 :: vs)) k :: ps))].
    rewrite !map_length. destruct (Nat.eqb (length ks) (length vs)); [|reflexivity].
    rewrite Hi. rewrite <- (IH v0). f_equal. rewrite map_map.
    revert vs. induction ks as [|k' ks IHk]; intros [|w vs]; try reflexivity. cbn. rewrite Hi. f_equal. apply IHk.
  - cbn [lift run]. rewrite map_map.
    assert (all_some (map (fun x => allreduce_k (L x)) ps)
            = option_map (map (fun vk : W * (W -> prog W A) => (inj (fst vk), fun x => L (snd vk (prj x))))) (all_some (map allreduce_k ps))) as ->.
    { induction ps as [|p ps IHp]; [reflexivity|]. cbn. destruct p; try reflexivity. cbn. rewrite IHp. now destruct (all_some (map allreduce_k ps)). }
    destruct (all_some (map allreduce_k ps)) as [ks|]; cbn [option_map]; [|exact (lift_mismatch (Allreduce op v k :: ps))].
    assert (forall l w, fold_left (fun a b => inj (op (prj a) (prj b))) (map fst (map (fun vk : W * (W -> prog W A) => (inj (fst vk), fun x => L (snd vk (prj x)))) l)) (inj w)
            = inj (fold_left op (map fst l) w)) as F.
    { induction l as [|x l IHl]; intro w; [reflexivity|]. cbn. rewrite !Hi. apply IHl. }
    rewrite F, Hi. rewrite <- IH. f_equal. rewrite !map_map. apply map_ext. intro a. cbn. now rewrite Hi.
Qed.
Lemma lift_spmd n p : spmd n (fun r => L (p r)) = spmd n p.
Proof. destruct n; [reflexivity|]. unfold spmd. rewrite <- (lift_run (p 0)). now rewrite map_map. Qed.
Lemma together_lift n p Q : together n p Q -> together n (fun r => L (p r)) Q.
Proof. unfold together. now rewrite lift_spmd. Qed.
End Lift.
