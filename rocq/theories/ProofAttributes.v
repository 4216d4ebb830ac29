(** Proofs about attributes.fits (C68). *)
From Coq Require Import ZArith Ascii String List Bool Arith Lia Qcanon DecimalString DecimalNat.
From Verif Require Import Num NpList Exn Dict Mpi ModelSpectrum ModelContinuum ModelStack ModelSubsample ModelVarFit ModelFitter ModelAttributes
  SpecFinal SpecAttributes ProofMpi ProofMpi2.
Import ListNotations.
Local Open Scope nat_scope.

(** ** Results of rank programs *)
Section Leaf.
Context {V : Type}.
Fixpoint leaf {A} (P : A -> Prop) (p : prog V A) : Prop :=
  match p with
  | Ret a => P a
  | Raise _ => True
  | Bcast _ k | Scatter _ k | Allreduce _ _ k => forall x, leaf P (k x)
  end.
Lemma leaf_weaken {A} (P Q : A -> Prop) p : (forall a, P a -> Q a) -> leaf P p -> leaf Q p.
Proof. intro H. induction p; cbn; auto. Qed.
Lemma leaf_bind {A B} (P : A -> Prop) (Q : B -> Prop) p (f : A -> prog V B) : leaf P p -> (forall a, P a -> leaf Q (f a)) -> leaf Q (pbind p f).
Proof. intros H K. induction p; cbn in *; auto. Qed.
Lemma leaf_res {A} (P : A -> Prop) (r : res A) : (forall a, r = Ok a -> P a) -> leaf P (of_res r).
Proof. destruct r; cbn; auto. Qed.
Lemma leaf_true {A} (p : prog V A) : leaf (fun _ => True) p.
Proof. induction p; cbn; auto. Qed.
Lemma leaf_bind_any {A B} (Q : B -> Prop) p (f : A -> prog V B) : (forall a, leaf Q (f a)) -> leaf Q (pbind p f).
Proof. intro K. apply (leaf_bind (fun _ => True)); [apply leaf_true|auto]. Qed.
Definition good_end {A} (Q : A -> Prop) (e : ending A) : Prop := match e with Finished a => Q a | Failed _ => True end.

Lemma all_some_forall {A B} (f : A -> option B) l r : all_some (map f l) = Some r -> Forall2 (fun a b => f a = Some b) l r.
Proof.
  revert r. induction l as [|a l IH]; intros r H; cbn in H; [injection H as <-; constructor|].
  destruct (f a) eqn:E; [|discriminate H]. destruct (all_some (map f l)) eqn:F; [|discriminate H]. cbn in H. injection H as <-. constructor; auto.
Qed.
Lemma leaf_final {A} (Qs : list (A -> Prop)) ps l : Forall2 (fun Q p => leaf Q p) Qs ps -> all_some (map ending_of ps) = Some l -> Forall2 good_end Qs l.
Proof.
  intros H E. apply all_some_forall in E. revert Qs H. induction E as [|p e ps l E1 E IH]; intros Qs H; inversion H; subst; constructor; auto.
  destruct p; cbn in E1; try discriminate E1; injection E1 as <-; cbn; auto.
Qed.
Lemma Forall2_ks {A K} (f : prog V A -> option K) (R : (A -> Prop) -> K -> Prop) Qs ps ks :
  (forall Q p k, leaf Q p -> f p = Some k -> R Q k) -> Forall2 (fun Q p => leaf Q p) Qs ps -> all_some (map f ps) = Some ks -> Forall2 R Qs ks.
Proof.
  intros HR H E. apply all_some_forall in E. revert Qs H. induction E as [|p k ps ks E1 E IH]; intros Qs H; inversion H; subst; constructor; eauto.
Qed.
Lemma leaf_run {A} (p0 : prog V A) : forall ps Q0 Qs l, leaf Q0 p0 -> Forall2 (fun Q p => leaf Q p) Qs ps -> run p0 ps = Done l ->
  Forall2 good_end (Q0 :: Qs) l.
Proof.
  induction p0 as [a|e|v k IH|v k IH|op v k IH]; intros ps Q0 Qs l H0 H E; cbn [run] in E.
  - unfold final in E. destruct (all_some _) eqn:F in E; [|unfold mismatch in E; destruct (existsb _ _); discriminate E]. injection E as <-.
    apply (leaf_final _ _ _ (Forall2_cons (R := fun Q p => leaf Q p) Q0 (Ret a) H0 H) F).
  - unfold final in E. destruct (all_some _) eqn:F in E; [|unfold mismatch in E; destruct (existsb _ _); discriminate E]. injection E as <-.
    apply (leaf_final _ _ _ (Forall2_cons (R := fun Q p => leaf Q p) Q0 (Raise e) H0 H) F).
  - destruct (all_some (map bcast_k ps)) as [ks|] eqn:F; [|unfold mismatch in E; destruct (existsb _ _); discriminate E].
    refine (IH v _ Q0 Qs l (H0 v) _ E).
    assert (Forall2 (fun (Q : A -> Prop) (k : V -> prog V A) => forall x, leaf Q (k x)) Qs ks) as G.
    { apply (Forall2_ks bcast_k _ Qs ps ks); [|exact H|exact F]. intros Q p k0 L M. destruct p; cbn in M; try discriminate M. injection M as <-. exact L. }
    clear - G. induction G; cbn; constructor; auto.
  - destruct v as [[|v0 vs]|]; try discriminate E.
    destruct (all_some (map scatter_k ps)) as [ks|] eqn:F; [|unfold mismatch in E; destruct (existsb _ _); discriminate E].
    destruct (Nat.eqb (length ks) (length vs)) eqn:L; [|discriminate E]. apply Nat.eqb_eq in L.
    refine (IH v0 _ Q0 Qs l (H0 v0) _ E).
    assert (Forall2 (fun (Q : A -> Prop) (k : V -> prog V A) => forall x, leaf Q (k x)) Qs ks) as G.
    { apply (Forall2_ks scatter_k _ Qs ps ks); [|exact H|exact F]. intros Q p k0 L' M. destruct p; cbn in M; try discriminate M. injection M as <-. exact L'. }
    clear - G L. revert vs L. induction G; intros [|v vs] L; cbn in *; try discriminate L; constructor; auto.
  - destruct (all_some (map allreduce_k ps)) as [ks|] eqn:F; [|unfold mismatch in E; destruct (existsb _ _); discriminate E].
    refine (IH _ _ Q0 Qs l (H0 _) _ E).
    assert (Forall2 (fun (Q : A -> Prop) (k : V * (V -> prog V A)) => forall x, leaf Q (snd k x)) Qs ks) as G.
    { apply (Forall2_ks allreduce_k _ Qs ps ks); [|exact H|exact F]. intros Q p k0 L M. destruct p; cbn in M; try discriminate M. injection M as <-. exact L. }
    generalize (fold_left op (map fst ks) v) as z. intro z. clear - G. induction G; cbn; constructor; auto.
Qed.
Lemma leaf_finishes {A} n (p : nat -> prog V A) f (P : nat -> A -> Prop) : (forall r, r < n -> leaf (P r) (p r)) -> finishes n p f -> forall r, r < n -> P r (f r).
Proof.
  intros H F r Hr. unfold finishes in F. destruct n as [|n]; [lia|]. cbn [spmd] in F.
  assert (Forall2 (fun Q p => leaf Q p) (map P (seq 1 n)) (map p (seq 1 n))) as G.
  { assert (forall x, In x (seq 1 n) -> x < S n) as I by (intros x Hx; apply in_seq in Hx; lia). revert I. generalize (seq 1 n) as m.
    induction m as [|x m IH]; intro I; cbn; constructor; [apply H, I; now left|apply IH; intros; apply I; now right]. }
  pose proof (leaf_run (p 0) (map p (seq 1 n)) (P 0) _ _ (H 0 ltac:(lia)) G F) as K.
  change (P 0 :: map P (seq 1 n)) with (map P (seq 0 (S n))) in K.
  assert (forall m, Forall2 good_end (map P m) (map (fun r => Finished (f r)) m) -> forall x, In x m -> P x (f x)) as L.
  { induction m as [|y m IH]; cbn; intros Q x Hx; [easy|]. inversion Q; subst. destruct Hx as [<-|Hx]; [assumption|now apply IH]. }
  apply (L _ K). apply in_seq. lia.
Qed.

(** equality of programs *)
Lemma peq_trans {A} (p q r : prog V A) : peq p q -> peq q r -> peq p r.
Proof. intro H. revert r. induction H; intros r K; inversion K; subst; constructor; auto. Qed.
Lemma peq_sym {A} (p q : prog V A) : peq p q -> peq q p.
Proof. induction 1; constructor; auto. Qed.
Lemma peq_bind {A B} (p p' : prog V A) (f f' : A -> prog V B) : peq p p' -> (forall a, peq (f a) (f' a)) -> peq (pbind p f) (pbind p' f').
Proof. intros H K. induction H; cbn; auto; constructor; auto. Qed.
Lemma peq_bind2 {A B} (p : prog V A) (f f' : A -> prog V B) : (forall a, peq (f a) (f' a)) -> peq (pbind p f) (pbind p f').
Proof. apply peq_bind, peq_refl. Qed.
Lemma peq_res {A B C} (r : res A) (r' : res B) (f : A -> prog V C) (f' : B -> prog V C) (h : A -> B) :
  rmap h r = r' -> (forall a, peq (f a) (f' (h a))) -> peq (pbind (of_res r) f) (pbind (of_res r') f').
Proof. intros <- H. destruct r as [a|e]; cbn; [apply H|constructor]. Qed.
End Leaf.

(** ** Outcomes of a program and of the same program with a component forgotten *)
Section Forget.
Context {V A B : Type}.
Notation fg := (fun p : prog V (A * B) => pbind p (fun r => Ret (fst r))).
Definition ef (e : ending (A * B)) : ending A := match e with Finished x => Finished (fst x) | Failed e => Failed e end.
Lemma fg_ending ps : all_some (map ending_of (map fg ps)) = option_map (map ef) (all_some (map ending_of ps)).
Proof.
  induction ps as [|p ps IH]; [easy|]. cbn [map]. destruct p; cbn [pbind ending_of all_some]; try reflexivity; rewrite IH; destruct (all_some (map ending_of ps)); reflexivity.
Qed.
Lemma fg_mismatch ps : mismatch (map fg ps) = forget (mismatch ps).
Proof.
  unfold mismatch. assert (existsb aborts (map fg ps) = existsb aborts ps) as ->.
  { induction ps as [|p ps IH]; [easy|]. cbn. rewrite IH. now destruct p as [| [] | | |]. }
  now destruct (existsb aborts ps).
Qed.
Lemma fg_final ps : final (map fg ps) = forget (final ps).
Proof. unfold final. rewrite fg_ending. destruct (all_some _) as [l|]; [easy|]. apply fg_mismatch. Qed.
Lemma fg_all {K} (h : K -> K -> Prop) (f : prog V (A * B) -> option (V -> prog V (A * B))) (f' : prog V A -> option (V -> prog V A)) ps :
  (forall p, f' (fg p) = option_map (fun k x => fg (k x)) (f p)) ->
  all_some (map f' (map fg ps)) = option_map (map (fun k x => fg (k x))) (all_some (map f ps)).
Proof. intro H. induction ps as [|p ps IH]; [easy|]. cbn [map]. rewrite H. destruct (f p); [|easy]. cbn [option_map all_some]. rewrite IH. destruct (all_some (map f ps)); reflexivity. Qed.
Lemma fg_run p0 : forall ps, run (fg p0) (map fg ps) = forget (run p0 ps).
Proof.
  induction p0 as [a|e|v k IH|v k IH|op v k IH]; intro ps; cbn [pbind run].
  - exact (fg_final (Ret a :: ps)).
  - exact (fg_final (Raise e :: ps)).
  - rewrite (fg_all (fun _ _ : unit => True) bcast_k bcast_k ps) by (intros []; easy).
    destruct (all_some (map bcast_k ps)) as [ks|]; cbn [option_map].
    + rewrite <- IH. f_equal. rewrite !map_map. reflexivity.
    + exact (fg_mismatch (Bcast v k :: ps)).
  - destruct v as [[|v0 vs]|]; try reflexivity.
    rewrite (fg_all (fun _ _ : unit => True) scatter_k scatter_k ps) by (intros []; easy).
    destruct (all_some (map scatter_k ps)) as [ks|]; cbn [option_map].
    + rewrite map_length. destruct (Nat.eqb (length ks) (length vs)); [|reflexivity]. rewrite <- IH. f_equal.
      clear. revert vs. induction ks as [|k' ks IH]; intros [|v vs]; cbn; try easy. now rewrite IH.
    + exact (fg_mismatch (Scatter (Some (v0 :: vs)) k :: ps)).
  - assert (all_some (map allreduce_k (map fg ps)) = option_map (map (fun vk => (fst vk, fun x => fg (snd vk x)))) (all_some (map allreduce_k ps))) as ->.
    { clear. induction ps as [|p ps IHp]; [easy|]. cbn [map]. destruct p; cbn [pbind allreduce_k all_some]; try reflexivity. rewrite IHp. destruct (all_some (map allreduce_k ps)); reflexivity. }
    destruct (all_some (map allreduce_k ps)) as [ks|]; cbn [option_map].
    + rewrite !map_map. cbn [fst snd]. rewrite <- IH. f_equal. now rewrite map_map.
    + exact (fg_mismatch (Allreduce op v k :: ps)).
Qed.
Lemma fg_spmd n (p : nat -> prog V (A * B)) : spmd n (fun r => fg (p r)) = forget (spmd n p).
Proof. destruct n as [|n]; [easy|]. cbn [spmd]. rewrite <- fg_run. now rewrite map_map. Qed.
End Forget.

(** ** Names *)
Definition suffix_ok (s : string) : Prop := s = ""%string \/ exists r, s = String "-"%char r.
Lemma set_names_inj x s s' b b' : suffix_ok s -> suffix_ok s' -> In x (set_names s b) -> In x (set_names s' b') -> s = s'.
Proof.
  intros S S' H H'. assert (D : forall b (t : string), In x (set_names t b) -> x = ("CONT" ++ t)%string \/ x = ("STACKED_FLUX" ++ t)%string \/ x = ("STACKED_FLUX_RF" ++ t)%string \/ x = ("VAR_FUNC" ++ t)%string).
  { intros c t. unfold set_names. destruct c; cbn; intuition congruence. }
  apply D in H. apply D in H'.
  destruct H as [ -> | [ -> | [ -> | -> ]]], H' as [E|[E|[E|E]]]; cbn in E; try discriminate E; try congruence; exfalso.
  - injection E as E. destruct S as [->|[r ->]]; discriminate E.
  - injection E as E. destruct S' as [->|[r ->]]; discriminate E.
Qed.
Lemma set_names_nodup s b : suffix_ok s -> NoDup (set_names s b).
Proof.
  intro S. unfold set_names. assert (("STACKED_FLUX" ++ s)%string <> ("STACKED_FLUX_RF" ++ s)%string) as N.
  { cbn. intro E. injection E as E. destruct S as [->|[r ->]]; discriminate E. }
  destruct b; cbn in *; repeat constructor; cbn; intuition (try discriminate; try congruence).
Qed.
Lemma sets_nodup (L : list (string * bool)) : Forall (fun x => suffix_ok (fst x)) L -> NoDup (map fst L) -> NoDup (flat_map (fun x => set_names (fst x) (snd x)) L).
Proof.
  induction L as [|[s b] L IH]; intros S N; cbn [flat_map fst snd]; [constructor|]. inversion S as [|? ? S0 S1]; subst. inversion N as [|? ? N0 N1]; subst. cbn [fst] in *.
  assert (D : forall x, In x (set_names s b) -> ~ In x (flat_map (fun x => set_names (fst x) (snd x)) L)).
  { intros x H K. apply in_flat_map in K. destruct K as ([s' b'] & K & H'). cbn [fst snd] in H'. apply N0.
    assert (s = s') as ->. { rewrite Forall_forall in S1. exact (set_names_inj x s s' b b' S0 (S1 _ K) H H'). }
    exact (in_map fst _ _ K). }
  specialize (IH S1 N1). pose proof (set_names_nodup s b S0) as M. clear - D IH M. induction (set_names s b) as [|x m IHm]; cbn; [exact IH|].
  inversion M; subst. constructor.
  - intro K. apply in_app_or in K. destruct K as [K|K]; [easy|]. exact (D x (or_introl eq_refl) K).
  - apply IHm; [|assumption]. intros y Hy. apply D. now right.
Qed.
Lemma uint_string_inj a b : NilEmpty.string_of_uint a = NilEmpty.string_of_uint b -> a = b.
Proof. intro H. assert (Some a = Some b) by (rewrite <- (NilEmpty.usu a), <- (NilEmpty.usu b); now f_equal). congruence. Qed.
Lemma suffix_inj a b : iteration_suffix a = iteration_suffix b -> a = b.
Proof. unfold iteration_suffix. cbn. intro H. injection H as H. apply uint_string_inj in H. now apply Unsigned.to_uint_inj. Qed.
Lemma suffix_fit a : iteration_suffix a <> "-fit"%string.
Proof.
  unfold iteration_suffix. cbn. intro H. injection H as H. pose proof (NilEmpty.usu (Nat.to_uint a)) as K. rewrite H in K. discriminate K.
Qed.
Lemma not_stats s b : ~ In "VAR_STATS"%string (set_names s b).
Proof. unfold set_names. destruct b; cbn; intuition discriminate. Qed.
Lemma distinct_thm fitting k : NoDup (attribute_names fitting k).
Proof.
  set (L := map (fun i => (iteration_suffix (S i), fitting)) (seq 0 k) ++ (""%string, fitting) :: (if fitting then [] else [("-fit"%string, true)])).
  assert (attribute_names fitting k = flat_map (fun x => set_names (fst x) (snd x)) L ++ ["VAR_STATS"%string]) as ->.
  { unfold attribute_names, L. change suffix_of with iteration_suffix. rewrite flat_map_app. rewrite <- app_assoc. f_equal.
    - generalize (seq 0 k). induction l as [|x l IH]; cbn [map flat_map fst snd]; [easy|]. now rewrite IH.
    - destruct fitting; cbn; reflexivity. }
  assert (N : NoDup (flat_map (fun x => set_names (fst x) (snd x)) L)).
  { apply sets_nodup.
    - apply Forall_app. split; [|constructor; [now left|destruct fitting; [constructor|constructor; [right; now eexists|constructor]]]].
      apply Forall_forall. intros x H. apply in_map_iff in H. destruct H as (i & <- & _). right. now eexists.
    - unfold L. rewrite map_app, map_map. cbn [map fst].
      assert (M : NoDup (map (fun i => iteration_suffix (S i)) (seq 0 k))).
      { assert (forall m, NoDup m -> NoDup (map (fun i => iteration_suffix (S i)) m)) as W; [|apply W, seq_NoDup].
        induction m as [|x m IH]; intro H; cbn [map]; constructor; inversion H; subst; [|now apply IH].
        intro K. apply in_map_iff in K. destruct K as (y & E & Hy). apply suffix_inj in E. congruence. }
      assert (W1 : ~ In ""%string (map (fun i => iteration_suffix (S i)) (seq 0 k))).
      { intro K. apply in_map_iff in K. destruct K as (y & E & _). discriminate E. }
      assert (W2 : ~ In "-fit"%string (map (fun i => iteration_suffix (S i)) (seq 0 k))).
      { intro K. apply in_map_iff in K. destruct K as (y & E & _). now apply suffix_fit in E. }
      assert (APP : forall (m r : list string), NoDup m -> NoDup r -> (forall x, In x r -> ~ In x m) -> NoDup (m ++ r)).
      { induction m as [|x m IH]; intros r A B C; cbn; [exact B|]. inversion A; subst. constructor.
        - intro K. apply in_app_or in K. destruct K as [K|K]; [easy|]. apply (C x K). now left.
        - apply IH; [assumption|exact B|]. intros y Hy K. apply (C y Hy). now right. }
      apply APP; [exact M|destruct fitting; repeat constructor; cbn; intuition discriminate|].
      intros x [<-|H]; [exact W1|]. destruct fitting; [easy|]. destruct H as [<-|[]]. exact W2. }
  assert (S : ~ In "VAR_STATS"%string (flat_map (fun x => set_names (fst x) (snd x)) L)).
  { intro K. apply in_flat_map in K. destruct K as (x & _ & K). now apply not_stats in K. }
  clear - N S. revert N S. generalize (flat_map (fun x : string * bool => set_names (fst x) (snd x)) L) as m. clear L. induction m as [|x m IH]; intros N S; cbn.
  - repeat constructor. easy.
  - inversion N; subst. constructor.
    + intro K. apply in_app_or in K. destruct K as [K|[<-|[]]]; [easy|]. apply S. now left.
    + apply IH; [assumption|]. intro K. apply S. now right.
Qed.
Lemma find_nodup file e : NoDup (map x_name file) -> In e file -> find (fun e' => String.eqb (x_name e') (x_name e)) file = Some e.
Proof.
  induction file as [|a file IH]; intros N H; [easy|]. cbn in *. inversion N; subst. destruct H as [->|H]; [now rewrite String.eqb_refl|].
  destruct (String.eqb_spec (x_name a) (x_name e)) as [E|E]; [|now apply IH]. exfalso. rewrite E in H2. apply H2. now apply in_map.
Qed.
Lemma find_absent file x : ~ In x (map x_name file) -> find (fun e' => String.eqb (x_name e') x) file = None.
Proof.
  induction file as [|a file IH]; intros H; [easy|]. cbn in *. destruct (String.eqb_spec (x_name a) x) as [E|E]; [intuition|]. apply IH. intuition.
Qed.

Section Attributes.
Variable g : config.
Variable ev : interp -> Qc -> num.
Variable ev_stack : stacker -> Qc -> num.
Variable meanflux : Qc -> num.
Variable slope : Qc -> num.
Variable minimizer : interp -> interp -> interp -> spec -> num -> option minres.
Variable input_cont : spec -> option (Qc -> num).
Variable true_cont : spec -> Qc -> num.
Variable nsqrt : num -> num.
Variable uspline : list Qc -> list num -> list num -> option (list num).
Variable xs : list Qc.
Variable quad : list Qc -> Qc.
Variables (min_num_pix min_num_qso : nat) (cholesky : list (list Qc) -> bool)
  (curve_fit : list Qc -> list Qc -> list num -> errors -> option (list num * list num))
  (vspline : list Qc -> list num -> list num -> option (list num)).
Variable write_ok : string -> bool.
Notation iterations_a := (iterations_a g ev meanflux slope minimizer input_cont true_cont nsqrt uspline xs quad
  min_num_pix min_num_qso cholesky curve_fit vspline write_ok).
Notation iterate_a := (iterate_a g ev ev_stack meanflux slope minimizer input_cont true_cont nsqrt uspline xs quad
  min_num_pix min_num_qso cholesky curve_fit vspline write_ok).
Notation iterations := (iterations g ev meanflux slope minimizer input_cont true_cont nsqrt uspline xs quad
  min_num_pix min_num_qso cholesky curve_fit vspline write_ok iteration_suffix).
Notation iterate := (iterate g ev ev_stack meanflux slope minimizer input_cont true_cont nsqrt uspline xs quad
  min_num_pix min_num_qso cholesky curve_fit vspline write_ok iteration_suffix).
Notation save_a := (save_a g write_ok).
Notation save := (save g write_ok).

(** ** The file forgotten *)
Lemma save_a_save rank suff t file : rmap (fun _ => tt) (save_a rank suff t file) = save rank suff t.
Proof.
  unfold save_a, save, save_exts. destruct (t_vfit t); cbn [app for_each]; unfold write_a; cbn [x_name];
    repeat (match goal with |- context [write_ext g write_ok rank ?n] => destruct (write_ext g write_ok rank n) as [[]|] end; cbn [rmap rbind]; try reflexivity).
Qed.
Lemma iterations_erase rank : forall n it t l log a,
  peq (pbind (iterations_a rank n it t l log a) (fun r => Ret (fst r))) (iterations rank n it t l log).
Proof.
  induction n as [|n IH]; intros it t l log a; cbn; [constructor|].
  eapply peq_trans; [apply pbind_assoc|].
  apply (peq_res _ _ _ _ (fun _ => tt) (save_a_save rank _ t (snd a))). intro file.
  eapply peq_trans; [apply pbind_assoc|]. apply peq_bind2. intro l1. cbv zeta.
  eapply peq_trans; [apply pbind_assoc|]. apply peq_bind2. intro tb.
  eapply peq_trans; [apply pbind_assoc|]. apply peq_bind2. intro t2.
  destruct (snd tb); [constructor|apply IH].
Qed.
Lemma erase_thm rank t l : peq (pbind (iterate_a rank t l) (fun r => Ret (fst r))) (iterate rank t l).
Proof.
  unfold ModelAttributes.iterate_a, ModelFitter.iterate.
  eapply peq_trans; [apply pbind_assoc|]. apply peq_bind2. intro l0.
  eapply peq_trans; [apply pbind_assoc|].
  eapply peq_trans; [|apply peq_bind; [apply (iterations_erase rank (n_iterations g) 1 t l0 [] ([], []))|intro; apply peq_refl]].
  eapply peq_trans; [|apply peq_sym, pbind_assoc]. apply peq_bind2. intros [[[t1 l1] log] [u file]]. cbn [pbind fst].
  eapply peq_trans; [apply pbind_assoc|]. apply peq_bind2. intro l2.
  eapply peq_trans; [apply pbind_assoc|]. apply peq_bind2. intro l3.
  eapply peq_trans; [apply pbind_assoc|]. apply (peq_res _ _ _ _ (fun _ => tt) (save_a_save rank _ t1 file)). intro file1.
  assert (W : forall tf : fitter * list ext, @peq fval _
    (pbind (pbind (of_res (rbind (write_vfit g write_ok rank (fst tf)) (fun _ =>
                 Ok (if Nat.eqb rank 0 && g_outdir g then snd tf ++ [mkExt "VAR_STATS" [] []] else snd tf)))) (fun file3 =>
       Ret (fst tf, l3, log, (u, file3)))) (fun r => Ret (fst r)))
    (pbind (of_res (write_vfit g write_ok rank (fst tf))) (fun _ => Ret (fst tf, l3, log)))).
  { intro tf. destruct (write_vfit g write_ok rank (fst tf)); cbn; constructor. }
  destruct (t_vfit t1).
  - cbn [pbind]. apply (W (t1, file1)).
  - eapply peq_trans; [apply pbind_assoc|]. eapply peq_trans; [apply pbind_assoc|].
    eapply peq_trans; [|apply peq_sym, pbind_assoc]. apply peq_bind2. intro t2.
    eapply peq_trans; [apply pbind_assoc|]. eapply peq_trans; [|apply peq_sym, pbind_assoc].
    apply (peq_res _ _ _ _ (fun _ => tt) (save_a_save rank _ t2 file1)). intro file2. cbn [pbind]. apply (W (t2, file2)).
Qed.

(** ** What is in the file *)
Definition writes (rank : nat) : bool := Nat.eqb rank 0 && g_outdir g.
Lemma save_a_ok rank suff t file file' : save_a rank suff t file = Ok file' -> file' = file ++ (if writes rank then save_exts g suff t else []).
Proof.
  unfold ModelAttributes.save_a. generalize (save_exts g suff t) as m. intro m. revert file. induction m as [|e m IH]; intros file H; cbn in H.
  - injection H as <-. destruct (writes rank); now rewrite app_nil_r.
  - unfold write_a in H. destruct (write_ext g write_ok rank (x_name e)); [|discriminate H]. cbn in H. apply IH in H. subst file'.
    unfold writes. destruct (Nat.eqb rank 0 && g_outdir g); [now rewrite <- app_assoc|now rewrite !app_nil_r].
Qed.
Definition same_refs (t t' : fitter) : Prop :=
  t_var t' = t_var t /\ t_eta t' = t_eta t /\ t_mvar t' = t_mvar t /\ t_meta t' = t_meta t.
Lemma mean_cont_leaf l t : leaf (fun tb => same_refs t (fst tb) /\ t_vfit (fst tb) = t_vfit t) (update_mean_cont g nsqrt uspline xs quad l t).
Proof. unfold update_mean_cont. apply leaf_bind_any. intro k. apply leaf_bind_any. intro cb. cbn. repeat split. Qed.
Lemma var_leaf l t : leaf (fun t' => same_refs t t' /\ is_some (t_vfit t') = true) (update_var_lss_eta g nsqrt min_num_pix min_num_qso cholesky curve_fit vspline l t).
Proof.
  unfold update_var_lss_eta. destruct (t_vfit t) as [v0|]; [|exact I]. apply leaf_bind_any. intro v. apply leaf_bind_any. intro p0. apply leaf_bind_any.
  intros [v' [y ep]]. cbn. unfold store_fit. destruct (g_fit_eta g); repeat split.
Qed.
Lemma final_leaf rank l t : leaf (fun t' => is_some (t_vfit t') = true)
  (fit_final_varlss g nsqrt uspline xs quad min_num_pix min_num_qso cholesky curve_fit vspline rank l t).
Proof.
  unfold fit_final_varlss. apply leaf_bind_any. intro iv. apply leaf_bind_any. intro ie. eapply leaf_bind; [apply var_leaf|].
  intros t1 [_ V]. eapply leaf_bind; [apply mean_cont_leaf|]. intros tb [_ W]. cbn. now rewrite W.
Qed.
Definition used_of (t : fitter) : used := (t_cont t, deref t (t_mvar t), deref t (t_meta t)).
Definition sets (it : nat) (ts : list fitter) : list ext := flat_map (fun x => save_exts g (iteration_suffix (fst x)) (snd x)) (combine (seq it (length ts)) ts).
Definition fine (fitting : bool) (t : fitter) : Prop := shared t /\ is_some (t_vfit t) = fitting.
Lemma refs_shared t t' : same_refs t t' -> shared t -> shared t'.
Proof. intros (A & B & C & D) [E F]. split; congruence. Qed.
Lemma iterations_leaf rank fitting : forall n it t l log a, fine fitting t ->
  leaf (fun r => let '(t', l', log', a') := r in exists ts bs, length bs = length ts /\ log' = log ++ bs /\ Forall (fine fitting) ts /\
          fst a' = fst a ++ map used_of ts /\ snd a' = snd a ++ (if writes rank then sets it ts else []) /\ fine fitting t' /\
          (0 < n -> hd_error ts = Some t))
       (iterations_a rank n it t l log a).
Proof.
  induction n as [|n IH]; intros it t l log a F; cbn [ModelAttributes.iterations_a].
  - cbn. exists [], []. rewrite !app_nil_r. repeat split; auto; try (destruct (writes rank); cbn; now rewrite ?app_nil_r); try apply F; try lia.
  - apply (leaf_bind (fun file => file = snd a ++ (if writes rank then save_exts g (iteration_suffix it) t else []))).
    { apply leaf_res. intros file E. now apply save_a_ok in E. }
    intros file ->. apply leaf_bind_any. intro l1. cbv zeta. eapply leaf_bind; [apply mean_cont_leaf|]. intros tb [R V].
    apply (leaf_bind (fun t2 => fine fitting t2)).
    { destruct F as [S F]. destruct (t_vfit (fst tb)) eqn:E.
      - eapply leaf_weaken; [|apply var_leaf]. intros t2 [R2 V2]. split; [exact (refs_shared _ _ R2 (refs_shared _ _ R S))|].
        rewrite V2, <- F, <- V. reflexivity.
      - cbn. split; [exact (refs_shared _ _ R S)|]. rewrite E, <- F, <- V. reflexivity. }
    intros t2 F2. destruct (snd tb).
    + cbn. exists [t], [true]. repeat split; auto; try apply F2.
      unfold sets. cbn. now rewrite app_nil_r.
    + eapply leaf_weaken; [|apply (IH (S it) t2 l1 _ _ F2)]. intros [[[t' l'] log'] a'] (ts & bs & L & -> & FT & U & X & F' & _).
      exists (t :: ts), (false :: bs). cbn [length fst snd] in *. repeat split; try apply F'; auto.
      * now rewrite <- app_assoc.
      * rewrite U. cbn. now rewrite <- app_assoc.
      * rewrite X, <- app_assoc. f_equal. destruct (writes rank); [|reflexivity]. unfold sets. reflexivity.
Qed.
(** the whole file *)
Lemma iterate_leaf rank fitting t l : fine fitting t ->
  leaf (fun r => let '(t', l', log, (u, file)) := r in exists ts t1, length log = length ts /\ Forall (fine fitting) ts /\ fine fitting t1 /\
          u = map used_of ts /\ is_some (t_vfit t') = true /\ (fitting = true -> t' = t1) /\ (0 < n_iterations g -> hd_error ts = Some t) /\
          file = if writes rank then sets 1 ts ++ save_exts g "" t1 ++ (if fitting then [] else save_exts g "-fit" t') ++ [mkExt "VAR_STATS" [] []] else [])
       (iterate_a rank t l).
Proof.
  intro F. unfold ModelAttributes.iterate_a. apply leaf_bind_any. intro l0. eapply leaf_bind; [apply (iterations_leaf rank fitting _ 1 t l0 [] ([], []) F)|].
  intros [[[t1 l1] log] [u file]] (ts & bs & L & -> & FT & U & X & F1 & HD). cbn [fst snd app] in U, X. subst u file.
  apply leaf_bind_any. intro l2. apply leaf_bind_any. intro l3.
  apply (leaf_bind (fun file => file = (if writes rank then sets 1 ts else []) ++ (if writes rank then save_exts g "" t1 else []))).
  { apply leaf_res. intros file E. now apply save_a_ok in E. }
  intros file1 ->.
  apply (leaf_bind (fun tf => is_some (t_vfit (fst tf)) = true /\ (fitting = true -> fst tf = t1) /\ snd tf = if writes rank then sets 1 ts ++ save_exts g "" t1 ++ (if fitting then [] else save_exts g "-fit" (fst tf)) else [])).
  { destruct F1 as [S F1]. destruct (t_vfit t1) eqn:E.
    - cbn. rewrite E. cbn in F1. subst fitting. repeat split; auto. destruct (writes rank); [now rewrite app_nil_r|reflexivity].
    - cbn in F1. subst fitting. eapply leaf_bind; [apply final_leaf|]. intros t2 V.
      apply (leaf_bind (fun file => file = ((if writes rank then sets 1 ts else []) ++ (if writes rank then save_exts g "" t1 else [])) ++
               (if writes rank then save_exts g "-fit" t2 else []))).
      { apply leaf_res. intros file E2. now apply save_a_ok in E2. }
      intros file2 ->. cbn. repeat split; auto; [discriminate|]. destruct (writes rank); [now rewrite <- app_assoc|reflexivity]. }
  intros [t2 file2] (V & T & X). cbn [fst snd] in V, T, X.
  apply (leaf_bind (fun file3 => file3 = if writes rank then file2 ++ [mkExt "VAR_STATS" [] []] else file2)).
  { apply leaf_res. intros file3 E. destruct (write_vfit g write_ok rank (fst (t2, file2))); [|discriminate E]. cbn in E. unfold writes. congruence. }
  intros file3 ->. cbn. exists ts, t1. subst file2. repeat split; auto; try apply F1.
  destruct (writes rank); [|reflexivity]. now rewrite <- !app_assoc.
Qed.

Lemma save_names suff t : map x_name (save_exts g suff t) = set_names suff (is_some (t_vfit t)).
Proof. unfold save_exts, set_names. now destruct (t_vfit t). Qed.
Lemma sets_names fitting ts : Forall (fine fitting) ts -> map x_name (sets 1 ts) = flat_map (fun i => set_names (iteration_suffix (S i)) fitting) (seq 0 (length ts)).
Proof.
  intro F. unfold sets. assert (forall k, map x_name (flat_map (fun x => save_exts g (iteration_suffix (fst x)) (snd x)) (combine (seq (S k) (length ts)) ts)) =
     flat_map (fun i => set_names (iteration_suffix (S i)) fitting) (seq k (length ts))) as W; [|apply W].
  induction F as [|t ts [_ F] FT IH]; intro k; [easy|]. cbn [length seq combine flat_map fst snd]. rewrite map_app, save_names, F. f_equal. apply IH.
Qed.
Lemma names_thm n t l f fitting : (forall r, r < n -> shared (t r) /\ is_some (t_vfit (t r)) = fitting) ->
  finishes n (fun r => iterate_a r (t r) (l r)) f -> forall r, r < n ->
  let '(_, _, log, (_, file)) := f r in map x_name file = if writes r then attribute_names fitting (length log) else [].
Proof.
  intros S F r Hr.
  apply (leaf_finishes n (fun r => iterate_a r (t r) (l r)) f (fun r x => let '(_, _, log, (_, file)) := x in map x_name file = if writes r then attribute_names fitting (length log) else [])) ;
    [|exact F|exact Hr].
  clear r Hr. intros r Hr. eapply leaf_weaken; [|exact (iterate_leaf r fitting (t r) (l r) (S r Hr))].
  intros [[[t' l'] log] [u file]] (ts & t1 & L & FT & F1 & U & V & T & HD & ->). destruct (writes r); [|reflexivity].
  rewrite !map_app, (sets_names fitting ts FT), save_names. destruct F1 as [_ F1]. rewrite F1. unfold attribute_names. change suffix_of with iteration_suffix. rewrite L.
  f_equal. f_equal. destruct fitting; [reflexivity|]. now rewrite save_names, V.
Qed.
Lemma nodup_file fitting ts t1 t' : Forall (fine fitting) ts -> fine fitting t1 -> is_some (t_vfit t') = true ->
  NoDup (map x_name (sets 1 ts ++ save_exts g "" t1 ++ (if fitting then [] else save_exts g "-fit" t') ++ [mkExt "VAR_STATS" [] []])).
Proof.
  intros FT [_ F1] V. replace (map x_name _) with (attribute_names fitting (length ts)); [apply distinct_thm|].
  rewrite !map_app, (sets_names fitting ts FT), save_names, F1. unfold attribute_names. change suffix_of with iteration_suffix. f_equal. f_equal. destruct fitting; [reflexivity|]. now rewrite save_names, V.
Qed.
Lemma column_In file e col : NoDup (map x_name file) -> In e file -> column_of file (x_name e) col = dget col (x_cols e).
Proof. intros N H. unfold column_of. now rewrite (find_nodup file e N H). Qed.
Lemma sets_In ts i t : nth_error ts i = Some t -> forall e, In e (save_exts g (iteration_suffix (S i)) t) -> In e (sets 1 ts).
Proof.
  intros H e He. unfold sets. apply in_flat_map. exists (S i, t). split; [|exact He].
  assert (forall k ts i, nth_error ts i = Some t -> In (k + i, t) (combine (seq k (length ts)) ts)) as W; [|exact (W 1 ts i H)].
  clear. intros k ts. revert k. induction ts as [|x ts IH]; intros k [|i] H; cbn in *; try discriminate.
  - injection H as ->. left. f_equal. lia.
  - right. replace (k + S i) with (S k + i) by lia. now apply IH.
Qed.
Lemma save_cols suff t file : NoDup (map x_name file) -> (forall e, In e (save_exts g suff t) -> In e file) ->
  column_of file ("CONT" ++ suff) "mean_cont" = Some (i_fp (t_cont t)) /\
  column_of file ("STACKED_FLUX" ++ suff) "stacked_flux" = Some (k_fp (t_stack t)) /\
  (is_some (t_vfit t) = true -> column_of file ("VAR_FUNC" ++ suff) "var_lss" = Some (i_fp (deref t (t_var t))) /\
     column_of file ("VAR_FUNC" ++ suff) "eta" = Some (i_fp (deref t (t_eta t)))).
Proof.
  intros N H. split; [|split].
  - refine (eq_trans (column_In file (mkExt ("CONT" ++ suff) _ [("mean_cont"%string, i_fp (t_cont t)); ("e_mean_cont"%string, i_ep (t_cont t))]) "mean_cont" N _) eq_refl). apply H. unfold save_exts. left. reflexivity.
  - refine (eq_trans (column_In file (mkExt ("STACKED_FLUX" ++ suff) _ [("stacked_flux"%string, k_fp (t_stack t))]) "stacked_flux" N _) eq_refl). apply H. unfold save_exts. right. left. reflexivity.
  - destruct (t_vfit t) as [v|] eqn:E; [|discriminate]. intros _.
    assert (K : In (mkExt ("VAR_FUNC" ++ suff) (v_wave v)
      [("var_lss"%string, i_fp (deref t (t_var t))); ("e_var_lss"%string, i_ep (deref t (t_var t)));
       ("eta"%string, i_fp (deref t (t_eta t))); ("e_eta"%string, i_ep (deref t (t_eta t)))]) file).
    { apply H. unfold save_exts. rewrite E. right. right. right. left. reflexivity. }
    split; [exact (column_In file _ "var_lss" N K)|exact (column_In file _ "eta" N K)].
Qed.
(** the extensions of iteration i + 1 are the tables used in it *)
Lemma used_thm n t l f fitting : 0 < n -> g_outdir g = true -> (forall r, r < n -> shared (t r) /\ is_some (t_vfit (t r)) = fitting) ->
  finishes n (fun r => iterate_a r (t r) (l r)) f ->
  let '(_, _, log, (u, file)) := f 0 in length u = length log /\
  forall i c v e, nth_error u i = Some (c, v, e) ->
    column_of file ("CONT" ++ iteration_suffix (S i)) "mean_cont" = Some (i_fp c) /\
    (fitting = true -> column_of file ("VAR_FUNC" ++ iteration_suffix (S i)) "var_lss" = Some (i_fp v) /\
                       column_of file ("VAR_FUNC" ++ iteration_suffix (S i)) "eta" = Some (i_fp e)).
Proof.
  intros Hn O S F.
  pattern (f 0). match goal with |- ?P (f 0) => refine (leaf_finishes n (fun r => iterate_a r (t r) (l r)) f (fun r x => r = 0 -> P x) _ F 0 Hn eq_refl) end.
  intros r Hr. eapply leaf_weaken; [|exact (iterate_leaf r fitting (t r) (l r) (S r Hr))].
  intros [[[t' l'] log] [u file]] (ts & t1 & L & FT & F1 & -> & V & T & HD & ->) ->. unfold writes. rewrite O. cbn [Nat.eqb andb].
  split; [rewrite map_length; lia|]. intros i c v e H. rewrite nth_error_map in H. destruct (nth_error ts i) as [ti|] eqn:E; [|discriminate H].
  cbn in H. unfold used_of in H. injection H as <- <- <-.
  assert (fine fitting ti) as [[M1 M2] M3] by (rewrite Forall_forall in FT; apply FT; exact (nth_error_In _ _ E)).
  destruct (save_cols (iteration_suffix (Datatypes.S i)) ti _ (nodup_file fitting ts t1 t' FT F1 V)) as (A & _ & B).
  { intros x Hx. apply in_or_app. left. exact (sets_In ts i ti E x Hx). }
  split; [exact A|]. intros ->. rewrite M1, M2. exact (B M3).
Qed.
(** the extensions without number *)
Lemma final_thm n t l f fitting : 0 < n -> g_outdir g = true -> (forall r, r < n -> shared (t r) /\ is_some (t_vfit (t r)) = fitting) ->
  finishes n (fun r => iterate_a r (t r) (l r)) f ->
  let '(t', _, _, (_, file)) := f 0 in
  if fitting
  then column_of file "CONT" "mean_cont" = Some (i_fp (t_cont t')) /\ column_of file "STACKED_FLUX" "stacked_flux" = Some (k_fp (t_stack t')) /\
       column_of file "VAR_FUNC" "var_lss" = Some (i_fp (deref t' (t_var t'))) /\ column_of file "VAR_FUNC" "eta" = Some (i_fp (deref t' (t_eta t')))
  else column_of file "CONT-fit" "mean_cont" = Some (i_fp (t_cont t')) /\ column_of file "STACKED_FLUX-fit" "stacked_flux" = Some (k_fp (t_stack t')) /\
       column_of file "VAR_FUNC-fit" "var_lss" = Some (i_fp (deref t' (t_var t'))) /\ column_of file "VAR_FUNC-fit" "eta" = Some (i_fp (deref t' (t_eta t'))).
Proof.
  intros Hn O S F.
  pattern (f 0). match goal with |- ?P (f 0) => refine (leaf_finishes n (fun r => iterate_a r (t r) (l r)) f (fun r x => r = 0 -> P x) _ F 0 Hn eq_refl) end.
  intros r Hr. eapply leaf_weaken; [|exact (iterate_leaf r fitting (t r) (l r) (S r Hr))].
  intros [[[t' l'] log] [u file]] (ts & t1 & L & FT & F1 & -> & V & T & HD & ->) ->. unfold writes. rewrite O. cbn [Nat.eqb andb].
  pose proof (nodup_file fitting ts t1 t' FT F1 V) as N. destruct fitting.
  - rewrite (T eq_refl) in *. destruct (save_cols "" t1 _ N) as (A & B & C).
    { intros x Hx. apply in_or_app. right. apply in_or_app. now left. }
    destruct (C V) as [C1 C2]. split; [exact A|]. split; [exact B|]. split; [exact C1|exact C2].
  - destruct (save_cols "-fit" t' _ N) as (A & B & C).
    { intros x Hx. apply in_or_app. right. apply in_or_app. right. apply in_or_app. now left. }
    destruct (C V) as [C1 C2]. split; [exact A|]. split; [exact B|]. split; [exact C1|exact C2].
Qed.
(** with fitted variance functions the second to last extension is that of the last iteration *)
Lemma sets_snoc ts t : sets 1 (ts ++ [t]) = sets 1 ts ++ save_exts g (iteration_suffix (S (length ts))) t.
Proof.
  unfold sets. assert (forall k, flat_map (fun x => save_exts g (iteration_suffix (fst x)) (snd x)) (combine (seq k (length (ts ++ [t]))) (ts ++ [t])) =
    flat_map (fun x => save_exts g (iteration_suffix (fst x)) (snd x)) (combine (seq k (length ts)) ts) ++ save_exts g (iteration_suffix (k + length ts)) t) as W; [|apply (W 1)].
  induction ts as [|x ts IH]; intro k.
  - cbn [app length seq combine flat_map fst snd]. now rewrite Nat.add_0_r, app_nil_r.
  - cbn [app length seq combine flat_map fst snd]. rewrite IH. replace (S k + length ts) with (k + S (length ts)) by lia. now rewrite app_assoc.
Qed.
Lemma second_thm n t l f : 0 < n -> g_outdir g = true -> (forall r, r < n -> shared (t r) /\ is_some (t_vfit (t r)) = true) ->
  finishes n (fun r => iterate_a r (t r) (l r)) f ->
  let '(_, _, _, (u, file)) := f 0 in
  forall c v e, nth_error (rev u) 0 = Some (c, v, e) ->
    (exists x, nth_error (rev (exts_of "CONT" file)) 1 = Some x /\ dget "mean_cont" (x_cols x) = Some (i_fp c)) /\
    (exists x, nth_error (rev (exts_of "VAR_FUNC" file)) 1 = Some x /\ dget "var_lss" (x_cols x) = Some (i_fp v) /\ dget "eta" (x_cols x) = Some (i_fp e)).
Proof.
  intros Hn O S F.
  pattern (f 0). match goal with |- ?P (f 0) => refine (leaf_finishes n (fun r => iterate_a r (t r) (l r)) f (fun r x => r = 0 -> P x) _ F 0 Hn eq_refl) end.
  intros r Hr. eapply leaf_weaken; [|exact (iterate_leaf r true (t r) (l r) (S r Hr))].
  intros [[[t' l'] log] [u file]] (ts & t1 & L & FT & [_ F1] & -> & V & T & HD & ->) ->. unfold writes. rewrite O. cbn [Nat.eqb andb].
  intros c v e H. destruct ts as [|tl ts0 _] using rev_ind; [discriminate H|]. rewrite map_app, rev_app_distr in H. cbn in H. unfold used_of in H. injection H as <- <- <-.
  apply Forall_app in FT. destruct FT as [_ FT]. inversion FT as [|? ? [[M1 M2] M3] _]; subst. rewrite sets_snoc. rewrite M1, M2.
  destruct (t_vfit tl) as [vl|] eqn:EL; [|discriminate M3]. destruct (t_vfit t1) as [v1|] eqn:E1; [|discriminate F1].
  split.
  - unfold exts_of. rewrite !filter_app, !rev_app_distr. unfold save_exts at 1 2. rewrite EL, E1. cbn -[iteration_suffix]. eexists. split; reflexivity.
  - unfold exts_of. rewrite !filter_app, !rev_app_distr. unfold save_exts at 1 2. rewrite EL, E1. cbn -[iteration_suffix]. eexists. split; [reflexivity|split; reflexivity].
Qed.
Lemma no_var_func_thm n t l f : (forall r, r < n -> shared (t r) /\ t_vfit (t r) = None) ->
  finishes n (fun r => iterate_a r (t r) (l r)) f -> forall r, r < n -> let '(_, _, _, (_, file)) := f r in forall col, column_of file "VAR_FUNC" col = None.
Proof.
  intros S F r Hr. assert (S' : forall r, r < n -> shared (t r) /\ is_some (t_vfit (t r)) = false).
  { intros q Hq. destruct (S q Hq) as [A B]. rewrite B. now split. }
  pose proof (names_thm n t l f false S' F r Hr) as K. destruct (f r) as [[[t' l'] log] [u file]]. intro col. unfold column_of.
  rewrite find_absent; [easy|]. rewrite K. destruct (writes r); [|easy]. unfold attribute_names. change suffix_of with iteration_suffix. intro H. 
  apply in_app_or in H. destruct H as [H|H].
  - apply in_flat_map in H. destruct H as (i & _ & H). cbn in H. intuition discriminate.
  - cbn in H. intuition discriminate.
Qed.
Lemma same_program_thm n t l : spmd n (fun r => iterate r (t r) (l r)) = forget (spmd n (fun r => iterate_a r (t r) (l r))).
Proof. rewrite <- fg_spmd. symmetry. apply spmd_peq. intros r Hr. apply erase_thm. Qed.
Lemma depends_thm t t' sx : used_of t = used_of t' -> fit_one g ev meanflux slope minimizer input_cont true_cont t sx =
  fit_one g ev meanflux slope minimizer input_cont true_cont t' sx.
Proof. unfold used_of. intro H. injection H as A B C. unfold fit_one. destruct sx as [s x]. now rewrite A, B, C. Qed.
End Attributes.

(** the tables of the first iteration *)
Lemma start_thm g rank o : leaf (fun mt => shared (snd mt) /\ is_some (t_vfit (snd mt)) = negb (is_some (o_varlss o)) /\
    i_fp (t_cont (snd mt)) = repeat n1 (length (g_rfwave g)) /\
    (o_varlss o = None -> i_fp (deref (snd mt) (t_var (snd mt))) = repeat (Fin (fq 1 10)) (g_nw g)) /\
    Forall (fun x => x = n1) (i_fp (deref (snd mt) (t_eta (snd mt))))) (fitter_init g rank o).
Proof.
  unfold fitter_init. apply leaf_bind_any. intro rf0. cbv zeta. apply leaf_bind_any. intro k. apply leaf_bind_any. intro mf.
  apply (leaf_bind (fun vi => is_some (fst vi) = negb (is_some (o_varlss o)) /\ (o_varlss o = None -> i_fp (snd vi) = repeat (Fin (fq 1 10)) (g_nw g)))).
  - destruct (o_varlss o) as [file|].
    + apply leaf_bind_any. intro i. cbn. split; [reflexivity|discriminate].
    + cbn [negb is_some]. apply (leaf_bind (fun i => i_fp i = repeat (Fin (fq 1 10)) (g_nw g))).
      * apply leaf_res. intros i E. unfold construct_interp in E. destruct (rfirst _); [|discriminate E]. cbn in E. injection E as <-. reflexivity.
      * intros i Hi. cbn. now split.
  - intros [vf i] [A B]. cbn in *. split; [now split|]. split; [exact A|]. split; [reflexivity|]. split; [exact B|].
    apply Forall_forall. intros x Hx. apply in_map_iff in Hx. now destruct Hx as (? & <- & _).
Qed.
Lemma fit_inputs_thm g ev meanflux slope minimizer input_cont true_cont t t' sx :
  t_cont t = t_cont t' -> deref t (t_mvar t) = deref t' (t_mvar t') -> deref t (t_meta t) = deref t' (t_meta t') ->
  fit_one g ev meanflux slope minimizer input_cont true_cont t sx = fit_one g ev meanflux slope minimizer input_cont true_cont t' sx.
Proof. intros A B C. apply depends_thm. unfold used_of. now rewrite A, B, C. Qed.
Lemma start_all g n o f : finishes n (fun r => fitter_init g r o) f -> forall r, r < n -> let t := snd (f r) in
  shared t /\ (t_vfit t = None <-> o_varlss o <> None) /\ i_fp (t_cont t) = repeat n1 (length (g_rfwave g)) /\
  (o_varlss o = None -> i_fp (deref t (t_var t)) = repeat (Fin (fq 1 10)) (g_nw g)) /\ (forall x, In x (i_fp (deref t (t_eta t))) -> x = n1).
Proof.
  intros F r Hr. destruct (leaf_finishes n _ f _ (fun r _ => start_thm g r o) F r Hr) as (A & B & C & D & E). split; [exact A|]. split.
  - destruct (t_vfit (snd (f r))), (o_varlss o); cbn in B; try discriminate B; split; intro H; try easy; now contradiction H.
  - split; [exact C|]. split; [exact D|]. now apply Forall_forall.
Qed.
