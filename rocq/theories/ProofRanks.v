(** Stacking does not depend on how the spectra are distributed over the ranks (C69). *)
From Coq Require Import ZArith String List Bool Arith Lia Qcanon Permutation.
From Verif Require Import Num NpList Exn Dict Mpi ModelSpectrum ModelStack ModelVarFit SpecFinal SpecRanks ProofMpi ProofMpi2 ProofStack ProofAttributes.
Import ListNotations.
Local Open Scope nat_scope.

(** ** Addition of numbers with nan and infinities, and of arrays *)
Lemma nadd_comm a b : nadd a b = nadd b a.
Proof. destruct a, b; cbn; try reflexivity. f_equal. ring. Qed.
Lemma nadd_assoc a b c : nadd a (nadd b c) = nadd (nadd a b) c.
Proof. destruct a, b, c; cbn; try reflexivity. f_equal. ring. Qed.
Lemma nadd_0 a : nadd n0 a = a.
Proof. destruct a; cbn; try reflexivity. f_equal. ring. Qed.

Lemma arr_comm a : forall b, arr_sum a b = arr_sum b a.
Proof. unfold arr_sum. induction a as [|x a IH]; intros [|y b]; cbn; try reflexivity. now rewrite IH, nadd_comm. Qed.
Lemma arr_assoc a : forall b c, arr_sum a (arr_sum b c) = arr_sum (arr_sum a b) c.
Proof. unfold arr_sum. induction a as [|x a IH]; intros [|y b] [|z c]; cbn; try reflexivity. now rewrite IH, nadd_assoc. Qed.
Definition zeros (n : nat) : arr := repeat n0 n.
Lemma arr_0 a : arr_sum (zeros (length a)) a = a.
Proof. unfold arr_sum, zeros. induction a as [|x a IH]; cbn [map2 repeat length]; [reflexivity|]. now rewrite IH, nadd_0. Qed.
Lemma arr_len a b : length a = length b -> length (arr_sum a b) = length a.
Proof. apply map2_same_length. Qed.
Lemma zip2_Ok {A B C} (f : A -> B -> C) a b c : zip2 f a b = Ok c -> length a = length b /\ c = map2 f a b.
Proof.
  unfold zip2. destruct (Nat.eqb_spec (length a) (length b)) as [E|E]; cbn; [|discriminate]. intros [= <-]. now split.
Qed.
Lemma zip2_eq {A B C} (f : A -> B -> C) a b : length a = length b -> zip2 f a b = Ok (map2 f a b).
Proof. unfold zip2. intros ->. now rewrite Nat.eqb_refl. Qed.

(** ** The four arrays of a stacker *)
Record quad := Quad { q1 : arr; q2 : arr; q3 : arr; q4 : arr }.
Definition sums (k : stacker) : quad := Quad (k_fp k) (k_ep k) (k_rfp k) (k_rep k).
Definition put (q : quad) (k : stacker) : stacker := set_sums (q1 q) (q2 q) (q3 q) (q4 q) k.
Definition plus (p q : quad) : quad := Quad (arr_sum (q1 p) (q1 q)) (arr_sum (q2 p) (q2 q)) (arr_sum (q3 p) (q3 q)) (arr_sum (q4 p) (q4 q)).
Definition lens (q : quad) := (length (q1 q), length (q2 q), length (q3 q), length (q4 q)).
Definition zero (q : quad) : quad := Quad (zeros (length (q1 q))) (zeros (length (q2 q))) (zeros (length (q3 q))) (zeros (length (q4 q))).
Lemma plus_comm p q : plus p q = plus q p.
Proof. unfold plus. f_equal; apply arr_comm. Qed.
Lemma plus_assoc p q r : plus p (plus q r) = plus (plus p q) r.
Proof. unfold plus. cbn. f_equal; apply arr_assoc. Qed.
Lemma plus_0 p q : lens p = lens q -> plus (zero p) q = q.
Proof.
  destruct p, q; unfold lens, plus, zero; cbn. intros [= -> -> -> ->]. now rewrite !arr_0.
Qed.
Lemma plus_lens p q : lens p = lens q -> lens (plus p q) = lens p.
Proof. destruct p, q; unfold lens, plus; cbn. intros [= A B C D]. now rewrite !arr_len. Qed.
Lemma zero_lens p : lens (zero p) = lens p.
Proof. unfold lens, zero, zeros; cbn. now rewrite !repeat_length. Qed.
Lemma zero_zero p q : lens p = lens q -> zero p = zero q.
Proof. unfold lens, zero. intros [= -> -> -> ->]. reflexivity. Qed.
Lemma put_sums q k : sums (put q k) = q. Proof. now destruct q. Qed.
Lemma put_put p q k : put p (put q k) = put p k. Proof. reflexivity. Qed.
Lemma put_self k : put (sums k) k = k. Proof. now destruct k. Qed.
Lemma map_zeros {A} (a : list A) : map (fun _ => n0) a = zeros (length a).
Proof. unfold zeros. induction a; cbn; congruence. Qed.
Lemma reset_put k : stacker_reset k = put (zero (sums k)) k.
Proof. unfold stacker_reset, put, zero. cbn. now rewrite !map_zeros. Qed.

(** ** Stacking adds arrays that depend on the spectrum only *)
Definition additive (K : stacker) (F : stacker -> res stacker) (b : quad) : Prop :=
  lens b = lens (sums K) /\ forall q, lens q = lens (sums K) -> F (put q K) = Ok (put (plus q b) K).
Lemma iadd_Ok a b c : arr_iadd a b = Ok c -> length a = length b.
Proof. intro H. now apply zip2_Ok in H. Qed.
Lemma iadd_eq a b : length a = length b -> arr_iadd a b = Ok (arr_sum a b).
Proof. apply zip2_eq. Qed.
Lemma add_additive w wr a b c K q k' : lens q = lens (sums K) -> stacker_add w wr a b c (put q K) = Ok k' ->
  exists d, additive K (stacker_add w wr a b c) d.
Proof.
  intros L H. unfold stacker_add in H. cbn [put set_sums k_w0 k_dw k_n k_rf0 k_drf k_nrf k_fp k_ep k_rfp k_rep] in H.
  apply rbind_Ok in H as (b1 & E1 & H). apply rbind_Ok in H as (f1 & F1 & H).
  apply rbind_Ok in H as (b2 & E2 & H). apply rbind_Ok in H as (f2 & F2 & H).
  apply rbind_Ok in H as (b3 & E3 & H). apply rbind_Ok in H as (f3 & F3 & H).
  apply rbind_Ok in H as (b4 & E4 & H). apply rbind_Ok in H as (f4 & F4 & H).
  apply iadd_Ok in F1, F2, F3, F4. clear H.
  exists (Quad b1 b2 b3 b4). unfold additive. unfold lens in L |- *. cbn in L |- *. injection L as L1 L2 L3 L4.
  split; [congruence|]. intros p [= P1 P2 P3 P4].
  unfold stacker_add. cbn [put set_sums k_w0 k_dw k_n k_rf0 k_drf k_nrf k_fp k_ep k_rfp k_rep].
  rewrite E1. cbn [rbind]. rewrite iadd_eq by congruence. cbn [rbind].
  rewrite E2. cbn [rbind]. rewrite iadd_eq by congruence. cbn [rbind].
  rewrite E3. cbn [rbind]. rewrite iadd_eq by congruence. cbn [rbind].
  rewrite E4. cbn [rbind]. rewrite iadd_eq by congruence. cbn [rbind]. reflexivity.
Qed.
Lemma for_each_additive {X} (body : X -> stacker -> res stacker) K :
  (forall x q k', lens q = lens (sums K) -> body x (put q K) = Ok k' -> exists d, additive K (body x) d) ->
  forall l q k', lens q = lens (sums K) -> for_each l body (put q K) = Ok k' -> exists d, additive K (for_each l body) d.
Proof.
  intros HB l. induction l as [|x l IH]; intros q k' L H.
  - exists (zero (sums K)). split; [apply zero_lens|]. intros p P. cbn. rewrite plus_comm.
    rewrite (zero_zero (sums K) p) by (now symmetry). now rewrite plus_0.
  - cbn [for_each] in H. apply rbind_Ok in H as (k1 & E1 & H).
    destruct (HB x q k1 L E1) as (d & D1 & D2). rewrite (D2 q L) in E1. injection E1 as <-.
    assert (lens (plus q d) = lens (sums K)) as L' by (rewrite plus_lens; congruence).
    destruct (IH _ _ L' H) as (e & G1 & G2). exists (plus d e). split; [rewrite plus_lens; congruence|].
    intros p P. cbn [for_each]. rewrite (D2 p P). cbn [rbind]. rewrite G2 by (rewrite plus_lens; congruence).
    now rewrite plus_assoc.
Qed.
Section Stacking.
Variable residual : bool.
Lemma spec_additive s K q k' : lens q = lens (sums K) -> stack_spec residual s (put q K) = Ok k' ->
  exists d, additive K (stack_spec residual s) d.
Proof.
  unfold stack_spec. apply for_each_additive. clear q k'. intros aw q k' L H.
  destruct (rget (fst aw) (s_cont s)) as [cont|]; [|discriminate H]. cbn [rbind] in *.
  destruct (rget (fst aw) (fweight (s_f s))) as [wt|]; [|discriminate H]. cbn [rbind] in *.
  destruct (rget (fst aw) (ff (s_f s))) as [fl|]; [|discriminate H]. cbn [rbind] in *.
  unfold stack_arm in *.
  destruct (zip2 nmul wt (map nsq cont)) as [we|]; [|discriminate H]. cbn [rbind] in *.
  destruct (zip2 nmul we fl) as [wf|]; [|discriminate H]. cbn [rbind] in *.
  destruct (zip2 ndiv wf cont) as [wd|]; [|discriminate H]. cbn [rbind] in *.
  destruct (if residual then Ok wd else zip2 nmul we cont) as [wc|]; [|discriminate H]. cbn [rbind] in *.
  exact (add_additive _ _ _ _ _ _ _ _ L H).
Qed.
(** what one spectrum adds *)
Definition part (K : stacker) (s : spec) : quad :=
  match stack_spec residual s (put (zero (sums K)) K) with
  | Ok k => if list_eq_dec Nat.eq_dec [length (k_fp k); length (k_ep k); length (k_rfp k); length (k_rep k)]
                 [length (k_fp K); length (k_ep K); length (k_rfp K); length (k_rep K)]
            then sums k else zero (sums K)
  | Err _ => zero (sums K) end.
Lemma part_lens K s : lens (part K s) = lens (sums K).
Proof.
  unfold part. destruct (stack_spec residual s _) as [k|e]; [|apply zero_lens]. destruct (list_eq_dec _ _ _) as [E|E]; [|apply zero_lens].
  unfold lens. cbn. now injection E as -> -> -> ->.
Qed.
Lemma part_spec K s q k' : lens q = lens (sums K) -> stack_spec residual s (put q K) = Ok k' -> k' = put (plus q (part K s)) K.
Proof.
  intros L H. destruct (spec_additive _ _ _ _ L H) as (d & D1 & D2).
  assert (part K s = d) as ->; [|rewrite (D2 q L) in H; now injection H as <-].
  unfold part. rewrite D2 by apply zero_lens. rewrite plus_0 by now symmetry.
  destruct (list_eq_dec _ _ _) as [E|E]; [apply put_sums|]. exfalso. apply E.
  unfold lens in D1. cbn in D1. cbn. injection D1 as -> -> -> ->. reflexivity.
Qed.
Definition total (K : stacker) (l : list spec) : quad := fold_right (fun s q => plus (part K s) q) (zero (sums K)) (valid_spectra l).
Lemma total_lens K l : lens (total K l) = lens (sums K).
Proof.
  unfold total. induction (valid_spectra l) as [|s v IH]; cbn; [apply zero_lens|]. rewrite plus_lens; rewrite part_lens; congruence.
Qed.
Lemma stack_total K l : forall q k', lens q = lens (sums K) -> stack_spectra residual l (put q K) = Ok k' -> k' = put (plus q (total K l)) K.
Proof.
  unfold stack_spectra, total. induction (valid_spectra l) as [|s v IH]; intros q k' L H.
  - cbn in H. injection H as <-. cbn. f_equal. rewrite plus_comm. rewrite (zero_zero (sums K) q) by now symmetry. now rewrite plus_0.
  - cbn [for_each] in H. apply rbind_Ok in H as (k1 & E1 & H). apply part_spec in E1; [|assumption]. subst k1.
    apply IH in H; [|rewrite plus_lens by (rewrite part_lens; congruence); congruence]. cbn [fold_right]. now rewrite plus_assoc.
Qed.
Lemma stack_from_reset K l k' : stack_spectra residual l (stacker_reset K) = Ok k' -> k' = put (total K l) K.
Proof.
  rewrite reset_put. intro H. apply stack_total in H; [|apply zero_lens]. subst k'. f_equal.
  apply plus_0. symmetry. apply total_lens.
Qed.
Lemma total_app K l l' : total K (l ++ l') = plus (total K l) (total K l').
Proof.
  pose proof (total_lens K l') as L. unfold total in *. unfold valid_spectra in *. rewrite filter_app.
  induction (filter s_valid l) as [|s v IH]; cbn [app fold_right].
  - symmetry. now apply plus_0.
  - now rewrite IH, plus_assoc.
Qed.
Lemma filter_perm {A} (p : A -> bool) l l' : Permutation l l' -> Permutation (filter p l) (filter p l').
Proof.
  induction 1 as [|x l l' H IH|x y l|l l' l'' H1 IH1 H2 IH2]; cbn; [constructor| | |now transitivity (filter p l')].
  - destruct (p x); [now constructor|assumption].
  - destruct (p x), (p y); try reflexivity. constructor.
Qed.
Lemma total_perm K l l' : Permutation l l' -> total K l = total K l'.
Proof.
  intro H. apply (filter_perm s_valid) in H. unfold total, valid_spectra.
  induction H as [|x l1 l2 H IH|x y l1|l1 l2 l3 H1 IH1 H2 IH2]; cbn [fold_right]; [reflexivity|congruence| |congruence].
  rewrite !plus_assoc. f_equal. apply plus_comm.
Qed.
Lemma fold_total K (ls : nat -> list spec) rs : forall l0,
  fold_left plus (map (fun r => total K (ls r)) rs) (total K l0) = total K (l0 ++ concat (map ls rs)).
Proof.
  induction rs as [|r rs IH]; intro l0; cbn [map fold_left concat].
  - now rewrite app_nil_r.
  - rewrite <- total_app, IH. now rewrite <- app_assoc.
Qed.
End Stacking.

Lemma fold_q1 l : forall q, q1 (fold_left plus l q) = fold_left arr_sum (map q1 l) (q1 q).
Proof. induction l as [|p l IH]; intro q; cbn; [reflexivity|]. now rewrite IH. Qed.
Lemma fold_q2 l : forall q, q2 (fold_left plus l q) = fold_left arr_sum (map q2 l) (q2 q).
Proof. induction l as [|p l IH]; intro q; cbn; [reflexivity|]. now rewrite IH. Qed.
Lemma fold_q3 l : forall q, q3 (fold_left plus l q) = fold_left arr_sum (map q3 l) (q3 q).
Proof. induction l as [|p l IH]; intro q; cbn; [reflexivity|]. now rewrite IH. Qed.
Lemma fold_q4 l : forall q, q4 (fold_left plus l q) = fold_left arr_sum (map q4 l) (q4 q).
Proof. induction l as [|p l IH]; intro q; cbn; [reflexivity|]. now rewrite IH. Qed.

(** ** Inversion of runs that finish *)
Lemma finishes_ret {V A} n (x f : nat -> A) : finishes n (fun r => @Ret V A (x r)) f -> forall r, r < n -> f r = x r.
Proof.
  unfold finishes. rewrite spmd_ret. intros [= E] r Hr.
  assert (nth_error (map (fun r => Finished (x r)) (seq 0 n)) r = nth_error (map (fun r => Finished (f r)) (seq 0 n)) r) as H by now rewrite E.
  rewrite !nth_error_map in H. assert (nth_error (seq 0 n) r = Some r) as Er.
  { rewrite (nth_error_nth' _ 0) by now rewrite seq_length. now rewrite seq_nth. }
  rewrite Er in H. cbn in H. congruence.
Qed.
Lemma finishes_peq {V A} n (p q : nat -> prog V A) f : (forall r, r < n -> peq (p r) (q r)) -> finishes n p f -> finishes n q f.
Proof. unfold finishes. intros H <-. symmetry. now apply spmd_peq. Qed.
Lemma finishes_ext {V A} n (p q : nat -> prog V A) f : (forall r, r < n -> p r = q r) -> finishes n p f -> finishes n q f.
Proof. unfold finishes. intros H <-. symmetry. now apply spmd_ext. Qed.
Lemma finishes_all {V A} n op (v : nat -> V) (k : nat -> V -> prog V A) f : 1 <= n -> finishes n (fun r => Allreduce op (v r) (k r)) f ->
  finishes n (fun r => k r (fold_left op (map v (seq 1 (n - 1))) (v 0))) f.
Proof. unfold finishes. intros Hn H. now rewrite spmd_allreduce in H by assumption. Qed.
Lemma finishes_res {V A B} n (x : nat -> res A) (k : nat -> A -> prog V B) f : 1 <= n -> finishes n (fun r => pbind (of_res (x r)) (k r)) f ->
  exists y, (forall r, r < n -> x r = Ok (y r)) /\ finishes n (fun r => k r (y r)) f.
Proof.
  intros Hn H.
  assert (forall r, r < n -> exists a, x r = Ok a) as E.
  { intros r Hr. refine (leaf_finishes n _ f (fun r _ => exists a, x r = Ok a) _ H r Hr). intros r' _.
    destruct (x r') as [a|e]; cbn; [|exact I]. apply (leaf_weaken (fun _ => True)); [intros; now exists a|apply leaf_true]. }
  destruct (E 0) as (a0 & _); [lia|].
  exists (fun r => match x r with Ok a => a | Err _ => a0 end). split.
  - intros r Hr. destruct (E r Hr) as (a & ->). reflexivity.
  - refine (finishes_ext n _ _ f _ H). intros r Hr. destruct (E r Hr) as (a & ->). reflexivity.
Qed.
Lemma finishes_const {V A B} n (x : res A) (k : nat -> A -> prog V B) f : 1 <= n -> finishes n (fun r => pbind (of_res x) (k r)) f ->
  exists y, x = Ok y /\ finishes n (fun r => k r y) f.
Proof.
  intros Hn H. apply (finishes_res n (fun _ => x)) in H as (y & E & H); [|assumption]. exists (y 0). split; [apply E; lia|].
  refine (finishes_ext n _ _ f _ H). intros r Hr. f_equal. pose proof (E r Hr) as E1. pose proof (E 0 ltac:(lia)) as E2. congruence.
Qed.
Lemma finishes_raise {V A} n e f : 1 <= n -> finishes n (fun _ => @Raise V A e) f -> False.
Proof.
  intros Hn H. unfold finishes in H. rewrite spmd_raise in H by assumption. destruct n as [|n]; [lia|]. discriminate H.
Qed.
Lemma lift_res {W V A B} (inj : W -> V) (prj : V -> W) (x : res A) (c : A -> prog W B) :
  lift inj prj (pbind (of_res x) c) = pbind (of_res x) (fun a => lift inj prj (c a)).
Proof. now destruct x. Qed.
Lemma lift_bind {W V A B} (inj : W -> V) (prj : V -> W) (p : prog W A) (c : A -> prog W B) :
  peq (lift inj prj (pbind p c)) (pbind (lift inj prj p) (fun a => lift inj prj (c a))).
Proof. induction p; cbn; try constructor; auto using @peq_refl. Qed.

(** ** Distribution of a list *)
Lemma rseq_F2 {A B} (f : A -> res B) l : forall l', rseq (map f l) = Ok l' <-> Forall2 (fun x y => f x = Ok y) l l'.
Proof.
  induction l as [|x l IH]; intro l'; cbn [map rseq].
  - split; [intros [= <-]; constructor|]. intro H. now inversion H.
  - split.
    + intro H. apply rbind_Ok in H as (y & E & H). destruct (rseq (map f l)) as [r|e] eqn:R; [|discriminate]. cbn in H.
      injection H as <-. constructor; [assumption|]. now apply IH.
    + intro H. inversion H as [|? y ? r E R]; subst. rewrite E. cbn [rbind]. apply IH in R. now rewrite R.
Qed.
Lemma F2_concat {A B} (R : A -> B -> Prop) (l : nat -> list A) (l' : nat -> list B) rs : (forall r, In r rs -> Forall2 R (l r) (l' r)) ->
  Forall2 R (concat (map l rs)) (concat (map l' rs)).
Proof.
  induction rs as [|r rs IH]; cbn; intro H; [constructor|]. apply Forall2_app; [apply H; now left|]. apply IH. intros x Hx. apply H. now right.
Qed.
Lemma F2_det {A B} (f : A -> res B) l : forall l1 l2, Forall2 (fun x y => f x = Ok y) l l1 -> Forall2 (fun x y => f x = Ok y) l l2 -> l1 = l2.
Proof.
  induction l as [|x l IH]; intros l1 l2 H1 H2; inversion H1; inversion H2; subst; [reflexivity|]. f_equal; [congruence|]. now apply IH.
Qed.
Lemma rseq_perm {A B} (f : A -> res B) n m (l l1 : nat -> _) (h h1 : nat -> _) : Permutation (gathered n l) (gathered m h) ->
  (forall r, r < n -> rseq (map f (l r)) = Ok (l1 r)) -> (forall r, r < m -> rseq (map f (h r)) = Ok (h1 r)) ->
  Permutation (gathered n l1) (gathered m h1).
Proof.
  intros P H1 H2.
  assert (Forall2 (fun x y => f x = Ok y) (gathered n l) (gathered n l1)) as F1.
  { apply F2_concat. intros r Hr. apply in_seq in Hr. apply rseq_F2, H1. lia. }
  assert (Forall2 (fun x y => f x = Ok y) (gathered m h) (gathered m h1)) as F2.
  { apply F2_concat. intros r Hr. apply in_seq in Hr. apply rseq_F2, H2. lia. }
  destruct (Permutation_Forall2 P F1) as (l2 & P2 & F3). rewrite P2. now rewrite (F2_det _ _ _ _ F3 F2).
Qed.
Lemma gathered_map {A B} (f : A -> B) n l : gathered n (fun r => map f (l r)) = map f (gathered n l).
Proof. unfold gathered. rewrite concat_map, map_map. reflexivity. Qed.
