(** Proofs about balance_load. *)
From Coq Require Import ZArith List Bool Arith Lia Permutation Sorting.Sorted.
From Verif Require Import NpList NpListFacts ModelMpiUtils.
Import ListNotations.
Local Open Scope nat_scope.

Section Balance.
Context {A : Type}.
Implicit Types cats q : list (list A).

(** number of rows in a queue *)
Definition qload (q : list (list A)) : nat := length (concat q).

Lemma qload_app q c : qload (q ++ [c]) = qload q + length c.
Proof. unfold qload. rewrite concat_app, app_length. cbn. rewrite app_nil_r. lia. Qed.

Lemma concat_upd_perm (qs : list (list (list A))) i c :
  i < length qs -> Permutation (concat (upd i (fun q => q ++ [c]) qs)) (c :: concat qs).
Proof.
  revert i; induction qs as [|q qs IH]; intros [|i] H; cbn in *; try lia.
  - rewrite <- app_assoc. cbn. symmetry. apply Permutation_middle.
  - rewrite IH by lia. symmetry. apply Permutation_middle.
Qed.

Record binv (n M : nat) (done : list (list A))
  (st : list Z * list (list (list A))) : Prop := {
  bi_len1 : length (fst st) = n;
  bi_len2 : length (snd st) = n;
  bi_load : forall i q, nth_error (snd st) i = Some q ->
                        nth_error (fst st) i = Some (Z.of_nat (qload q));
  bi_perm : Permutation (concat (snd st)) done;
  bi_fair : forall q1 q2, In q1 (snd st) -> In q2 (snd st) -> qload q1 <= qload q2 + M;
  bi_two : (forall c, In c done -> c <> []) ->
           forall q1 q2, In q1 (snd st) -> In q2 (snd st) -> 2 <= length q1 -> q2 <> [] }.

Lemma In_upd (i : nat) (f : list (list A) -> list (list A)) l x :
  In x (upd i f l) -> In x l \/ exists y, nth_error l i = Some y /\ x = f y.
Proof.
  intro H. apply In_nth_error in H. destruct H as [k Hk].
  rewrite nth_error_upd in Hk. destruct (Nat.eqb_spec k i) as [Ek|E].
  - subst k. destruct (nth_error l i) as [y|] eqn:Ey; [|easy].
    right. exists y. cbn in Hk. split; congruence.
  - left. eapply nth_error_In; eauto.
Qed.

Lemma binv_step n M done st c :
  1 <= n -> length c <= M -> binv n M done st -> binv n M (done ++ [c]) (balance_step st c).
Proof.
  intros Hn Hc [L1 L2 Lo P F T]. destruct st as [loads qs]. cbn in *.
  assert (loads <> []) as Hne by (intro; subst loads; cbn in *; lia).
  destruct (argmin_spec loads Hne) as (v & Hv & Hmin).
  remember (argmin loads) as i eqn:Ei. clear Ei.
  assert (i < length qs) as Hi.
  { rewrite L2, <- L1. apply nth_error_Some. congruence. }
  destruct (nth_error qs i) as [qi|] eqn:Eq; [|apply nth_error_None in Eq; lia].
  assert (v = Z.of_nat (qload qi)) as Ev.
  { specialize (Lo _ _ Eq). congruence. }
  assert (forall q, In q qs -> qload qi <= qload q) as Hleast.
  { intros q Hq. apply In_nth_error in Hq. destruct Hq as [k Hk].
    specialize (Lo _ _ Hk). apply nth_error_In in Lo. specialize (Hmin _ Lo). lia. }
  split; cbn.
  - now rewrite upd_length.
  - now rewrite upd_length.
  - intros k q Hk. rewrite nth_error_upd in Hk. rewrite nth_error_upd.
    destruct (Nat.eqb_spec k i) as [Ek|E].
    + subst k. rewrite Eq in Hk. cbn in Hk. injection Hk as <-. rewrite Hv. cbn.
      rewrite Ev, qload_app. f_equal. lia.
    + now apply Lo.
  - rewrite concat_upd_perm by easy.
    rewrite P. apply Permutation_cons_append.
  - intros q1 q2 H1 H2.
    apply In_upd in H1. apply In_upd in H2.
    destruct H1 as [H1|(y1 & E1 & ->)], H2 as [H2|(y2 & E2 & ->)].
    + now apply F.
    + rewrite Eq in E2. injection E2 as <-. rewrite qload_app.
      assert (qload q1 <= qload qi + M) by (apply F; [easy|eapply nth_error_In; eauto]).
      lia.
    + rewrite Eq in E1. injection E1 as <-. rewrite qload_app.
      specialize (Hleast _ H2). lia.
    + rewrite E1 in E2. injection E2 as <-. lia.
  - intros Hall q1 q2 H1 H2 Hl.
    assert (forall c, In c done -> c <> []) as Hd.
    { intros x Hx. apply Hall, in_app_iff. now left. }
    specialize (T Hd).
    apply In_upd in H1. apply In_upd in H2.
    destruct H2 as [H2|(y2 & E2 & ->)]; [|destruct y2; discriminate].
    destruct H1 as [H1|(y1 & E1 & ->)]; [now apply (T q1)|].
    rewrite Eq in E1. injection E1 as <-.
    rewrite app_length in Hl. cbn in Hl.
    destruct qi as [|c0 qi]; [cbn in Hl; lia|].
    assert (1 <= qload (c0 :: qi)) as Hpos.
    { assert (In c0 done) as H0.
      { eapply Permutation_in; [exact P|]. apply in_concat. exists (c0 :: qi).
        split; [eapply nth_error_In; eauto|now left]. }
      specialize (Hd _ H0). unfold qload. cbn. rewrite app_length.
      destruct c0; [easy|cbn; lia]. }
    specialize (Hleast _ H2). intros ->. unfold qload in *. cbn in Hleast. cbn in Hpos. lia.
Qed.

Lemma binv_fold n M cats done st :
  1 <= n -> (forall c, In c cats -> length c <= M) -> binv n M done st ->
  binv n M (done ++ cats) (fold_left balance_step cats st).
Proof.
  intro Hn. revert done st. induction cats as [|c cats IH]; intros done st Hc Hb; cbn.
  - now rewrite app_nil_r.
  - replace (done ++ c :: cats) with ((done ++ [c]) ++ cats) by now rewrite <- app_assoc.
    apply IH; [intros; apply Hc; now right|].
    apply binv_step; auto. apply Hc. now left.
Qed.

Lemma binv_init n M : binv n M [] (repeat 0%Z n, repeat [] n).
Proof.
  split; cbn.
  - apply repeat_length.
  - apply repeat_length.
  - intros i q H. assert (i < n) as Hi.
    { rewrite <- (repeat_length (@nil (list A)) n). apply nth_error_Some. congruence. }
    rewrite nth_error_repeat in * by easy. injection H as <-. reflexivity.
  - induction n; cbn; auto.
  - intros q1 q2 H1 H2. apply repeat_spec in H1, H2. subst. cbn. lia.
  - intros _ q1 q2 H1 H2 Hl. apply repeat_spec in H1. subst. cbn in Hl. lia.
Qed.

Lemma binv_final cats n M :
  1 <= n -> (forall c, In c cats -> length c <= M) ->
  exists loads, exists done, Permutation done cats /\
    binv n M done (loads, balance_load cats n).
Proof.
  intros Hn Hc. unfold balance_load. set (s := isort _ cats).
  assert (Permutation s cats) as Hp by apply isort_perm.
  assert (binv n M s (fold_left balance_step s (repeat 0%Z n, repeat [] n))) as B.
  { apply (binv_fold n M s []); [easy| |apply binv_init].
    intros c Hi. apply Hc. eapply Permutation_in; eauto. }
  destruct (fold_left balance_step s _) as [loads qs]. exists loads, s. auto.
Qed.

Lemma balance_load_permutation cats n :
  1 <= n -> length (balance_load cats n) = n /\ Permutation (concat (balance_load cats n)) cats.
Proof.
  intro Hn. destruct (binv_final cats n (list_max (map (@length A) cats)) Hn) as (l & d & P & B).
  - intros c Hc. assert (Forall (fun k => k <= list_max (map (@length A) cats)) (map (@length A) cats)) as F.
    { now apply list_max_le. }
    rewrite Forall_forall in F. apply F. now apply in_map.
  - destruct B as [_ L2 _ P2 _ _]. cbn in *. split; [easy|]. now rewrite P2.
Qed.

Lemma balance_load_fair cats n M :
  1 <= n -> (forall c, In c cats -> length c <= M) ->
  forall q1 q2, In q1 (balance_load cats n) -> In q2 (balance_load cats n) ->
    length (concat q1) <= length (concat q2) + M.
Proof.
  intros Hn Hc. destruct (binv_final cats n M Hn Hc) as (l & d & P & B).
  intros q1 q2 H1 H2. now apply (bi_fair _ _ _ _ B).
Qed.

Lemma balance_load_no_idle cats n :
  1 <= n -> (forall c, In c cats -> c <> []) ->
  forall q1 q2, In q1 (balance_load cats n) -> In q2 (balance_load cats n) ->
    2 <= length q1 -> q2 <> [].
Proof.
  intros Hn Hne. destruct (binv_final cats n (list_max (map (@length A) cats)) Hn) as (l & d & P & B).
  - intros c Hc. assert (Forall (fun k => k <= list_max (map (@length A) cats)) (map (@length A) cats)) as F.
    { now apply list_max_le. }
    rewrite Forall_forall in F. apply F. now apply in_map.
  - intros q1 q2 H1 H2. apply (bi_two _ _ _ _ B); auto.
    intros c Hc. apply Hne. eapply Permutation_in; eauto.
Qed.

(** total load versus maximum load: every queue is at most the average plus one
    catalog: n * load <= total + (n-1) * M *)
Lemma sum_lower (ls : list nat) x M :
  In x ls -> (forall y, In y ls -> x <= y + M) -> length ls * x <= list_sum ls + (length ls - 1) * M.
Proof.
  intros Hin H.
  assert (forall l, (forall y, In y l -> x <= y + M) -> length l * x <= list_sum l + length l * M) as G.
  { induction l as [|y l IH]; intro Hl; cbn [length]; [cbn; lia|].
    change (list_sum (y :: l)) with (y + list_sum l).
    assert (x <= y + M) by (apply Hl; now left).
    assert (length l * x <= list_sum l + length l * M) by (apply IH; intros; apply Hl; now right).
    nia. }
  apply in_split in Hin. destruct Hin as (l1 & l2 & ->).
  assert (length l1 * x <= list_sum l1 + length l1 * M) as H1.
  { apply G. intros y Hy. apply H, in_app_iff. now left. }
  assert (length l2 * x <= list_sum l2 + length l2 * M) as H2.
  { apply G. intros y Hy. apply H, in_app_iff. right. now right. }
  rewrite list_sum_app, app_length. cbn [length].
  change (list_sum (x :: l2)) with (x + list_sum l2). nia.
Qed.

Lemma length_concat_sum (qs : list (list (list A))) :
  list_sum (map (fun q => length (concat q)) qs) = length (concat (concat qs)).
Proof.
  induction qs as [|q qs IH]; [reflexivity|].
  change (length (concat q) + list_sum (map (fun q => length (concat q)) qs)
          = length (concat (q ++ concat qs))).
  rewrite concat_app, app_length, IH. reflexivity.
Qed.

Lemma concat_length_perm (l1 l2 : list (list A)) :
  Permutation l1 l2 -> length (concat l1) = length (concat l2).
Proof. induction 1; cbn [concat]; rewrite ?app_length; lia. Qed.

Lemma balance_load_average cats n M :
  1 <= n -> (forall c, In c cats -> length c <= M) ->
  forall q, In q (balance_load cats n) ->
    n * length (concat q) <= length (concat cats) + (n - 1) * M.
Proof.
  intros Hn Hc q Hq.
  destruct (balance_load_permutation cats n Hn) as [L P].
  pose proof (balance_load_fair cats n M Hn Hc) as F.
  set (qs := balance_load cats n) in *.
  assert (length (concat cats) = list_sum (map (fun q => length (concat q)) qs)) as ->.
  { rewrite length_concat_sum.
    symmetry. now apply concat_length_perm. }
  rewrite <- L. rewrite <- (map_length (fun q => length (concat q)) qs).
  apply sum_lower.
  - apply in_map_iff. now exists q.
  - intros y Hy. apply in_map_iff in Hy. destruct Hy as (q2 & <- & H2). auto.
Qed.
(** no catalog is larger than the gap between the queue that holds it and another *)
Definition tight (qs : list (list (list A))) : Prop :=
  forall q1 q2 c, In q1 qs -> In q2 qs -> In c q1 -> qload q1 <= qload q2 + length c.

Lemma tight_step n M done st c :
  1 <= n -> length c <= M -> binv n M done st ->
  (forall d, In d done -> length c <= length d) ->
  tight (snd st) -> tight (snd (balance_step st c)).
Proof.
  intros Hn Hc [L1 L2 Lo P F T] Hd Ht. destruct st as [loads qs]. cbn in *.
  assert (loads <> []) as Hne by (intro; subst loads; cbn in *; lia).
  destruct (argmin_spec loads Hne) as (v & Hv & Hmin).
  remember (argmin loads) as i eqn:Ei. clear Ei.
  assert (i < length qs) as Hi.
  { rewrite L2, <- L1. apply nth_error_Some. congruence. }
  destruct (nth_error qs i) as [qi|] eqn:Eq; [|apply nth_error_None in Eq; lia].
  assert (v = Z.of_nat (qload qi)) as Ev.
  { specialize (Lo _ _ Eq). congruence. }
  assert (forall q, In q qs -> qload qi <= qload q) as Hleast.
  { intros q Hq. apply In_nth_error in Hq. destruct Hq as [k Hk].
    specialize (Lo _ _ Hk). apply nth_error_In in Lo. specialize (Hmin _ Lo). lia. }
  intros q1 q2 d H1 H2 Hin.
  apply In_upd in H1. apply In_upd in H2.
  destruct H1 as [H1|(y1 & E1 & ->)], H2 as [H2|(y2 & E2 & ->)].
  - now apply Ht.
  - rewrite Eq in E2. injection E2 as <-. rewrite qload_app.
    assert (qload q1 <= qload qi + length d) by (apply Ht; [easy|eapply nth_error_In; eauto|easy]).
    lia.
  - rewrite Eq in E1. injection E1 as <-. rewrite qload_app.
    specialize (Hleast _ H2). apply in_app_iff in Hin. destruct Hin as [Hin|[<-|[]]]; [|lia].
    assert (In d done) as H0.
    { eapply Permutation_in; [exact P|]. apply in_concat. exists qi.
      split; [eapply nth_error_In; eauto|easy]. }
    specialize (Hd _ H0). lia.
  - rewrite E1 in E2. injection E2 as <-. lia.
Qed.

Lemma tight_fold n M cats done st :
  1 <= n -> (forall c, In c cats -> length c <= M) -> binv n M done st ->
  StronglySorted (fun a b : list A => length b <= length a) cats ->
  (forall c d, In c cats -> In d done -> length c <= length d) ->
  tight (snd st) -> tight (snd (fold_left balance_step cats st)).
Proof.
  intro Hn. revert done st. induction cats as [|c cats IH]; intros done st Hc Hb Hs Hd Ht; cbn; [easy|].
  apply StronglySorted_inv in Hs. destruct Hs as [Hs Hf]. rewrite Forall_forall in Hf.
  apply (IH (done ++ [c])).
  - intros; apply Hc; now right.
  - apply binv_step; auto. apply Hc. now left.
  - easy.
  - intros x d Hx Hin. apply in_app_iff in Hin. destruct Hin as [Hin|[<-|[]]].
    + apply Hd; [now right|easy].
    + now apply Hf.
  - apply (tight_step n M done); auto; [apply Hc; now left|].
    intros d Hin. apply Hd; [now left|easy].
Qed.

Lemma sorted_impl (R S : list A -> list A -> Prop) l :
  (forall a b, R a b -> S a b) -> StronglySorted R l -> StronglySorted S l.
Proof.
  intros H. induction 1 as [|x l Hs IH Hf]; constructor; [easy|].
  eapply Forall_impl; [|exact Hf]. cbn. auto.
Qed.

Lemma balance_load_tight cats n :
  1 <= n ->
  forall q1 q2 c, In q1 (balance_load cats n) -> In q2 (balance_load cats n) -> In c q1 ->
    length (concat q1) <= length (concat q2) + length c.
Proof.
  intro Hn. unfold balance_load.
  apply (tight_fold n (list_max (map (@length A) cats)) _ [] _ Hn).
  - intros c Hc. assert (Forall (fun k => k <= list_max (map (@length A) cats)) (map (@length A) cats)) as F.
    { now apply list_max_le. }
    rewrite Forall_forall in F. apply F. apply in_map.
    eapply Permutation_in; [apply isort_perm|exact Hc].
  - apply binv_init.
  - eapply (sorted_impl (fun a b => Nat.leb (length b) (length a) = true));
      [intros a b; apply Nat.leb_le|apply isort_sorted].
    + intros a b. rewrite !Nat.leb_le. lia.
    + intros a b d. rewrite !Nat.leb_le. lia.
  - intros c d _ [].
  - intros q1 q2 c H1 _ Hin. apply repeat_spec in H1. subst q1. destruct Hin.
Qed.
End Balance.
