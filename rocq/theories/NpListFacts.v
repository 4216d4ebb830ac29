(** Lemmas about the numpy primitives of NpList.v. *)
From Coq Require Import ZArith List Bool Arith Lia Qcanon Permutation Sorting.Sorted.
From Verif Require Import Num NpList.
Import ListNotations.
Local Open Scope nat_scope.

(** ** slices *)
Lemma slice_length {A} i j (l : list A) :
  length (slice i j l) = Nat.min (j - i) (length l - i).
Proof. unfold slice. now rewrite firstn_length, skipn_length. Qed.
Lemma nth_error_skipn {A} i k (l : list A) :
  nth_error (skipn i l) k = nth_error l (i + k).
Proof.
  revert l; induction i as [|i IH]; intros [|x l]; cbn; auto.
  now rewrite (IH l) || (destruct k; reflexivity).
Qed.
Lemma nth_error_firstn {A} n k (l : list A) :
  k < n -> nth_error (firstn n l) k = nth_error l k.
Proof.
  revert k l; induction n as [|n IH]; intros k l H; [lia|].
  destruct l as [|x l]; cbn; [now destruct k|].
  destruct k as [|k]; cbn; [easy|]. apply IH. lia.
Qed.
Lemma nth_error_slice {A} i j k (l : list A) :
  k < j - i -> nth_error (slice i j l) k = nth_error l (i + k).
Proof.
  intro H. unfold slice. rewrite nth_error_firstn by easy.
  apply nth_error_skipn.
Qed.
Lemma slice_map {A B} (f : A -> B) i j l :
  slice i j (map f l) = map f (slice i j l).
Proof. unfold slice. now rewrite skipn_map, firstn_map. Qed.
Lemma slice_In {A} i j (l : list A) x : In x (slice i j l) -> In x l.
Proof.
  unfold slice. intro H.
  rewrite <- (firstn_skipn i l), in_app_iff. right.
  rewrite <- (firstn_skipn (j - i) (skipn i l)), in_app_iff. now left.
Qed.

(** ** sort *)
Section Sort.
Context {A : Type} (leb : A -> A -> bool).
Lemma sort_insert_perm x l : Permutation (sort_insert leb x l) (x :: l).
Proof.
  induction l as [|y l IH]; cbn; [auto|]. destruct (leb x y); [auto|].
  rewrite IH. constructor.
Qed.
Lemma isort_perm l : Permutation (isort leb l) l.
Proof.
  induction l as [|x l IH]; cbn; [auto|]. fold (isort leb l).
  rewrite sort_insert_perm. now constructor.
Qed.
Hypothesis total : forall a b, leb a b = true \/ leb b a = true.
Hypothesis trans : forall a b c, leb a b = true -> leb b c = true -> leb a c = true.
Let R a b := leb a b = true.
Lemma sort_insert_sorted x l :
  StronglySorted R l -> StronglySorted R (sort_insert leb x l).
Proof.
  induction 1 as [|y l Hs IH Hf]; cbn; [repeat constructor|].
  destruct (leb x y) eqn:E.
  - repeat constructor; auto. eapply Forall_impl; [|exact Hf].
    cbn. intros a Ha. eapply trans; eauto.
  - constructor; [easy|]. rewrite Forall_forall in *. intros a Ha.
    apply (Permutation_in _ (sort_insert_perm x l)) in Ha.
    destruct Ha as [<-|Ha]; [|now apply Hf].
    destruct (total x y) as [C|C]; [congruence|exact C].
Qed.
Lemma isort_sorted l : StronglySorted R (isort leb l).
Proof.
  induction l as [|x l IH]; cbn; [constructor|]. now apply sort_insert_sorted.
Qed.
End Sort.

Lemma lexleb_total {A} (keys : list (A -> Z)) a b :
  lexleb keys a b = true \/ lexleb keys b a = true.
Proof.
  induction keys as [|k ks IH]; cbn; [now left|].
  destruct (Z.ltb_spec (k a) (k b)), (Z.eqb_spec (k a) (k b)),
    (Z.ltb_spec (k b) (k a)), (Z.eqb_spec (k b) (k a)); try lia; auto.
Qed.
Lemma lexleb_trans {A} (keys : list (A -> Z)) a b c :
  lexleb keys a b = true -> lexleb keys b c = true -> lexleb keys a c = true.
Proof.
  induction keys as [|k ks IH]; cbn; [easy|].
  destruct (Z.ltb_spec (k a) (k b)), (Z.eqb_spec (k a) (k b)),
    (Z.ltb_spec (k b) (k c)), (Z.eqb_spec (k b) (k c)),
    (Z.ltb_spec (k a) (k c)), (Z.eqb_spec (k a) (k c)); try lia; auto;
    try discriminate.
Qed.
Lemma lexleb_head {A} (k : A -> Z) ks a b :
  lexleb (k :: ks) a b = true -> (k a <= k b)%Z.
Proof.
  cbn. destruct (Z.ltb_spec (k a) (k b)), (Z.eqb_spec (k a) (k b)); lia.
Qed.
Lemma lexleb_tail {A} (k : A -> Z) ks a b :
  lexleb (k :: ks) a b = true -> k a = k b -> lexleb ks a b = true.
Proof.
  cbn. destruct (Z.ltb_spec (k a) (k b)), (Z.eqb_spec (k a) (k b)); try lia; auto.
Qed.
Lemma isort_lex_sorted {A} (keys : list (A -> Z)) l :
  StronglySorted (fun a b => lexleb keys a b = true) (isort (lexleb keys) l).
Proof.
  apply isort_sorted; [apply lexleb_total | intros; eapply lexleb_trans; eauto].
Qed.

Lemma StronglySorted_impl {A} (R S : A -> A -> Prop) l :
  (forall a b, In a l -> In b l -> R a b -> S a b) ->
  StronglySorted R l -> StronglySorted S l.
Proof.
  intros H Hs. induction Hs as [|x l Hs IH Hf]; constructor.
  - apply IH. intros; apply H; cbn; auto.
  - rewrite Forall_forall in *. intros y Hy. apply H; cbn; auto.
Qed.
Lemma StronglySorted_map {A B} (f : A -> B) (R : B -> B -> Prop) l :
  StronglySorted (fun a b => R (f a) (f b)) l <-> StronglySorted R (map f l).
Proof.
  induction l as [|x l IH]; cbn; split; intro H; try constructor;
    inversion H; subst; try (apply IH; assumption).
  - rewrite Forall_map. assumption.
  - rewrite Forall_map in *. assumption.
Qed.
Lemma StronglySorted_filter {A} (R : A -> A -> Prop) p l :
  StronglySorted R l -> StronglySorted R (filter p l).
Proof.
  induction 1 as [|x l Hs IH Hf]; cbn; [constructor|].
  destruct (p x); [|easy]. constructor; [easy|].
  rewrite Forall_forall in *. intros y Hy. apply filter_In in Hy. now apply Hf.
Qed.
Lemma StronglySorted_app_inv {A} (R : A -> A -> Prop) l1 l2 :
  StronglySorted R (l1 ++ l2) ->
  StronglySorted R l1 /\ StronglySorted R l2 /\
  (forall a b, In a l1 -> In b l2 -> R a b).
Proof.
  induction l1 as [|x l1 IH]; cbn; intro H.
  - repeat split; [constructor|easy|easy].
  - inversion H as [|? ? Hs Hf]; subst. destruct (IH Hs) as (H1 & H2 & H3).
    rewrite Forall_app in Hf. destruct Hf as [Hf1 Hf2].
    repeat split; [now constructor|easy|].
    intros a b [<-|Ha] Hb; [rewrite Forall_forall in Hf2; auto|auto].
Qed.
Lemma StronglySorted_lt_NoDup l : StronglySorted Z.lt l -> NoDup l.
Proof.
  induction 1 as [|x l Hs IH Hf]; constructor; [|easy].
  intro C. rewrite Forall_forall in Hf. specialize (Hf _ C). lia.
Qed.
Lemma StronglySorted_le_NoDup_lt l :
  StronglySorted Z.le l -> NoDup l -> StronglySorted Z.lt l.
Proof.
  induction 1 as [|x l Hs IH Hf]; intro H; [constructor|].
  inversion H as [|? ? H1 H2]; subst. constructor; [auto|].
  rewrite Forall_forall in *. intros y Hy.
  specialize (Hf _ Hy). assert (x <> y) by (intro; subst; easy). lia.
Qed.

(** ** membership, index_of *)
Lemma zmem_In v l : zmem v l = true <-> In v l.
Proof.
  unfold zmem. rewrite existsb_exists. split.
  - intros (x & Hx & E). apply Z.eqb_eq in E. now subst.
  - intro H. exists v. split; [easy|]. apply Z.eqb_refl.
Qed.
Lemma index_of_nth v l :
  In v l -> nth_error l (index_of v l) = Some v.
Proof.
  induction l as [|x l IH]; cbn; [easy|]. intro H.
  destruct (Z.eqb_spec x v) as [->|E]; [easy|].
  apply IH. destruct H; [congruence|easy].
Qed.
Lemma index_of_lt v l : In v l -> index_of v l < length l.
Proof. intro H. apply nth_error_Some. now rewrite index_of_nth. Qed.
Lemma index_of_nth_NoDup l i v :
  NoDup l -> nth_error l i = Some v -> index_of v l = i.
Proof.
  intros H E.
  apply (proj1 (NoDup_nth_error l) H).
  - apply index_of_lt. eapply nth_error_In; eauto.
  - rewrite index_of_nth, E; [easy|]. eapply nth_error_In; eauto.
Qed.

(** ** np.unique *)
Lemma insert_uniq_In v w l : In w (insert_uniq v l) <-> w = v \/ In w l.
Proof.
  induction l as [|x l IH]; cbn; [intuition congruence|].
  destruct (Z.ltb_spec v x); cbn; [intuition congruence|].
  destruct (Z.eqb_spec v x); cbn; [subst; intuition congruence|].
  rewrite IH. intuition congruence.
Qed.
Lemma np_unique_In v l : In v (np_unique l) <-> In v l.
Proof.
  induction l as [|x l IH]; cbn; [easy|]. fold (np_unique l).
  rewrite insert_uniq_In, IH. intuition congruence.
Qed.
Lemma insert_uniq_sorted v l :
  StronglySorted Z.lt l -> StronglySorted Z.lt (insert_uniq v l).
Proof.
  induction 1 as [|x l Hs IH Hf]; cbn; [repeat constructor|].
  destruct (Z.ltb_spec v x).
  - repeat constructor; auto. eapply Forall_impl; [|exact Hf]. cbn; lia.
  - destruct (Z.eqb_spec v x); [now constructor|].
    constructor; [easy|]. rewrite Forall_forall in *. intros y Hy.
    apply insert_uniq_In in Hy. destruct Hy as [->|Hy]; [lia|auto].
Qed.
Lemma np_unique_sorted l : StronglySorted Z.lt (np_unique l).
Proof.
  induction l as [|x l IH]; cbn; [constructor|]. now apply insert_uniq_sorted.
Qed.
Lemma StronglySorted_lt_ext l1 l2 :
  StronglySorted Z.lt l1 -> StronglySorted Z.lt l2 ->
  (forall v, In v l1 <-> In v l2) -> l1 = l2.
Proof.
  intros H1. revert l2. induction H1 as [|x l1 Hs IH Hf]; intros l2 H2 E.
  - destruct l2 as [|y l2]; [easy|]. exfalso. apply (proj2 (E y)). now left.
  - destruct H2 as [|y l2 Hs2 Hf2].
    + exfalso. apply (proj1 (E x)). now left.
    + rewrite Forall_forall in *.
      assert (x = y) as ->.
      { destruct (proj1 (E x)) as [e|Hx]; [now left|easy|].
        destruct (proj2 (E y)) as [e|Hy]; [now left|easy|].
        specialize (Hf _ Hy). specialize (Hf2 _ Hx). lia. }
      f_equal. apply IH; [easy|]. intro v. split; intro Hv.
      * destruct (proj1 (E v)) as [e|Hx]; [now right| |easy].
        subst. specialize (Hf _ Hv). lia.
      * destruct (proj2 (E v)) as [e|Hx]; [now right| |easy].
        subst. specialize (Hf2 _ Hv). lia.
Qed.
Lemma np_unique_fix l : StronglySorted Z.lt l -> np_unique l = l.
Proof.
  intro H. apply StronglySorted_lt_ext; [apply np_unique_sorted|easy|].
  intro v. apply np_unique_In.
Qed.

(** ** grouping of a sorted array *)
Lemma split_from_S {A} (x : A) l s idxs :
  split_from (x :: l) (S s) (map S idxs) = split_from l s idxs.
Proof.
  revert s. induction idxs as [|j r IH]; intro s; cbn [map split_from]; [easy|].
  f_equal. apply IH.
Qed.
Lemma insert_uniq_lt k l :
  StronglySorted Z.lt l -> (forall v, In v l -> (k < v)%Z) -> insert_uniq k l = k :: l.
Proof.
  intros _ H. destruct l as [|x l]; cbn; [easy|].
  specialize (H x (or_introl eq_refl)).
  destruct (Z.ltb_spec k x); [easy|lia].
Qed.
Lemma unique_index_cons_lt k ks :
  (forall v, In v ks -> (k < v)%Z) ->
  np_unique_index (k :: ks) = 0 :: map S (np_unique_index ks).
Proof.
  intro H. unfold np_unique_index. cbn [np_unique fold_right].
  fold (np_unique ks).
  rewrite insert_uniq_lt; [|apply np_unique_sorted|].
  - cbn [map index_of]. rewrite Z.eqb_refl. f_equal. rewrite map_map.
    apply map_ext_in. intros v Hv. cbn [index_of].
    rewrite np_unique_In in Hv. specialize (H _ Hv).
    destruct (Z.eqb_spec k v); [lia|easy].
  - intros v Hv. apply H. now rewrite <- np_unique_In.
Qed.
Lemma unique_index_cons_eq k ks :
  (forall v, In v ks -> (k <= v)%Z) ->
  np_unique_index (k :: k :: ks) =
  0 :: map S (tl (np_unique_index (k :: ks))).
Proof.
  intro H. unfold np_unique_index. cbn [np_unique fold_right].
  fold (np_unique ks). set (u := insert_uniq k (np_unique ks)).
  assert (StronglySorted Z.lt u) as Su.
  { apply insert_uniq_sorted, np_unique_sorted. }
  assert (forall v, In v u <-> v = k \/ In v ks) as Iu.
  { intro v. unfold u. rewrite insert_uniq_In, np_unique_In. easy. }
  assert (exists u', u = k :: u') as [u' Eu].
  { destruct u as [|x u'] eqn:Eu.
    - exfalso. apply (proj2 (Iu k)). now left.
    - exists u'. f_equal.
      inversion Su as [|? ? S1 S2]; subst.
      destruct (proj1 (Iu x)) as [->|Hx]; [now left|easy|].
      destruct (proj2 (Iu k)) as [e|Hk]; [now left|easy|].
      rewrite Forall_forall in S2. specialize (S2 _ Hk).
      specialize (H _ Hx). lia. }
  assert (insert_uniq k u = u) as ->.
  { rewrite Eu. cbn. destruct (Z.ltb_spec k k); [lia|].
    now rewrite Z.eqb_refl. }
  rewrite Eu. cbn [map tl index_of]. rewrite Z.eqb_refl. f_equal.
  rewrite map_map. apply map_ext_in. intros v Hv.
  rewrite Eu in Su. inversion Su as [|? ? S1 S2]; subst.
  rewrite Forall_forall in S2. specialize (S2 _ Hv).
  cbn [index_of]. destruct (Z.eqb_spec k v); [lia|easy].
Qed.

(** What it means to be the decomposition of [l] in maximal groups of equal key. *)
Definition grouped {A} (key : A -> Z) (l : list A) (gs : list (list A)) : Prop :=
  concat gs = l /\
  Forall (fun g => g <> [] /\ forall a b, In a g -> In b g -> key a = key b) gs /\
  ForallOrdPairs (fun g h => forall a b, In a g -> In b h -> (key a < key b)%Z) gs.

Lemma split_by_key_cons {A} (key : A -> Z) x y l :
  StronglySorted (fun a b => (key a <= key b)%Z) (x :: y :: l) ->
  split_by_key key (x :: y :: l) =
  if (key x =? key y)%Z
  then match split_by_key key (y :: l) with
       | [] => [[x]]
       | g :: gs => (x :: g) :: gs
       end
  else [x] :: split_by_key key (y :: l).
Proof.
  intro Hs. inversion Hs as [|? ? H1 H2]; subst.
  inversion H1 as [|? ? H3 H4]; subst.
  rewrite Forall_forall in H2, H4.
  unfold split_by_key, np_split.
  destruct (Z.eqb_spec (key x) (key y)) as [E|E].
  - cbn [map]. rewrite E. rewrite unique_index_cons_eq.
    + cbn [tl]. set (t := np_unique_index _).
      destruct (tl t) as [|j r]; cbn [map split_from].
      * easy.
      * rewrite split_from_S. unfold slice. cbn [skipn].
        replace (S j - 0) with (S j) by lia. cbn [firstn].
        replace (j - 0) with j by lia. reflexivity.
    + intros v Hv. apply in_map_iff in Hv. destruct Hv as (a & <- & Ha).
      now apply H4.
  - cbn [map]. rewrite unique_index_cons_lt.
    + cbn [tl]. set (t := np_unique_index _).
      assert (exists r, t = 0 :: r) as [r Er].
      { unfold t. destruct (map key l) as [|k2 ks] eqn:Ek.
        - exists []. unfold np_unique_index. cbn. now rewrite Z.eqb_refl.
        - destruct (Z.eq_dec (key y) k2) as [e|e].
          + exists (map S (tl (np_unique_index (k2 :: ks)))).
            rewrite e. apply unique_index_cons_eq. intros v Hv.
            rewrite <- e. assert (In v (map key l)) as Hi by (rewrite Ek; now right).
            apply in_map_iff in Hi. destruct Hi as (a & <- & Ha). now apply H4.
          + exists (map S (np_unique_index (k2 :: ks))).
            apply unique_index_cons_lt. intros v Hv.
            inversion H3 as [|a l' H5 H6 El]; subst; [easy|].
            cbn in Ek. injection Ek as Ek1 Ek2. rewrite Forall_forall in H6.
            assert (key y <= key a)%Z by (apply H4; now left).
            destruct Hv as [<-|Hv]; [lia|]. rewrite <- Ek2 in Hv.
            apply in_map_iff in Hv. destruct Hv as (b & <- & Hb).
            specialize (H6 _ Hb). lia. }
      rewrite Er. cbn [map split_from tl]. f_equal.
      apply split_from_S.
    + intros v Hv. change (key y :: map key l) with (map key (y :: l)) in Hv.
      apply in_map_iff in Hv. destruct Hv as (a & <- & Ha).
      assert (key x <= key y)%Z by (apply H2; now left).
      destruct Ha as [<-|Ha]; [lia|]. specialize (H4 _ Ha). lia.
Qed.

Lemma split_by_key_grouped {A} (key : A -> Z) l :
  StronglySorted (fun a b => (key a <= key b)%Z) l -> l <> [] ->
  grouped key l (split_by_key key l).
Proof.
  intro Hs. induction l as [|x l IH]; [easy|]. intros _.
  destruct l as [|y l].
  - unfold split_by_key, np_unique_index. cbn. repeat constructor; [easy|].
    intros a b [<-|[]] [<-|[]]. reflexivity.
  - inversion Hs as [|? ? H1 H2]; subst.
    destruct (IH H1) as (C & F & O); [easy|].
    rewrite split_by_key_cons by easy.
    set (gs := split_by_key key (y :: l)) in *.
    destruct (Z.eqb_spec (key x) (key y)) as [E|E].
    + destruct gs as [|g gs]; [easy|].
      inversion F as [|? ? [F1 F2] F3]; subst.
      inversion O as [|? ? O1 O2]; subst.
      destruct g as [|y' g]; [easy|]. cbn in C. injection C as -> C.
      repeat split.
      * cbn. now rewrite C.
      * constructor; [|easy]. split; [easy|].
        intros a b [<-|Ha] [<-|Hb]; try easy.
        -- rewrite E. apply F2; [now left|easy].
        -- rewrite E. apply F2; [easy|now left].
        -- now apply F2.
      * constructor; [|easy]. rewrite Forall_forall in *.
        intros h Hh a b [<-|Ha] Hb.
        -- rewrite E. apply (O1 h Hh); [now left|easy].
        -- now apply (O1 h Hh).
    + repeat split.
      * cbn. now rewrite C.
      * constructor; [|easy]. split; [easy|].
        intros a b [<-|[]] [<-|[]]. reflexivity.
      * constructor; [|easy]. rewrite Forall_forall in *.
        intros h Hh a b [<-|[]] Hb.
        assert (key x <= key y)%Z by (apply H2; now left).
        assert (In b (y :: l)) as Hb'.
        { rewrite <- C. apply in_concat. now exists h. }
        inversion H1 as [|? ? H3 H4]; subst. rewrite Forall_forall in H4.
        destruct Hb' as [<-|Hb']; [lia|]. specialize (H4 _ Hb'). lia.
Qed.

(** ** upd *)
Lemma upd_length {A} i (f : A -> A) l : length (upd i f l) = length l.
Proof. revert i; induction l as [|x l IH]; intros [|i]; cbn; auto. Qed.
Lemma nth_error_upd {A} i (f : A -> A) l k :
  nth_error (upd i f l) k =
  if Nat.eqb k i then option_map f (nth_error l k) else nth_error l k.
Proof.
  revert i k; induction l as [|x l IH]; intros [|i] [|k]; cbn; auto.
  destruct (Nat.eqb k i); reflexivity.
Qed.
Lemma nth_upd {A} i (f : A -> A) l k d :
  k < length l -> nth k (upd i f l) d = if Nat.eqb k i then f (nth k l d) else nth k l d.
Proof.
  revert i k; induction l as [|x l IH]; intros [|i] [|k]; cbn; intro H; try lia; auto.
  apply IH. lia.
Qed.

(** ** argmin *)
Lemma argmin_from_spec best bv i l :
  let r := argmin_from best bv i l in
  (r = best /\ (forall x, In x l -> (bv <= x)%Z)) \/
  (exists k, r = i + k /\ exists v, nth_error l k = Some v /\ (v < bv)%Z /\
     (forall x, In x l -> (v <= x)%Z)).
Proof.
  revert best bv i; induction l as [|x l IH]; intros best bv i; cbn.
  - left. split; [easy|]. intros ? [].
  - destruct (Z.ltb_spec x bv) as [H|H].
    + right. destruct (IH i x (S i)) as [[E Hm]|(k & E & v & Hn & Hv & Hm)].
      * exists 0. rewrite E. split; [lia|]. exists x. split; [easy|].
        split; [easy|]. intros y [<-|Hy]; [lia|auto].
      * exists (S k). rewrite E. split; [lia|]. exists v. cbn. split; [easy|].
        split; [lia|]. intros y [<-|Hy]; [lia|auto].
    + destruct (IH best bv (S i)) as [[E Hm]|(k & E & v & Hn & Hv & Hm)].
      * left. split; [easy|]. intros y [<-|Hy]; auto.
      * right. exists (S k). rewrite E. split; [lia|]. exists v. cbn.
        split; [easy|]. split; [lia|]. intros y [<-|Hy]; [lia|auto].
Qed.
Lemma argmin_spec l :
  l <> [] -> exists v, nth_error l (argmin l) = Some v /\
                       forall x, In x l -> (v <= x)%Z.
Proof.
  destruct l as [|x l]; [easy|]. intros _. cbn [argmin].
  destruct (argmin_from_spec 0 x 1 l) as [[E Hm]|(k & E & v & Hn & Hv & Hm)];
    rewrite E.
  - exists x. cbn. split; [easy|]. intros y [<-|Hy]; [lia|auto].
  - exists v. cbn. split; [easy|]. intros y [<-|Hy]; [lia|auto].
Qed.

(** ** searchsorted *)
Definition ascending (l : list Qc) := StronglySorted (fun a b => (a < b)%Qc) l.
Lemma searchsorted_le_length l x : searchsorted l x <= length l.
Proof.
  induction l as [|y l IH]; cbn; [lia|]. destruct (qltb y x); lia.
Qed.
Lemma searchsorted_spec l x :
  StronglySorted (fun a b => (a <= b)%Qc) l ->
  forall i y, nth_error l i = Some y -> (i < searchsorted l x <-> (y < x)%Qc).
Proof.
  induction 1 as [|z l Hs IH Hf]; intros i y E; [now destruct i|].
  cbn [searchsorted]. destruct (qltb z x) eqn:C; qcase_in C.
  - destruct i as [|i]; cbn in E.
    + injection E as <-. split; [easy|lia].
    + rewrite <- (IH i y E). lia.
  - split; [lia|]. intro H. exfalso.
    assert (z <= y)%Qc as Hzy.
    { destruct i as [|i]; cbn in E; [injection E as <-; apply Qcle_refl|].
      rewrite Forall_forall in Hf. apply Hf. eapply nth_error_In; eauto. }
    apply (Qclt_not_le _ _ H). eapply Qcle_trans; eauto.
Qed.
Lemma zsearchsorted_found l x :
  StronglySorted Z.lt l -> In x l -> nth_error l (zsearchsorted l x) = Some x.
Proof.
  induction 1 as [|z l Hs IH Hf]; [easy|]. rewrite Forall_forall in Hf.
  intro H. cbn. destruct H as [->|H].
  - destruct (Z.ltb_spec x x); [lia|easy].
  - specialize (Hf _ H). destruct (Z.ltb_spec z x); [|lia]. now apply IH.
Qed.

(** ** nonzero, take_idx *)
Lemma nonzero_from_spec i l k :
  In k (nonzero_from i l) <-> i <= k /\ nth_error l (k - i) = Some true.
Proof.
  revert i; induction l as [|b l IH]; intro i; cbn.
  - split; [easy|]. intros [_ H]. destruct (k - i); discriminate.
  - destruct b; cbn [In]; rewrite IH.
    + split.
      * intros [<-|[H E]]; [rewrite Nat.sub_diag; auto|].
        replace (k - i) with (S (k - S i)) by lia. split; [lia|easy].
      * intros [H E]. destruct (Nat.eq_dec i k) as [->|N]; [now left|].
        right. split; [lia|]. replace (k - i) with (S (k - S i)) in E by lia. easy.
    + split.
      * intros [H E]. replace (k - i) with (S (k - S i)) by lia. split; [lia|easy].
      * intros [H E]. destruct (Nat.eq_dec i k) as [->|N].
        -- rewrite Nat.sub_diag in E. discriminate.
        -- split; [lia|]. replace (k - i) with (S (k - S i)) in E by lia. easy.
Qed.
Lemma nonzero_spec l k : In k (nonzero l) <-> nth_error l k = Some true.
Proof.
  unfold nonzero. rewrite nonzero_from_spec, Nat.sub_0_r.
  split; [easy|]. intro; split; [lia|easy].
Qed.
Lemma nonzero_from_lower i l k : In k (nonzero_from i l) -> i <= k.
Proof. rewrite nonzero_from_spec. easy. Qed.
Lemma nonzero_NoDup l : NoDup (nonzero l).
Proof.
  unfold nonzero. generalize 0. induction l as [|b l IH]; intro i; cbn; [constructor|].
  destruct b; [|auto]. constructor; [|auto].
  intro C. apply nonzero_from_lower in C. lia.
Qed.
Lemma take_idx_spec {A} (l : list A) idx r :
  take_idx l idx = Some r <-> Forall2 (fun i x => nth_error l i = Some x) idx r.
Proof.
  revert r; induction idx as [|i idx IH]; intro r; cbn.
  - split; [intros [= <-]; constructor|]. intro H; now inversion H.
  - split.
    + destruct (nth_error l i) as [x|] eqn:E1; [|easy].
      destruct (take_idx l idx) as [xs|] eqn:E2; [|easy].
      intros [= <-]. constructor; [easy|]. now apply IH.
    + intro H. inversion H as [|? x ? xs H1 H2]; subst. rewrite H1.
      apply IH in H2. now rewrite H2.
Qed.
Lemma take_idx_map {A B} (f : A -> B) l idx :
  take_idx (map f l) idx = option_map (map f) (take_idx l idx).
Proof.
  induction idx as [|i idx IH]; cbn; [easy|].
  rewrite nth_error_map, IH.
  destruct (nth_error l i), (take_idx l idx); reflexivity.
Qed.

(** ** map2 *)
Lemma map2_length {A B C} (f : A -> B -> C) a b :
  length (map2 f a b) = Nat.min (length a) (length b).
Proof. revert b; induction a as [|x a IH]; intros [|y b]; cbn; auto. Qed.
Lemma nth_error_map2 {A B C} (f : A -> B -> C) a b k :
  nth_error (map2 f a b) k =
  match nth_error a k, nth_error b k with
  | Some x, Some y => Some (f x y) | _, _ => None end.
Proof.
  revert b k; induction a as [|x a IH]; intros [|y b] [|k]; cbn; auto;
    destruct (nth_error a k); reflexivity.
Qed.
Lemma map3_length {A B C D} (f : A -> B -> C -> D) a b c :
  length (map3 f a b c) = Nat.min (length a) (Nat.min (length b) (length c)).
Proof.
  revert b c; induction a as [|x a IH]; intros [|y b] [|z c]; cbn; auto.
Qed.
Lemma nth_error_map3 {A B C D} (f : A -> B -> C -> D) a b c k :
  nth_error (map3 f a b c) k =
  match nth_error a k, nth_error b k, nth_error c k with
  | Some x, Some y, Some z => Some (f x y z) | _, _, _ => None end.
Proof.
  revert b c k; induction a as [|x a IH]; intros [|y b] [|z c] [|k]; cbn; auto;
    destruct (nth_error a k); try reflexivity;
    destruct (nth_error b k); reflexivity.
Qed.

(** ** permutations of sums *)
Lemma qsum_perm l1 l2 : Permutation l1 l2 -> qsum l1 = qsum l2.
Proof.
  induction 1; rewrite ?qsum_cons; try congruence. ring.
Qed.
Lemma list_eq_nth_error {A} (l1 l2 : list A) :
  (forall k, nth_error l1 k = nth_error l2 k) -> l1 = l2.
Proof.
  revert l2; induction l1 as [|x l1 IH]; intros [|y l2] H; auto.
  - specialize (H 0). discriminate.
  - specialize (H 0). discriminate.
  - f_equal; [specialize (H 0); now injection H|].
    apply IH. intro k. apply (H (S k)).
Qed.
Lemma Permutation_filter {A} (p : A -> bool) l1 l2 :
  Permutation l1 l2 -> Permutation (filter p l1) (filter p l2).
Proof.
  induction 1 as [|x l l' H IH|x y l|l l' l'' H1 IH1 H2 IH2]; cbn; auto.
  - destruct (p x); auto.
  - destruct (p x), (p y); auto. constructor.
  - now transitivity (filter p l').
Qed.
