(** Grouping a sorted array by a key: the groups are the filters of the array. *)
From Coq Require Import ZArith List Bool Arith Lia Permutation Sorting.Sorted.
From Verif Require Import NpList NpListFacts.
Import ListNotations.
Local Open Scope nat_scope.

Lemma filter_all {A} (p : A -> bool) l : (forall x, In x l -> p x = true) -> filter p l = l.
Proof.
  induction l as [|x l IH]; intro H; cbn; [easy|].
  rewrite (H x (or_introl eq_refl)), IH; [easy|]. intros; apply H; now right.
Qed.
Lemma filter_none {A} (p : A -> bool) l : (forall x, In x l -> p x = false) -> filter p l = [].
Proof.
  induction l as [|x l IH]; intro H; cbn; [easy|].
  rewrite (H x (or_introl eq_refl)), IH; [easy|]. intros; apply H; now right.
Qed.

Section Group.
Context {A : Type}.
Variable key : A -> Z.

Definition with_key (l : list A) (k : Z) : list A := filter (fun a => Z.eqb (key a) k) l.

Lemma grouped_filter l gs :
  grouped key l gs -> gs = map (with_key l) (np_unique (map key l)).
Proof.
  revert l. induction gs as [|g gs IH]; intros l (Hc & Hh & Ho).
  - cbn in Hc. subst l. reflexivity.
  - cbn in Hc. subst l. inversion Hh as [|? ? [Hg Hk] Hh']; subst.
    inversion Ho as [|? ? Hlt Ho']; subst.
    specialize (IH (concat gs) (conj eq_refl (conj Hh' Ho'))).
    destruct g as [|a0 g]; [easy|].
    assert (forall b, In b (concat gs) -> (key a0 < key b)%Z) as Hb.
    { intros b Hb. apply in_concat in Hb. destruct Hb as (h & Hh1 & Hb).
      rewrite Forall_forall in Hlt. apply (Hlt h Hh1); [now left|easy]. }
    assert (forall a, In a (a0 :: g) -> key a = key a0) as Ha.
    { intros a Ha. apply Hk; [easy|now left]. }
    assert (np_unique (map key ((a0 :: g) ++ concat gs))
            = key a0 :: np_unique (map key (concat gs))) as Eu.
    { apply StronglySorted_lt_ext.
      - apply np_unique_sorted.
      - constructor; [apply np_unique_sorted|]. apply Forall_forall. intros v Hv.
        rewrite np_unique_In in Hv. apply in_map_iff in Hv. destruct Hv as (b & <- & Hv). auto.
      - intro v. rewrite np_unique_In, map_app, in_app_iff. cbn [In].
        rewrite np_unique_In. split.
        + intros [Hv|Hv]; [|now right]. left.
          apply in_map_iff in Hv. destruct Hv as (a & <- & Hv). symmetry. auto.
        + intros [<-|Hv]; [left; now left|now right]. }
    rewrite Eu. cbn [map]. f_equal.
    + unfold with_key. rewrite filter_app.
      rewrite (filter_all _ (a0 :: g)), (filter_none _ (concat gs)).
      * now rewrite app_nil_r.
      * intros b H. apply Z.eqb_neq. specialize (Hb _ H). lia.
      * intros a H. apply Z.eqb_eq. auto.
    + rewrite IH at 1. apply map_ext_in. intros v Hv.
      rewrite np_unique_In in Hv. apply in_map_iff in Hv. destruct Hv as (b & <- & Hv).
      unfold with_key. rewrite filter_app.
      rewrite (filter_none _ (a0 :: g)); [easy|].
      intros a H. apply Z.eqb_neq. specialize (Hb _ Hv). rewrite (Ha _ H). lia.
Qed.

Lemma split_by_key_filter l :
  StronglySorted (fun a b => (key a <= key b)%Z) l -> l <> [] ->
  split_by_key key l = map (with_key l) (np_unique (map key l)).
Proof. intros Hs Hl. apply grouped_filter. now apply split_by_key_grouped. Qed.

Lemma with_key_In l k a : In a (with_key l k) <-> In a l /\ key a = k.
Proof. unfold with_key. rewrite filter_In, Z.eqb_eq. easy. Qed.
Lemma with_key_nonempty l k : In k (map key l) -> with_key l k <> [].
Proof.
  intros H E. apply in_map_iff in H. destruct H as (a & Ha & H).
  assert (In a (with_key l k)) as C by now apply with_key_In. now rewrite E in C.
Qed.

(** concatenating the groups of all keys is a permutation of the array *)
Lemma with_key_perm l ks :
  NoDup ks -> (forall a, In a l -> In (key a) ks) ->
  Permutation (concat (map (with_key l) ks)) l.
Proof.
  intros Hn Hk. induction l as [|a l IH].
  - induction ks; cbn; [auto|]. apply IHks; [now inversion Hn|easy].
  - assert (forall ks, NoDup ks -> In (key a) ks ->
      Permutation (concat (map (with_key (a :: l)) ks)) (a :: concat (map (with_key l) ks))) as G.
    { clear. intros ks. induction ks as [|k ks IH]; [easy|]. intros Hn Hin.
      inversion Hn as [|? ? Hk Hn']; subst. cbn [map concat].
      unfold with_key at 1. cbn [filter].
      destruct (Z.eqb_spec (key a) k) as [E|E].
      - cbn. constructor. apply Permutation_app; [reflexivity|].
        erewrite map_ext_in; [reflexivity|]. intros v Hv. unfold with_key. cbn.
        destruct (Z.eqb_spec (key a) v); [congruence|easy].
      - destruct Hin as [C|Hin]; [congruence|].
        rewrite (IH Hn' Hin). fold (with_key l k).
        symmetry. apply Permutation_middle. }
    rewrite G; [|easy|apply Hk; now left].
    constructor. apply IH. intros; apply Hk; now right.
Qed.
End Group.
