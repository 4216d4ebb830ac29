(** Python dictionaries with string keys: association lists in insertion order. *)
From Coq Require Import String List Bool Arith Lia.
From Verif Require Import Exn.
Import ListNotations.
Local Open Scope list_scope.

Definition dict (A : Type) := list (string * A).

(** d.get(k) *)
Fixpoint dget {A} (k : string) (d : dict A) : option A :=
  match d with
  | [] => None
  | (k', v) :: r => if String.eqb k k' then Some v else dget k r
  end.
(** d[k] = v: overwrite in place, or append *)
Fixpoint dset {A} (k : string) (v : A) (d : dict A) : dict A :=
  match d with
  | [] => [(k, v)]
  | (k', v') :: r => if String.eqb k k' then (k', v) :: r else (k', v') :: dset k v r
  end.
(** d.pop(k, None) *)
Definition dpop {A} (k : string) (d : dict A) : dict A :=
  filter (fun p => negb (String.eqb k (fst p))) d.
Definition dkeys {A} (d : dict A) : list string := map fst d.
Definition dvals {A} (d : dict A) : list A := map snd d.
(** k in d *)
Definition dmem {A} (k : string) (d : dict A) : bool :=
  match dget k d with Some _ => true | None => false end.
(** bool(d) *)
Definition dtrue {A} (d : dict A) : bool :=
  match d with [] => false | _ => true end.
(** d[k], KeyError *)
Definition rget {A} (k : string) (d : dict A) : res A :=
  of_option "KeyError" (dget k d).
(** {k: f(v) for k, v in d.items()} *)
Definition dmap {A B} (f : A -> B) (d : dict A) : dict B :=
  map (fun p => (fst p, f (snd p))) d.

(** for x in l: s = body(x, s) *)
Fixpoint for_each {X S} (l : list X) (body : X -> S -> res S) (s : S) : res S :=
  match l with
  | [] => Ok s
  | x :: r => rbind (body x s) (for_each r body)
  end.

(** ** Facts *)
Section Facts.
Context {A : Type}.
Implicit Types (d : dict A) (k : string).

Lemma dget_dset k k' v d :
  dget k (dset k' v d) = if String.eqb k k' then Some v else dget k d.
Proof.
  induction d as [|[q w] d IH]; cbn.
  - now destruct (String.eqb k k').
  - destruct (String.eqb_spec k' q) as [E|E]; cbn.
    + subst q. now destruct (String.eqb k k').
    + rewrite IH. destruct (String.eqb_spec k q) as [F|F]; [|easy].
      subst q. destruct (String.eqb_spec k k'); [congruence|easy].
Qed.
Lemma dget_dset_same k v d : dget k (dset k v d) = Some v.
Proof. rewrite dget_dset. now rewrite String.eqb_refl. Qed.
Lemma dget_dset_other k k' v d : k <> k' -> dget k (dset k' v d) = dget k d.
Proof. intro H. rewrite dget_dset. now apply String.eqb_neq in H as ->. Qed.

Lemma dget_dpop k k' d :
  dget k (dpop k' d) = if String.eqb k k' then None else dget k d.
Proof.
  unfold dpop. induction d as [|[q w] d IH]; cbn.
  - now destruct (String.eqb k k').
  - destruct (String.eqb_spec k' q) as [E|E]; cbn.
    + subst q. rewrite IH. now destruct (String.eqb k k').
    + rewrite IH. destruct (String.eqb_spec k q) as [F|F]; [|easy].
      subst q. destruct (String.eqb_spec k k'); [congruence|easy].
Qed.

Lemma dget_In k d : In k (dkeys d) <-> exists v, dget k d = Some v.
Proof.
  induction d as [|[q w] d IH]; cbn.
  - split; [easy|]. intros [v H]; discriminate.
  - destruct (String.eqb_spec k q) as [E|E].
    + subst q. split; [eauto|auto].
    + rewrite <- IH. split; [|auto]. intros [C|C]; [congruence|easy].
Qed.
Lemma dget_None k d : dget k d = None <-> ~ In k (dkeys d).
Proof.
  rewrite dget_In. destruct (dget k d) as [v|]; split; intro H.
  - discriminate.
  - exfalso. apply H. eauto.
  - intros [w C]; discriminate.
  - easy.
Qed.
Lemma dmem_In k d : dmem k d = true <-> In k (dkeys d).
Proof.
  unfold dmem. rewrite dget_In. destruct (dget k d) as [v|]; split; intro H; eauto.
  - discriminate.
  - destruct H; discriminate.
Qed.
Lemma dget_In_pair k v d : dget k d = Some v -> In (k, v) d.
Proof.
  induction d as [|[q w] d IH]; cbn; [easy|].
  destruct (String.eqb_spec k q) as [E|E]; [|auto].
  subst q. intros [= ->]. auto.
Qed.
Lemma In_pair_dget k v d : NoDup (dkeys d) -> In (k, v) d -> dget k d = Some v.
Proof.
  induction d as [|[q w] d IH]; cbn; [easy|]. intro H.
  inversion H as [|? ? H1 H2]; subst. intros [E|E].
  - injection E as <- <-. now rewrite String.eqb_refl.
  - destruct (String.eqb_spec k q) as [F|F]; [|auto].
    subst q. exfalso. apply H1. apply in_map_iff. exists (k, v). auto.
Qed.

Lemma dkeys_dset k v d :
  dkeys (dset k v d) = if dmem k d then dkeys d else dkeys d ++ [k].
Proof.
  unfold dmem. induction d as [|[q w] d IH]; cbn; [easy|].
  destruct (String.eqb_spec k q) as [E|E]; cbn; [easy|].
  fold (dkeys (dset k v d)). rewrite IH. fold (dkeys d).
  now destruct (dget k d).
Qed.
Lemma dset_NoDup k v d : NoDup (dkeys d) -> NoDup (dkeys (dset k v d)).
Proof.
  intro H. rewrite dkeys_dset. destruct (dmem k d) eqn:E; [easy|].
  assert (~ In k (dkeys d)) as N by (rewrite <- dmem_In; congruence).
  clear E. induction (dkeys d) as [|q l IH]; cbn; [repeat constructor; easy|].
  inversion H as [|? ? H1 H2]; subst. constructor.
  - rewrite in_app_iff. intros [C|[C|[]]]; [easy|]. subst q. apply N. now left.
  - apply IH; [easy|]. intro C. apply N. now right.
Qed.
Lemma dkeys_dpop k d : dkeys (dpop k d) = filter (fun q => negb (String.eqb k q)) (dkeys d).
Proof.
  unfold dpop, dkeys. induction d as [|[q w] d IH]; cbn; [easy|].
  destruct (String.eqb k q); cbn; now rewrite IH.
Qed.
Lemma dpop_NoDup k d : NoDup (dkeys d) -> NoDup (dkeys (dpop k d)).
Proof. intro H. rewrite dkeys_dpop. now apply NoDup_filter. Qed.
Lemma dpop_absent k d : ~ In k (dkeys d) -> dpop k d = d.
Proof.
  unfold dpop. induction d as [|[q w] d IH]; cbn; [easy|]. intro H.
  destruct (String.eqb_spec k q) as [E|E]; cbn.
  - exfalso. apply H. auto.
  - f_equal. apply IH. auto.
Qed.
Lemma dset_in_keys k v d : In k (dkeys d) -> dkeys (dset k v d) = dkeys d.
Proof. intro H. rewrite dkeys_dset. now apply dmem_In in H as ->. Qed.
End Facts.

Lemma dkeys_dmap {A B} (f : A -> B) d : dkeys (dmap f d) = dkeys d.
Proof. unfold dkeys, dmap. rewrite map_map. apply map_ext. easy. Qed.
Lemma dget_dmap {A B} (f : A -> B) k d : dget k (dmap f d) = option_map f (dget k d).
Proof.
  unfold dmap. induction d as [|[q w] d IH]; cbn; [easy|].
  destruct (String.eqb k q); [easy|]. exact IH.
Qed.
Lemma rget_Ok {A} k (d : dict A) v : rget k d = Ok v <-> dget k d = Some v.
Proof.
  unfold rget, of_option. destruct (dget k d); split; intro H; try discriminate;
    injection H as ->; easy.
Qed.
Lemma rbind_Ok {A B} (x : res A) (f : A -> res B) b :
  rbind x f = Ok b <-> exists a, x = Ok a /\ f a = Ok b.
Proof.
  destruct x as [a|e]; cbn; split.
  - eauto.
  - intros (a' & [= ->] & H); easy.
  - discriminate.
  - intros (a' & H & _); discriminate.
Qed.
Lemma rmap_Ok {A B} (f : A -> B) (x : res A) b :
  rmap f x = Ok b <-> exists a, x = Ok a /\ b = f a.
Proof.
  destruct x as [a|e]; cbn; split.
  - intros [= <-]; eauto.
  - intros (a' & [= ->] & ->); easy.
  - discriminate.
  - intros (a' & H & _); discriminate.
Qed.
(** loop invariants *)
Lemma for_each_inv {X S} (P : S -> Prop) (l : list X) body s s' :
  (forall x s s', In x l -> P s -> body x s = Ok s' -> P s') ->
  P s -> for_each l body s = Ok s' -> P s'.
Proof.
  revert s. induction l as [|x l IH]; cbn; intros s H Hs E.
  - injection E as <-. easy.
  - apply rbind_Ok in E as (s1 & E1 & E2).
    apply (IH s1); [intros; eapply H; eauto | eapply H; eauto | easy].
Qed.
Lemma for_each_total {X S} (P : S -> Prop) (l : list X) body s :
  (forall x s, In x l -> P s -> exists s', body x s = Ok s' /\ P s') ->
  P s -> exists s', for_each l body s = Ok s' /\ P s'.
Proof.
  revert s. induction l as [|x l IH]; cbn; intros s H Hs; [eauto|].
  destruct (H x s (or_introl eq_refl) Hs) as (s1 & E1 & P1).
  rewrite E1. cbn. apply IH; [|easy]. intros y t Hy. apply H. now right.
Qed.
