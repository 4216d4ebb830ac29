(** C77: coadding after the fit, with two contents of np.empty. *)
From Coq Require Import ZArith String List Bool Arith Lia Qcanon.
From Verif Require Import Num NpList NpListFacts Exn Dict Mpi ModelSpectrum ModelDelta ModelIO SpecMemory ProofSpectrum1.
Import ListNotations.
Local Open Scope nat_scope.

(** ** Lists *)
Lemma map2_at {A B C} (f : A -> B -> C) a : forall b k v, nth_error (map2 f a b) k = Some v ->
  exists x y, nth_error a k = Some x /\ nth_error b k = Some y /\ v = f x y.
Proof.
  induction a as [|x a IH]; intros [|y b] [|k] v H; cbn in *; try discriminate.
  - injection H as <-. eauto.
  - eauto.
Qed.
Lemma map2_same {A B C} (f g : A -> B -> C) a : forall b b', length b = length b' ->
  (forall k x y y', nth_error a k = Some x -> nth_error b k = Some y -> nth_error b' k = Some y' -> f x y = g x y') ->
  map2 f a b = map2 g a b'.
Proof.
  induction a as [|x a IH]; intros [|y b] [|y' b'] L H; cbn in *; try discriminate; try reflexivity.
  injection L as L. f_equal; [apply (H 0); reflexivity|]. apply IH; [assumption|]. intros k. apply (H (S k)).
Qed.
Lemma map2_len {A B C} (f : A -> B -> C) a : forall b, length a = length b -> length (map2 f a b) = length b.
Proof. induction a as [|x a IH]; intros [|y b] L; cbn in *; try discriminate; [reflexivity|]. injection L as L. now rewrite IH. Qed.
Lemma zip2_same {A B C} (f g : A -> B -> C) a b b' : length b = length b' ->
  (forall k x y y', nth_error a k = Some x -> nth_error b k = Some y -> nth_error b' k = Some y' -> f x y = g x y') ->
  zip2 f a b = zip2 g a b'.
Proof. intros L H. unfold zip2. rewrite <- L. destruct (Nat.eqb _ _); [|reflexivity]. f_equal. now apply map2_same. Qed.

Lemma upd_other {A} i (f : A -> A) : forall l k, k <> i -> nth_error (upd i f l) k = nth_error l k.
Proof. induction i as [|i IH]; intros [|x l] [|k] H; cbn; try reflexivity; try congruence. apply IH. congruence. Qed.
Lemma upd_len {A} i (f : A -> A) : forall l, length (upd i f l) = length l.
Proof. induction i as [|i IH]; intros [|x l]; cbn; congruence. Qed.
Lemma upd_both {A} i (v : A) : forall l l' k, length l = length l' ->
  nth_error (upd i (fun _ => v) l) k = nth_error (upd i (fun _ => v) l') k \/ (k <> i /\ nth_error (upd i (fun _ => v) l) k = nth_error l k /\ nth_error (upd i (fun _ => v) l') k = nth_error l' k).
Proof.
  induction i as [|i IH]; intros [|x l] [|x' l'] [|k] L; cbn in *; try discriminate; auto.
  injection L as L. destruct (IH l l' k L) as [E|(N & E1 & E2)]; auto.
Qed.
Lemma write_len ii : forall vals a, length (fancy_write ii vals a) = length a.
Proof.
  unfold fancy_write. induction ii as [|i ii IH]; intros [|v vals] a; cbn; try reflexivity. now rewrite IH, upd_len.
Qed.
Lemma write_other ii : forall vals a k, ~ In k ii -> nth_error (fancy_write ii vals a) k = nth_error a k.
Proof.
  unfold fancy_write. induction ii as [|i ii IH]; intros [|v vals] a k H; cbn; try reflexivity.
  rewrite IH by (intro; apply H; now right). apply upd_other. intro; apply H; now left.
Qed.
Lemma write_both ii : forall vals a a' k, length ii = length vals -> length a = length a' ->
  nth_error (fancy_write ii vals a) k = nth_error (fancy_write ii vals a') k \/
  (~ In k ii /\ nth_error (fancy_write ii vals a) k = nth_error a k /\ nth_error (fancy_write ii vals a') k = nth_error a' k).
Proof.
  unfold fancy_write. induction ii as [|i ii IH]; intros [|v vals] a a' k L La; cbn in *; try discriminate; [right; auto|].
  injection L as L. destruct (IH vals (upd i (fun _ => v) a) (upd i (fun _ => v) a') k L) as [E|(N & E1 & E2)]; [now rewrite !upd_len|now left|].
  rewrite E1, E2. destruct (upd_both i v a a' k La) as [E|(K & F1 & F2)]; [now left|]. right.
  rewrite F1, F2. split; [|auto]. intros [->|C]; [congruence|contradiction].
Qed.

(** ** The continuum of the coadd *)
Definition lands (n : nat) (idx : list Z) (k : nat) : Prop := exists z, In z idx /\ norm_idx n z = Ok k.
Lemma rseq_lands n idx : forall ii k, rseq (map (norm_idx n) idx) = Ok ii -> In k ii -> lands n idx k.
Proof.
  induction idx as [|z idx IH]; intros ii k H I; cbn in H.
  - injection H as <-. contradiction.
  - destruct (norm_idx n z) as [i|] eqn:E; [|discriminate]. cbn in H. destruct (rseq (map (norm_idx n) idx)) as [l|]; [|discriminate].
    injection H as <-. destruct I as [<-|I]; [exists z; split; [now left|assumption]|].
    destruct (IH l k eq_refl I) as (y & Hy & Ey). exists y. split; [now right|assumption].
Qed.
Lemma lands_rseq n idx : forall ii k, rseq (map (norm_idx n) idx) = Ok ii -> lands n idx k -> In k ii.
Proof.
  induction idx as [|z idx IH]; intros ii k H (y & I & E); [contradiction|]. cbn in H.
  destruct (norm_idx n z) as [i|] eqn:Ez; [|discriminate]. cbn in H. destruct (rseq (map (norm_idx n) idx)) as [l|]; [|discriminate].
  injection H as <-. destruct I as [->|I]; [left; congruence|]. right. apply (IH l k eq_refl). exists y. auto.
Qed.
(** a and a' are the same, but for pixels that none of the arms lands on *)
Definition apart (n : nat) (j j' : nat -> num) (L : nat -> Prop) (a a' : arr) : Prop :=
  length a = n /\ length a' = n /\
  forall k, nth_error a k = nth_error a' k \/ (~ L k /\ k < n /\ nth_error a k = Some (j k) /\ nth_error a' k = Some (j' k)).
Lemma set_apart n j j' (L : nat -> Prop) a a' idx v : apart n j j' L a a' ->
  same_res (apart n j j' (fun k => lands n idx k \/ L k)) (fancy_set a idx v) (fancy_set a' idx v).
Proof.
  intros (L1 & L2 & H). unfold fancy_set. rewrite L1, L2. destruct (rseq (map (norm_idx n) idx)) as [ii|e] eqn:E; [|reflexivity]. cbn [rbind].
  destruct (Nat.eqb_spec (length ii) (length v)) as [Ln|]; [|reflexivity]. cbn [same_res]. split; [|split]; try now rewrite write_len.
  intro k. destruct (write_both ii v a a' k Ln ltac:(congruence)) as [Q|(N & E1 & E2)]; [now left|]. rewrite E1, E2.
  destruct (H k) as [Q|(NL & K & F1 & F2)]; [now left|]. right. repeat split; try assumption.
  intros [C|C]; [|contradiction]. now apply N, (lands_rseq n idx).
Qed.
Lemma sets_apart n j j' (cont : dict arr) (l : dict (list Z)) : forall (L : nat -> Prop) a a', apart n j j' L a a' ->
  same_res (apart n j j' (fun k => (exists arm idx, In (arm, idx) l /\ lands n idx k) \/ L k))
    (for_each l (fun ai (c : arr) => rbind (rget (fst ai) cont) (fun ca => fancy_set c (snd ai) ca)) a)
    (for_each l (fun ai (c : arr) => rbind (rget (fst ai) cont) (fun ca => fancy_set c (snd ai) ca)) a').
Proof.
  induction l as [|[arm idx] l IH]; intros L a a' H; cbn [for_each fst snd].
  - cbn [same_res]. destruct H as (L1 & L2 & H). split; [|split]; try assumption. intro k.
    destruct (H k) as [Q|(N & R)]; [now left|right]. split; [|exact R]. intros [(? & ? & [] & _)|C]; contradiction.
  - destruct (rget arm cont) as [ca|e]; [|reflexivity]. cbn [rbind]. pose proof (set_apart n j j' L a a' idx ca H) as K.
    destruct (fancy_set a idx ca) as [b|e], (fancy_set a' idx ca) as [b'|e']; cbn [same_res] in K; try contradiction; [|now rewrite K].
    cbn [rbind]. specialize (IH _ _ _ K). clear - IH.
    destruct (for_each l _ b) as [d|e], (for_each l _ b') as [d'|e']; cbn [same_res] in *; try contradiction; [|assumption].
    destruct IH as (L1 & L2 & H). split; [|split]; try assumption. intro k. destruct (H k) as [Q|(N & R)]; [now left|right]. split; [|exact R].
    intros [(x & y & [Exy|I] & Ld)|C]; apply N.
    + injection Exy as <- <-. right. now left.
    + left. eauto.
    + right. now right.
Qed.
(** ** The sums of the coadd in pixels that no arm lands on *)
Definition zero_at (k : nat) (a : coadd_acc) : Prop :=
  nth_error (co_flux a) k = Some n0 /\ nth_error (co_ivar a) k = Some n0 /\ nth_error (co_norm a) k = Some n0.
Definition sized (n : nat) (a : coadd_acc) : Prop := length (co_flux a) = n /\ length (co_ivar a) = n /\ length (co_norm a) = n.
Lemma add_other n a idx v b : length a = n -> fancy_add a idx v = Ok b -> length b = n /\ forall k, ~ lands n idx k -> nth_error b k = nth_error a k.
Proof.
  intros Ln H. unfold fancy_add in H. rewrite Ln in H. destruct (rseq (map (norm_idx n) idx)) as [ii|] eqn:E; [|discriminate]. cbn [rbind] in H.
  destruct (Nat.eqb _ _); [|discriminate]. injection H as <-. split; [now rewrite write_len|].
  intros k N. apply write_other. intro C. apply N. now apply (rseq_lands n idx ii).
Qed.
Lemma one_other n idx w f iv a b : sized n a -> coadd_one idx w f iv a = Ok b -> sized n b /\ forall k, ~ lands n idx k -> zero_at k a -> zero_at k b.
Proof.
  intros (S1 & S2 & S3) H. unfold coadd_one in H.
  destruct (zip2 nmul w f) as [wf|]; [|discriminate]. cbn [rbind] in H.
  destruct (zip2 _ w iv) as [wv|]; [|discriminate]. cbn [rbind] in H.
  destruct (fancy_add (co_flux a) idx wf) as [cf|] eqn:E1; [|discriminate]. cbn [rbind] in H.
  destruct (fancy_add (co_ivar a) idx wv) as [ci|] eqn:E2; [|discriminate]. cbn [rbind] in H.
  destruct (fancy_add (co_norm a) idx w) as [cn|] eqn:E3; [|discriminate]. injection H as <-.
  destruct (add_other n _ _ _ _ S1 E1) as [L1 F1], (add_other n _ _ _ _ S2 E2) as [L2 F2], (add_other n _ _ _ _ S3 E3) as [L3 F3].
  split; [now repeat split|]. intros k N (Z1 & Z2 & Z3). unfold zero_at. cbn. rewrite F1, F2, F3 by assumption. auto.
Qed.
Lemma sums_other (f : forest) mn dw n (l : dict (list Qc)) : forall a b, sized n a ->
  for_each l (fun aw (a : coadd_acc) =>
      rbind (rget (fst aw) (fweight f)) (fun w =>
      rbind (rget (fst aw) (fivar f)) (fun iv =>
      rbind (rget (fst aw) (ff f)) (fun fl =>
      coadd_one (map (pix_idx mn dw) (snd aw)) w fl iv a)))) a = Ok b ->
  sized n b /\ forall k, ~ (exists arm wave, In (arm, wave) l /\ lands n (map (pix_idx mn dw) wave) k) -> zero_at k a -> zero_at k b.
Proof.
  induction l as [|[arm wave] l IH]; intros a b Sz H; cbn [for_each fst snd] in H.
  - injection H as <-. split; [assumption|auto].
  - destruct (rget arm (fweight f)) as [w|]; [|discriminate]. cbn [rbind] in H.
    destruct (rget arm (fivar f)) as [iv|]; [|discriminate]. cbn [rbind] in H.
    destruct (rget arm (ff f)) as [fl|]; [|discriminate]. cbn [rbind] in H.
    destruct (coadd_one _ w fl iv a) as [a1|] eqn:E; [|discriminate]. cbn [rbind] in H.
    destruct (one_other n _ _ _ _ _ _ Sz E) as [S1 Z1]. destruct (IH _ _ S1 H) as [S2 Z2]. split; [assumption|].
    intros k N Z. apply Z2.
    + intros (x & y & I & Ld). apply N. exists x, y. split; [now right|assumption].
    + apply Z1; [|assumption]. intro C. apply N. exists arm, wave. split; [now left|assumption].
Qed.
Lemma finish_zero a k : zero_at k a -> nth_error (fst (coadd_finish a)) k = Some n0 /\ nth_error (snd (coadd_finish a)) k = Some n0.
Proof.
  intros (Z1 & Z2 & Z3). unfold coadd_finish. cbn [fst snd].
  assert (forall (g : num -> num -> num) x y, nth_error x k = Some n0 -> nth_error y k = Some n0 -> nth_error (map2 g x y) k = Some (g n0 n0)) as M.
  { clear. intros g x. revert k. induction x as [|u x IH]; intros [|k] [|v y] H1 H2; cbn in *; try discriminate; [congruence|auto]. }
  rewrite !M by assumption. split; reflexivity.
Qed.
