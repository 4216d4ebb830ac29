(** Basic facts about the spectrum model and alignment of the arms (C26). *)
From Coq Require Import ZArith String List Bool Arith Lia Sorted Qcanon.
From Verif Require Import Num NpList NpListFacts Exn Dict ModelSpectrum ModelMasks SpecSpectrum.
Import ListNotations.
Local Open Scope nat_scope.

(** ** zip2 and friends *)
Lemma zip2_Ok {A B C} (f : A -> B -> C) a b r :
  zip2 f a b = Ok r <-> length a = length b /\ r = map2 f a b.
Proof.
  unfold zip2. destruct (Nat.eqb_spec (length a) (length b)) as [E|E]; split.
  - intros [= <-]. auto.
  - intros [_ ->]. easy.
  - discriminate.
  - intros [H _]. contradiction.
Qed.
Lemma zip2_eq {A B C} (f : A -> B -> C) a b :
  length a = length b -> zip2 f a b = Ok (map2 f a b).
Proof. intro H. now apply zip2_Ok. Qed.
Lemma zip3_Ok {A B C D} (f : A -> B -> C -> D) a b c r :
  zip3 f a b c = Ok r <-> length a = length b /\ length b = length c /\ r = map3 f a b c.
Proof.
  unfold zip3. destruct (Nat.eqb_spec (length a) (length b)) as [E|E],
    (Nat.eqb_spec (length b) (length c)) as [F|F]; cbn; split; try discriminate;
    try (intros [= <-]; auto); try (intros (H1 & H2 & ->); try easy; contradiction).
Qed.
Lemma map2_len {A B C} (f : A -> B -> C) a b :
  length a = length b -> length (map2 f a b) = length a.
Proof. intro H. rewrite map2_length, H. apply Nat.min_id. Qed.
Lemma zip2_length {A B C} (f : A -> B -> C) a b r :
  zip2 f a b = Ok r -> length r = length a /\ length r = length b.
Proof. intro H. apply zip2_Ok in H as [H ->]. rewrite map2_len; auto. Qed.
Lemma mask_set_length {A} (v : A) w a r :
  mask_set v w a = Ok r -> length r = length a.
Proof. intro H. now apply zip2_length in H. Qed.

Lemma rseq_map_length {A B} (f : A -> res B) l r :
  rseq (map f l) = Ok r -> length r = length l.
Proof.
  revert r; induction l as [|x l IH]; cbn; intros r H.
  - injection H as <-. easy.
  - apply rbind_Ok in H as (a & _ & H). apply rmap_Ok in H as (r' & E & ->).
    cbn. f_equal. auto.
Qed.
Lemma rseq_Forall2 {A B} (f : A -> res B) l r :
  rseq (map f l) = Ok r <-> Forall2 (fun x y => f x = Ok y) l r.
Proof.
  revert r; induction l as [|x l IH]; cbn; intros r.
  - split; [intros [= <-]; constructor | intro H; inversion H; easy].
  - rewrite rbind_Ok. split.
    + intros (a & E & H). apply rmap_Ok in H as (r' & E' & ->).
      constructor; [easy|]. now apply IH.
    + intro H. inversion H as [|? y ? r' E E']; subst. exists y. split; [easy|].
      apply rmap_Ok. exists r'. split; [|easy]. now apply IH.
Qed.

Lemma fancy_write_length idx vals a : length (fancy_write idx vals a) = length a.
Proof.
  unfold fancy_write. generalize (combine idx vals). intro l. revert a.
  induction l as [|p l IH]; intro a; cbn; [easy|]. rewrite IH. apply upd_length.
Qed.
Lemma fancy_add_length a idx v r : fancy_add a idx v = Ok r -> length r = length a.
Proof.
  unfold fancy_add. intro H. apply rbind_Ok in H as (ii & _ & H).
  destruct (Nat.eqb _ _); [|discriminate]. injection H as <-. apply fancy_write_length.
Qed.
Lemma fancy_set_length a idx v r : fancy_set a idx v = Ok r -> length r = length a.
Proof.
  unfold fancy_set. intro H. apply rbind_Ok in H as (ii & _ & H).
  destruct (Nat.eqb _ _); [|discriminate]. injection H as <-. apply fancy_write_length.
Qed.
Lemma linspace_length a b n : length (linspace a b n) = n.
Proof. unfold linspace. now rewrite map_length, seq_length. Qed.

(** ** A loop that fills a dictionary *)
Lemma for_each_dset {A B} (d : dict A) (g : string -> A -> res B) acc0 acc :
  NoDup (dkeys d) ->
  for_each d (fun kv m => rbind (g (fst kv) (snd kv)) (fun r => Ok (dset (fst kv) r m))) acc0
    = Ok acc ->
  forall k, match dget k d with
            | Some v => exists r, g k v = Ok r /\ dget k acc = Some r
            | None => dget k acc = dget k acc0
            end.
Proof.
  revert acc0; induction d as [|[q v] d IH]; cbn; intros acc0 Hn E k.
  - injection E as <-. easy.
  - inversion Hn as [|? ? N1 N2]; subst.
    apply rbind_Ok in E as (m1 & E1 & E2).
    apply rbind_Ok in E1 as (r & Er & E1). injection E1 as <-.
    specialize (IH _ N2 E2 k).
    destruct (String.eqb_spec k q) as [F|F].
    + subst q. apply dget_None in N1. rewrite N1 in IH.
      exists r. split; [easy|]. rewrite IH. apply dget_dset_same.
    + destruct (dget k d); [easy|]. rewrite IH. now apply dget_dset_other.
Qed.

Lemma for_each_ext {X S} (l : list X) (b1 b2 : X -> S -> res S) s :
  (forall x s, In x l -> b1 x s = b2 x s) -> for_each l b1 s = for_each l b2 s.
Proof.
  revert s; induction l as [|x l IH]; cbn; intros s H; [easy|].
  rewrite H by auto. destruct (b2 x s); cbn; [|easy]. apply IH. auto.
Qed.

(** ** Lengths *)
Lemma len_at_dset {A} (d : dict (list A)) k k' v :
  len_at (dset k' v d) k = if String.eqb k k' then Some (length v) else len_at d k.
Proof. unfold len_at. rewrite dget_dset. now destruct (String.eqb k k'). Qed.
Lemma len_at_dpop {A} (d : dict (list A)) k k' :
  len_at (dpop k' d) k = if String.eqb k k' then None else len_at d k.
Proof. unfold len_at. rewrite dget_dpop. now destruct (String.eqb k k'). Qed.
Lemma len_at_Some {A} (d : dict (list A)) k v :
  dget k d = Some v -> len_at d k = Some (length v).
Proof. unfold len_at. now intros ->. Qed.

Definition deref (r : nat) (f : forest) : dict arr := nth r (hp f) [].
Lemma deref_mut r r' g f :
  r < length (hp f) ->
  deref r (mut_ref r' g f) = if Nat.eqb r r' then g (deref r f) else deref r f.
Proof. intro H. unfold deref, mut_ref. cbn. now rewrite nth_upd. Qed.
Lemma deref_app r f d : r < length (hp f) -> nth r (hp f ++ [d]) [] = deref r f.
Proof. intro H. now rewrite app_nth1. Qed.
Lemma nth_app_last {A} (l : list A) x d : nth (length l) (l ++ [x]) d = x.
Proof. rewrite app_nth2 by lia. now rewrite Nat.sub_diag. Qed.

(** Internal invariant: references are allocated, keys are unique, lengths agree. *)
Record wff (f : forest) : Prop := mkWff {
  wf_ri : ri f < length (hp f);
  wf_rs : rs f < length (hp f);
  wf_rw : rw f < length (hp f);
  wf_nd : NoDup (dkeys (fw f));
  wf_ff : forall a, len_at (ff f) a = len_at (fw f) a;
  wf_iv : forall a, len_at (deref (ri f) f) a = len_at (fw f) a;
  wf_sm : forall a, len_at (deref (rs f) f) a = len_at (fw f) a;
  wf_wt : forall a, len_at (deref (rw f) f) a = len_at (fw f) a }.

Lemma wff_aligned s : wff (s_f s) -> aligned s.
Proof.
  intros [A B C N F I S W] arm. unfold fivar, fivar_sm, fweight.
  repeat split; [apply F|apply I|apply S|apply W].
Qed.

Ltac lenat := repeat rewrite ?len_at_dset, ?len_at_dpop.

(** replacing an arm's ivar in place by an array of the same length *)
Lemma wff_mut_dset f r arm v :
  wff f -> r < length (hp f) -> len_at (fw f) arm = Some (length v) ->
  wff (mut_ref r (dset arm v) f).
Proof.
  intros [A B C N F I S W] Hr L.
  constructor; cbn [fw ff ri rs rw mut_ref]; auto;
    try (cbn; rewrite upd_length; assumption); intro a;
    change (mkForest _ _ _ _ _ _ _) with (mut_ref r (dset arm v) f);
    rewrite deref_mut by assumption;
    destruct (Nat.eqb _ _); auto; lenat;
    destruct (String.eqb_spec a arm) as [E|E]; auto; subst a; auto.
Qed.
Lemma wff_set_ff f arm v :
  wff f -> len_at (fw f) arm = Some (length v) -> wff (set_ff (dset arm v (ff f)) f).
Proof.
  intros [A B C N F I S W] L. constructor; cbn; auto.
  intro a. lenat. destruct (String.eqb_spec a arm) as [E|E]; auto. now subst a.
Qed.

(** ** Masks and calibrations *)
Lemma with_arm_wff arm f k f' :
  wff f ->
  (forall fl iv p, k fl iv = Ok p ->
     length (fst p) = length fl /\ length (snd p) = length iv) ->
  with_arm arm f k = Ok f' -> wff f' /\ fw f' = fw f.
Proof.
  intros H K E. unfold with_arm in E.
  apply rbind_Ok in E as (fl & E1 & E). apply rbind_Ok in E as (iv & E2 & E).
  apply rbind_Ok in E as (p & E3 & E). injection E as <-.
  apply rget_Ok in E1, E2. apply K in E3 as [L1 L2].
  apply len_at_Some in E1, E2. split; [|easy].
  rewrite (wf_ff f H) in E1. fold (deref (ri f) f) in E2. unfold fivar in E2.
  fold (deref (ri f) f) in E2. rewrite (wf_iv f H) in E2.
  apply wff_mut_dset.
  - apply wff_set_ff; [easy|]. now rewrite E1, L1.
  - apply (wf_ri f H).
  - cbn. congruence.
Qed.
Lemma with_ivar_wff arm f k f' :
  wff f -> (forall iv r, k iv = Ok r -> length r = length iv) ->
  with_ivar arm f k = Ok f' -> wff f' /\ fw f' = fw f.
Proof.
  intros H K E. unfold with_ivar in E.
  apply rbind_Ok in E as (iv & E2 & E). apply rbind_Ok in E as (p & E3 & E).
  injection E as <-. apply rget_Ok in E2. apply K in E3.
  apply len_at_Some in E2. split; [|easy].
  unfold fivar in E2. fold (deref (ri f) f) in E2. rewrite (wf_iv f H) in E2.
  apply wff_mut_dset; [easy|apply (wf_ri f H)|congruence].
Qed.
Lemma zero_pixels_length w fl iv p :
  zero_pixels w fl iv = Ok p -> length (fst p) = length fl /\ length (snd p) = length iv.
Proof.
  unfold zero_pixels. intro E. apply rbind_Ok in E as (a & E1 & E).
  apply rbind_Ok in E as (b & E2 & E). injection E as <-.
  apply mask_set_length in E1, E2. auto.
Qed.
Lemma dla_arm_length l t fl iv p :
  dla_arm l t fl iv = Ok p -> length (fst p) = length fl /\ length (snd p) = length iv.
Proof.
  unfold dla_arm. intro E.
  apply rbind_Ok in E as (a & E1 & E). apply rbind_Ok in E as (b & E2 & E).
  apply rbind_Ok in E as (c & E3 & E). apply rbind_Ok in E as (d & E4 & E).
  apply rbind_Ok in E as (e & E5 & E). injection E as <-.
  apply mask_set_length in E1, E2, E3. apply zip2_length in E4, E5. cbn. intuition congruence.
Qed.
Lemma flux_cal_arm_length sf w fl iv p :
  flux_cal_arm sf w fl iv = Ok p -> length (fst p) = length fl /\ length (snd p) = length iv.
Proof.
  unfold flux_cal_arm. intro E.
  apply rbind_Ok in E as (a & E1 & E). apply rbind_Ok in E as (b & E2 & E).
  injection E as <-. apply zip2_length in E1, E2. cbn. intuition congruence.
Qed.

(** a loop over the arms that changes one arm at a time *)
Lemma arms_loop_wff {X} (l : list X) body f f' :
  wff f ->
  (forall x g g', wff g -> body x g = Ok g' -> wff g' /\ fw g' = fw g) ->
  for_each l body f = Ok f' -> wff f' /\ fw f' = fw f.
Proof.
  intros H B E.
  apply (for_each_inv (fun g => wff g /\ fw g = fw f) l body f f'); auto.
  intros x g g' _ [G1 G2] Eb. apply B in Eb as [B1 B2]; [|easy]. split; congruence.
Qed.

Lemma mask_apply_wff dla_flux m s s' :
  wff (s_f s) -> mask_apply dla_flux m s = Ok s' -> wff (s_f s').
Proof.
  intros H E. destruct m as [m| |m]; cbn in E.
  - unfold skymask_apply in E. apply rmap_Ok in E as (f & E & ->). cbn.
    apply arms_loop_wff in E; [apply E|easy|]. intros x g g' G B.
    eapply with_arm_wff; eauto. intros ? ? ?. apply zero_pixels_length.
  - unfold balmask_apply in E. apply rbind_Ok in E as (v & _ & E).
    destruct v as [|v0 vs]; [now injection E as <-|].
    apply rmap_Ok in E as (f & E & ->). cbn [s_f set_f].
    apply arms_loop_wff in E; [apply E|easy|]. intros x g g' G B.
    eapply with_arm_wff; eauto. intros ? ? ?. apply zero_pixels_length.
  - unfold dlamask_apply in E. destruct (nonzero _) as [|i r]; [now injection E as <-|].
    apply rbind_Ok in E as (v & _ & E).
    apply rmap_Ok in E as (f & E & ->). cbn [s_f set_f].
    apply arms_loop_wff in E; [apply E|easy|]. intros x g g' G B.
    eapply with_arm_wff; eauto. intros ? ? ?. apply dla_arm_length.
Qed.
Lemma flux_cal_wff sf s s' :
  wff (s_f s) -> flux_calibrate1 sf s = Ok s' -> wff (s_f s').
Proof.
  intros H E. unfold flux_calibrate1 in E. apply rmap_Ok in E as (f & E & ->). cbn [s_f set_f].
  apply arms_loop_wff in E; [apply E|easy|]. intros x g g' G B.
  eapply with_arm_wff; eauto. intros ? ? ?. apply flux_cal_arm_length.
Qed.
Lemma noise_eta_wff eta s s' :
  wff (s_f s) -> noise_eta eta s = Ok s' -> wff (s_f s').
Proof.
  intros H E. unfold noise_eta in E. apply rmap_Ok in E as (f & E & ->). cbn [s_f set_f].
  apply arms_loop_wff in E; [apply E|easy|]. intros x g g' G B.
  eapply with_ivar_wff; eauto. intros ? ? Ez. apply zip2_length in Ez. easy.
Qed.
Lemma noise_additive_wff eta vl s s' :
  wff (s_f s) -> noise_additive eta vl s = Ok s' -> wff (s_f s').
Proof.
  intros H E. unfold noise_additive in E. apply rmap_Ok in E as (f & E & ->). cbn [s_f set_f].
  apply arms_loop_wff in E; [apply E|easy|]. intros x g g' G B.
  apply rbind_Ok in B as (c & _ & B).
  eapply with_ivar_wff; eauto. intros iv r Ez.
  unfold noise_additive_arm in Ez.
  apply rbind_Ok in Ez as (a1 & E1 & Ez). apply rbind_Ok in Ez as (a2 & E2 & Ez).
  apply rbind_Ok in Ez as (a3 & E3 & Ez). apply rbind_Ok in Ez as (a4 & E4 & Ez).
  injection Ez as <-. rewrite map_length. now apply zip2_length in E4.
Qed.

(** ** Aliasing assignments *)
Lemma wff_alias_sm f : wff f -> wff (alias_sm_to_ivar f).
Proof. intros [A B C N F I S W]. constructor; cbn; auto. Qed.
Lemma wff_alias_wt_sm f : wff f -> wff (alias_weight_to_sm f).
Proof. intros [A B C N F I S W]. constructor; cbn; auto. Qed.
Lemma wff_alias_wt_iv f : wff f -> wff (alias_weight_to_ivar f).
Proof. intros [A B C N F I S W]. constructor; cbn; auto. Qed.
Lemma len_at_app_old {A} (l : list (dict (list A))) r d a x :
  r < length l -> len_at (nth r l []) a = x -> len_at (nth r (l ++ [d]) []) a = x.
Proof. intros H E. now rewrite app_nth1. Qed.
Lemma wff_new_sm f d :
  wff f -> (forall a, len_at d a = len_at (fw f) a) -> wff (new_sm d f).
Proof.
  intros [A B C N F I S W] H. unfold deref in *.
  constructor; cbn; rewrite ?app_length; cbn; try lia; auto; intro a; unfold deref; cbn;
    try (apply len_at_app_old; auto; fail).
  rewrite nth_app_last. apply H.
Qed.
Lemma wff_new_weight f d :
  wff f -> (forall a, len_at d a = len_at (fw f) a) -> wff (new_weight d f).
Proof.
  intros [A B C N F I S W] H. unfold deref in *.
  constructor; cbn; rewrite ?app_length; cbn; try lia; auto; intro a; unfold deref; cbn;
    try (apply len_at_app_old; auto; fail).
  rewrite nth_app_last. apply H.
Qed.

Lemma set_smooth_wff smooth dwave size s :
  (forall iv x, length (smooth iv x) = length iv) ->
  wff (s_f s) -> wff (s_f (set_smooth_forestivar smooth dwave size s)).
Proof.
  intros Hs H. unfold set_smooth_forestivar. destruct (qleb size 0); cbn.
  - now apply wff_alias_wt_sm, wff_alias_sm.
  - apply wff_alias_wt_sm, wff_new_sm; [easy|]. intro a.
    rewrite <- (wf_iv _ H). unfold len_at, fivar, deref. rewrite dget_dmap.
    destruct (dget a _); cbn; [now rewrite Hs|easy].
Qed.

Lemma weight_arm_length vl eta w iv c r :
  weight_arm vl eta w iv c = Ok r -> length r = length w.
Proof.
  unfold weight_arm. intro E.
  apply rbind_Ok in E as (a1 & E1 & E). apply rbind_Ok in E as (a2 & E2 & E).
  apply rbind_Ok in E as (a3 & E3 & E).
  apply zip2_length in E1, E2, E3, E. intuition congruence.
Qed.
Lemma set_forest_weight_wff vl eta s s' :
  wff (s_f s) -> set_forest_weight vl eta s = Ok s' -> wff (s_f s').
Proof.
  intros H E. unfold set_forest_weight in E.
  destruct (negb (s_valid s) || negb (dtrue (s_cont s))).
  - injection E as <-. cbn. now apply wff_alias_wt_sm.
  - apply rbind_Ok in E as (wts & E & E'). injection E' as <-. cbn.
    apply wff_new_weight; [easy|]. intro a.
    pose (g := fun arm wave =>
      rbind (rget arm (s_cont s)) (fun c =>
      rbind (rget arm (fivar_sm (s_f s))) (fun iv => weight_arm vl eta wave iv c))).
    assert (for_each (fw (s_f s)) (fun kv m =>
              rbind (g (fst kv) (snd kv)) (fun r => Ok (dset (fst kv) r m))) [] = Ok wts) as E2.
    { rewrite <- E. apply for_each_ext. intros x m _. unfold g.
      destruct (rget (fst x) (s_cont s)) as [c|]; cbn; [|easy].
      destruct (rget (fst x) (fivar_sm (s_f s))) as [iv|]; cbn; easy. }
    apply (for_each_dset (fw (s_f s)) g [] wts (wf_nd _ H)) with (k := a) in E2.
    unfold len_at. destruct (dget a (fw (s_f s))) as [w|] eqn:Ew.
    + destruct E2 as (r & Er & ->). cbn. f_equal. unfold g in Er.
      apply rbind_Ok in Er as (c & _ & Er). apply rbind_Ok in Er as (iv & _ & Er).
      eapply weight_arm_length; eauto.
    + now rewrite E2.
Qed.

(** ** Dropping arms *)
Lemma mut3_dpop arm r r1 r2 r3 (h : list (dict arr)) a :
  r < length h -> r = r1 \/ r = r2 \/ r = r3 ->
  len_at (nth r (upd r3 (dpop arm) (upd r2 (dpop arm) (upd r1 (dpop arm) h))) []) a
  = if String.eqb a arm then None else len_at (nth r h []) a.
Proof.
  intros H Hr. rewrite !nth_upd by (rewrite ?upd_length; assumption).
  destruct (Nat.eqb_spec r r1), (Nat.eqb_spec r r2), (Nat.eqb_spec r r3);
    try (exfalso; intuition congruence); lenat; now destruct (String.eqb a arm).
Qed.
Lemma drop_arm_wff arm s : wff (s_f s) -> wff (s_f (drop_arm arm s)).
Proof.
  intros [A B C N F I S W]. unfold deref in *.
  unfold drop_arm. cbn.
  constructor; cbn; rewrite ?upd_length; auto; try now apply dpop_NoDup.
  - intro a. lenat. destruct (String.eqb a arm); auto.
  - intro a. unfold deref. cbn. lenat. rewrite mut3_dpop by auto.
    destruct (String.eqb a arm); auto.
  - intro a. unfold deref. cbn. lenat. rewrite mut3_dpop by auto.
    destruct (String.eqb a arm); auto.
  - intro a. unfold deref. cbn. lenat. rewrite mut3_dpop by auto.
    destruct (String.eqb a arm); auto.
Qed.
Lemma drop_short_wff dw a b sk s : wff (s_f s) -> wff (s_f (drop_short_arms dw a b sk s)).
Proof.
  unfold drop_short_arms. match goal with |- context [fold_left _ ?q s] => generalize q end.
  intro l. revert s. induction l as [|x l IH]; cbn; intros s H; [easy|].
  apply IH. now apply drop_arm_wff.
Qed.

(** ** Forest region *)
Lemma slice_len_eq {A B} i j (a : list A) (b : list B) :
  length a = length b -> length (slice i j a) = length (slice i j b).
Proof. intro H. now rewrite !slice_length, H. Qed.

(** during the loop of set_forest_region only flux and ivar are kept aligned *)
Record wff' (f : forest) : Prop := mkWff' {
  wf'_ri : ri f < length (hp f);
  wf'_nd : NoDup (dkeys (fw f));
  wf'_ff : forall a, len_at (ff f) a = len_at (fw f) a;
  wf'_iv : forall a, len_at (deref (ri f) f) a = len_at (fw f) a }.

Lemma set_forest_related_forest nsqrt s s' :
  set_forest_related nsqrt s = Ok s' -> s_f s' = s_f s.
Proof.
  unfold set_forest_related. intro E. apply rbind_Ok in E as ([[x0 wt] ms] & _ & E).
  injection E as <-. easy.
Qed.

Lemma set_forest_region_wff nsqrt w1 w2 a b s s' :
  data_matches_grid s -> NoDup (dkeys (s_wave s)) ->
  wff (s_f s) -> set_forest_region nsqrt w1 w2 a b s = Ok s' -> wff (s_f s').
Proof.
  intros D ND H E. unfold set_forest_region in E.
  destruct (forest_limits (s_z s) w1 w2 a b) as [l1 l2].
  apply rbind_Ok in E as (f & E & E'). apply set_forest_related_forest in E'.
  rewrite E'. cbn.
  assert (wff' f) as [A N F I].
  { eapply (for_each_inv wff'); [| |exact E].
    2: destruct H; constructor; auto.
    intros [arm wave] g g' Hx [A N F I] B. cbn in B.
    apply In_pair_dget in Hx; [|easy].
    apply rbind_Ok in B as (iv & E1 & B). apply rget_Ok in E1.
    destruct (Nat.eqb _ 0) in B; [injection B as <-; now constructor|].
    apply rbind_Ok in B as (fl & E2 & B). apply rget_Ok in E2.
    destruct (D arm) as [D1 D2].
    rewrite (len_at_Some _ _ _ E2), (len_at_Some _ _ _ Hx) in D1.
    rewrite (len_at_Some _ _ _ E1), (len_at_Some _ _ _ Hx) in D2.
    injection D1 as D1. injection D2 as D2.
    assert (forall g2, fw g2 = dset arm (slice (searchsorted wave l1) (searchsorted wave l2) wave) (fw g) ->
      ff g2 = dset arm (slice (searchsorted wave l1) (searchsorted wave l2) fl) (ff g) ->
      ri g2 = ri g ->
      hp g2 = upd (ri g) (dset arm (slice (searchsorted wave l1) (searchsorted wave l2) iv)) (hp g) ->
      wff' g2) as K.
    { intros g2 K1 K2 K3 K4. constructor.
      - now rewrite K3, K4, upd_length.
      - rewrite K1. now apply dset_NoDup.
      - intro x. rewrite K1, K2, !len_at_dset.
        destruct (String.eqb x arm); [f_equal; now apply slice_len_eq|auto].
      - intro x. unfold deref. rewrite K1, K3, K4, nth_upd, Nat.eqb_refl by assumption.
        rewrite !len_at_dset.
        destruct (String.eqb x arm); [f_equal; now apply slice_len_eq|apply I]. }
    destruct (dtrue (s_reso s)).
    - apply rbind_Ok in B as (m & _ & B). injection B as <-. apply K; easy.
    - injection B as <-. apply K; easy. }
  constructor; cbn; auto.
Qed.

(** ** Coadding *)
Lemma coadd_one_lengths n idx w fl iv a a' :
  length (co_flux a) = n /\ length (co_ivar a) = n /\ length (co_norm a) = n ->
  coadd_one idx w fl iv a = Ok a' ->
  length (co_flux a') = n /\ length (co_ivar a') = n /\ length (co_norm a') = n.
Proof.
  intros (H1 & H2 & H3) E. unfold coadd_one in E.
  apply rbind_Ok in E as (x1 & E1 & E). apply rbind_Ok in E as (x2 & E2 & E).
  apply rbind_Ok in E as (x3 & E3 & E). apply rbind_Ok in E as (x4 & E4 & E).
  apply rbind_Ok in E as (x5 & E5 & E). injection E as <-. cbn.
  apply fancy_add_length in E3, E4, E5. intuition congruence.
Qed.
Lemma coadd_finish_lengths n a :
  length (co_flux a) = n /\ length (co_ivar a) = n /\ length (co_norm a) = n ->
  length (fst (coadd_finish a)) = n /\ length (snd (coadd_finish a)) = n.
Proof.
  intros (H1 & H2 & H3). unfold coadd_finish. cbn. rewrite !map2_len by congruence. auto.
Qed.

Lemma coadd_wff nsqrt smooth junk dw vl eta s s' :
  (forall iv x, length (smooth iv x) = length iv) ->
  wff (s_f s) ->
  coadd_arms_forest nsqrt smooth junk dw vl eta s = Ok s' -> wff (s_f s').
Proof.
  intros Hs H E. unfold coadd_arms_forest in E.
  apply rbind_Ok in E as (firsts & _ & E). apply rbind_Ok in E as (lasts & _ & E).
  apply rbind_Ok in E as (mn & _ & E). apply rbind_Ok in E as (mx & _ & E).
  set (n := Z.to_nat _) in E.
  apply rbind_Ok in E as (a & Ea & E).
  assert (length (co_flux a) = n /\ length (co_ivar a) = n /\ length (co_norm a) = n) as L.
  { refine (for_each_inv (fun a => length (co_flux a) = n /\ length (co_ivar a) = n /\
              length (co_norm a) = n) _ _ _ _ _ _ Ea).
    - intros x b b' _ Lb B. apply rbind_Ok in B as (w & _ & B).
      apply rbind_Ok in B as (iv & _ & B). apply rbind_Ok in B as (fl & _ & B).
      eapply coadd_one_lengths; eauto.
    - cbn. rewrite !repeat_length. auto. }
  destruct (coadd_finish a) as [cf ci] eqn:Ef.
  apply coadd_finish_lengths in L. rewrite Ef in L. cbn in L. destruct L as [Lf Li].
  apply rbind_Ok in E as (cont1 & _ & E). apply rbind_Ok in E as (reso1 & _ & E).
  apply rbind_Ok in E as (s3 & E3 & E). apply rbind_Ok in E as (d & _ & E).
  injection E as <-. cbn [s_f set_msnr].
  apply set_forest_weight_wff in E3; [easy|].
  set (g := set_fr reso1 _) in *.
  (* only the ivar dictionary is new; sm and weight are rebound *)
  destruct H as [A B C N F I S W].
  assert (ri g = length (hp (s_f s))) as Er by reflexivity.
  assert (hp g = hp (s_f s) ++ [[("brz"%string, ci)]]) as Eh by reflexivity.
  assert (fw g = [("brz"%string, linspace mn mx n)]) as Ew by reflexivity.
  assert (ff g = [("brz"%string, cf)]) as Eff by reflexivity.
  clearbody g.
  assert (wff (alias_weight_to_sm (alias_sm_to_ivar g))) as Wg.
  { constructor; cbn; rewrite ?Er, ?Eh, ?app_length; cbn; try lia.
    - rewrite Ew. cbn. repeat constructor. easy.
    - intro x. rewrite Ew, Eff. unfold len_at. cbn. destruct (String.eqb x "brz"); cbn; [|easy].
      now rewrite linspace_length, Lf.
    - intro x. unfold deref, alias_weight_to_sm, alias_sm_to_ivar. cbn [hp ri rs rw fw].
      rewrite ?Er, ?Eh, ?Ew, nth_app_last. unfold len_at. cbn.
      destruct (String.eqb x "brz"); cbn; [|easy]. now rewrite linspace_length, Li.
    - intro x. unfold deref, alias_weight_to_sm, alias_sm_to_ivar. cbn [hp ri rs rw fw].
      rewrite ?Er, ?Eh, ?Ew, nth_app_last. unfold len_at. cbn.
      destruct (String.eqb x "brz"); cbn; [|easy]. now rewrite linspace_length, Li.
    - intro x. unfold deref, alias_weight_to_sm, alias_sm_to_ivar. cbn [hp ri rs rw fw].
      rewrite ?Er, ?Eh, ?Ew, nth_app_last. unfold len_at. cbn.
      destruct (String.eqb x "brz"); cbn; [|easy]. now rewrite linspace_length, Li. }
  unfold set_smooth_forestivar. cbn [s_f set_cont set_f s_sscale set_sscale].
  destruct (qleb (s_sscale s) 0); cbn [s_f set_cont set_f s_sscale set_sscale]; [exact Wg|].
  destruct Wg as [A1 B1 C1 N1 F1 I1 S1 W1]. cbn in *.
  constructor; cbn; rewrite ?app_length; cbn; try lia; auto.
  - intro x. unfold deref. cbn. rewrite app_nth1 by lia. apply I1.
  - intro x. unfold deref. cbn. rewrite nth_app_last.
    rewrite <- I1. unfold len_at, fivar, deref. cbn. rewrite dget_dmap.
    destruct (dget x _); cbn; [now rewrite Hs|easy].
  - intro x. unfold deref. cbn. rewrite nth_app_last.
    rewrite <- I1. unfold len_at, fivar, deref. cbn. rewrite dget_dmap.
    destruct (dget x _); cbn; [now rewrite Hs|easy].
Qed.

(** ** Main invariant *)
Definition inv26 (s : spec) : Prop :=
  data_matches_grid s /\ NoDup (dkeys (s_wave s)) /\ wff (s_f s).

Lemma set_forest_related_same nsqrt s s' :
  set_forest_related nsqrt s = Ok s' ->
  s_wave s' = s_wave s /\ s_flux s' = s_flux s /\ s_ivar s' = s_ivar s /\
  s_cont s' = s_cont s /\ s_valid s' = s_valid s /\ s_cat s' = s_cat s.
Proof.
  unfold set_forest_related. intro E. apply rbind_Ok in E as ([[x0 wt] ms] & _ & E).
  injection E as <-. easy.
Qed.

Definition same_data (s s' : spec) : Prop :=
  s_wave s' = s_wave s /\ s_flux s' = s_flux s /\ s_ivar s' = s_ivar s.
Lemma same_data_fold l s :
  same_data s (fold_left (fun acc arm => drop_arm arm acc) l s).
Proof.
  revert s. induction l as [|x l IH]; cbn; intro s; [easy|].
  destruct (IH (drop_arm x s)) as (A & B & C). unfold same_data. rewrite A, B, C. easy.
Qed.

Lemma nth_upd3 {A} (g1 g2 g3 : A -> A) r1 r2 r3 (h : list A) r d :
  r1 < length h -> r2 < length h -> r3 < length h -> r < length h ->
  nth r (upd r3 g3 (upd r2 g2 (upd r1 g1 h))) d =
  (let x := if Nat.eqb r r1 then g1 (nth r h d) else nth r h d in
   let y := if Nat.eqb r r2 then g2 x else x in
   if Nat.eqb r r3 then g3 y else y).
Proof.
  intros. rewrite !nth_upd by (rewrite ?upd_length; assumption). easy.
Qed.

(** slice keeps the arrays aligned if the three dictionaries are different
    objects, or if nothing is removed at the start *)
Lemma spec_slice_wff arm i1 i2 s s' :
  wff (s_f s) ->
  i1 = 0 \/ (ri (s_f s) <> rs (s_f s) /\ ri (s_f s) <> rw (s_f s) /\ rs (s_f s) <> rw (s_f s)) ->
  spec_slice arm i1 i2 s = Ok s' -> wff (s_f s').
Proof.
  intros W Hal E. unfold spec_slice in E.
  apply rbind_Ok in E as (wv & Ew & E). apply rget_Ok in Ew.
  destruct (Nat.eqb i1 0 && _); [now injection E as <-|].
  apply rbind_Ok in E as (fl & Ef & E). apply rget_Ok in Ef.
  apply rbind_Ok in E as (iv & Ei & E). apply rget_Ok in Ei.
  apply rbind_Ok in E as (sm & Es & E). apply rget_Ok in Es.
  apply rbind_Ok in E as (wt & Et & E). apply rget_Ok in Et.
  injection E as <-.
  unfold fivar, fivar_sm, fweight in Ei, Es, Et.
  cbn [fw ff ri rs rw hp mut_ref set_ff set_fw] in Ei, Es, Et.
  destruct W as [A B C N F I S Wt]. unfold deref in *.
  set (f := s_f s) in *.
  assert (length fl = length wv) as Lf.
  { specialize (F arm). unfold len_at in F. rewrite Ef, Ew in F. cbn in F. congruence. }
  assert (length iv = length wv) as Li.
  { specialize (I arm). unfold len_at in I. rewrite Ei, Ew in I. cbn in I. congruence. }
  rewrite nth_upd in Es by assumption.
  rewrite !nth_upd in Et by (rewrite ?upd_length; assumption).
  assert (length (slice i1 i2 sm) = length (slice i1 i2 wv)) as Ls.
  { destruct (Nat.eqb_spec (rs f) (ri f)) as [Q|Q].
    - rewrite dget_dset_same in Es. injection Es as <-.
      rewrite !slice_length. destruct Hal as [-> | (H & _)]; [lia|congruence].
    - specialize (S arm). unfold len_at in S. rewrite Es, Ew in S. cbn in S. injection S as S.
      now rewrite !slice_length, S. }
  assert (length (slice i1 i2 iv) = length (slice i1 i2 wv)) as Li'.
  { now rewrite !slice_length, Li. }
  assert (length (slice i1 i2 wt) = length (slice i1 i2 wv)) as Lt.
  { destruct (Nat.eqb_spec (rw f) (rs f)) as [Q|Q].
    - rewrite dget_dset_same in Et. injection Et as <-.
      rewrite slice_length, Ls, !slice_length.
      destruct Hal as [-> | (_ & _ & H)]; [lia|congruence].
    - destruct (Nat.eqb_spec (rw f) (ri f)) as [Q'|Q'].
      + rewrite dget_dset_same in Et. injection Et as <-.
        rewrite slice_length, Li', !slice_length.
        destruct Hal as [-> | (_ & H & _)]; [lia|congruence].
      + specialize (Wt arm). unfold len_at in Wt. rewrite Et, Ew in Wt. cbn in Wt. injection Wt as Wt.
        now rewrite !slice_length, Wt. }
  assert (length (slice i1 i2 fl) = length (slice i1 i2 wv)) as Lf'.
  { now rewrite !slice_length, Lf. }
  match goal with |- wff (s_f (match _ with Some _ => set_cont _ (set_f ?g _) | None => _ end)) =>
    enough (wff g) as G by (cbn [s_cont set_f]; destruct (dget arm (s_cont s)); assumption) end.
  match goal with |- wff (match _ with Some _ => set_fr _ ?g | None => _ end) =>
    enough (wff g) as G by (match goal with |- wff (match ?x with Some _ => _ | None => _ end) => destruct x end; [|exact G];
      destruct G; constructor; assumption) end.
  constructor; cbn [fw ff ri rs rw hp mut_ref set_ff set_fw]; rewrite ?upd_length; auto.
  - now apply dset_NoDup.
  - intro a. rewrite !len_at_dset. destruct (String.eqb a arm); [congruence|apply F].
  - intro a. unfold deref. cbn [hp mut_ref set_ff set_fw]. rewrite nth_upd3 by assumption. cbn zeta. rewrite Nat.eqb_refl.
    destruct (Nat.eqb_spec (ri f) (rs f)) as [Q|Q], (Nat.eqb_spec (ri f) (rw f)) as [Q'|Q'];
      rewrite !len_at_dset; destruct (String.eqb a arm); try congruence; apply I.
  - intro a. unfold deref. cbn [hp mut_ref set_ff set_fw]. rewrite nth_upd3 by assumption. cbn zeta. rewrite Nat.eqb_refl.
    destruct (Nat.eqb_spec (rs f) (ri f)) as [Q|Q], (Nat.eqb_spec (rs f) (rw f)) as [Q'|Q'];
      rewrite !len_at_dset; destruct (String.eqb a arm); try congruence; apply S.
  - intro a. unfold deref. cbn [hp mut_ref set_ff set_fw]. rewrite nth_upd3 by assumption. cbn zeta. rewrite Nat.eqb_refl.
    destruct (Nat.eqb_spec (rw f) (ri f)) as [Q|Q], (Nat.eqb_spec (rw f) (rs f)) as [Q'|Q'];
      rewrite !len_at_dset; destruct (String.eqb a arm); try congruence; apply Wt.
Qed.

Lemma run_op_inv nsqrt smooth dla_flux dw o s s' :
  (forall iv x, length (smooth iv x) = length iv) ->
  head_slice o = false ->
  inv26 s -> run_op nsqrt smooth dla_flux dw o s = Ok s' -> inv26 s'.
Proof.
  intros Hs Ho (D & N & H) E.
  assert (forall t, same_data s t -> wff (s_f t) -> inv26 t) as K.
  { intros t (K1 & K2 & K3) W. unfold inv26, data_matches_grid. rewrite K1, K2, K3. auto. }
  destruct o; cbn [run_op head_slice] in E, Ho; try discriminate Ho.
  - (* region *)
    apply K.
    + unfold set_forest_region in E.
      destruct (forest_limits _ _ _ _ _). apply rbind_Ok in E as (f & _ & E).
      apply set_forest_related_same in E. cbn in E. unfold same_data. intuition.
    + eapply set_forest_region_wff; eauto.
  - injection E as <-. split; [|split]; cbn; auto; [|constructor].
    intro arm; cbn; auto.
  - apply K; [|eapply mask_apply_wff; eauto].
    destruct m as [m| |m]; cbn [mask_apply] in E.
    + unfold skymask_apply in E. apply rmap_Ok in E as (f & _ & ->). easy.
    + unfold balmask_apply in E. apply rbind_Ok in E as (v & _ & E).
      destruct v; [injection E as <-; easy|]. apply rmap_Ok in E as (f & _ & ->). easy.
    + unfold dlamask_apply in E. destruct (nonzero _); [injection E as <-; easy|].
      apply rbind_Ok in E as (v & _ & E). apply rmap_Ok in E as (f & _ & ->). easy.
  - apply K; [|eapply noise_eta_wff; eauto].
    unfold noise_eta in E. apply rmap_Ok in E as (f & _ & ->). easy.
  - apply K; [|eapply noise_additive_wff; eauto].
    unfold noise_additive in E. apply rmap_Ok in E as (f & _ & ->). easy.
  - apply K; [|eapply flux_cal_wff; eauto].
    unfold flux_calibrate1 in E. apply rmap_Ok in E as (f & _ & ->). easy.
  - injection E as <-. apply K; [|now apply set_smooth_wff].
    unfold set_smooth_forestivar. destruct (qleb size 0); easy.
  - apply K; [|eapply set_forest_weight_wff; eauto].
    unfold set_forest_weight in E.
    destruct (negb _ || negb _); [injection E as <-; easy|].
    apply rbind_Ok in E as (f & _ & E). injection E as <-. easy.
  - unfold calc_continuum_chi2 in E.
    destruct (negb _ || negb _); [injection E as <-; apply K; easy|].
    apply rbind_Ok in E as (f & _ & E). injection E as <-. apply K; easy.
  - apply K; [|eapply coadd_wff; eauto].
    unfold coadd_arms_forest in E.
    repeat (apply rbind_Ok in E as (? & ? & E)). injection E as <-.
    rename H7 into E3. unfold set_forest_weight in E3.
    destruct (negb _ || negb _).
    + injection E3 as <-. cbn. unfold set_smooth_forestivar. destruct (qleb _ _); easy.
    + apply rbind_Ok in E3 as (wts & _ & E3). injection E3 as <-.
      unfold set_smooth_forestivar. destruct (qleb _ _); easy.
  - injection E as <-. apply K; [easy|now apply drop_arm_wff].
  - injection E as <-. apply K; [|now apply drop_short_wff].
    unfold drop_short_arms. apply same_data_fold.
  - injection E as <-. apply K; easy.
  - apply negb_false_iff, Nat.eqb_eq in Ho. apply K; [|eapply spec_slice_wff; eauto].
    unfold spec_slice in E. apply rbind_Ok in E as (? & ? & E).
    destruct (Nat.eqb i1 0 && _); [injection E as <-; easy|].
    repeat (apply rbind_Ok in E as (? & ? & E)). injection E as <-.
    now destruct (dget arm (s_cont _)).
Qed.

Lemma inv26_run nsqrt smooth dla_flux dw ops s s' :
  (forall iv x, length (smooth iv x) = length iv) ->
  forallb (fun o => negb (head_slice o)) ops = true ->
  inv26 s -> run_ops nsqrt smooth dla_flux dw ops s = Ok s' -> inv26 s'.
Proof.
  intros Hs Ho H E. refine (for_each_inv inv26 _ _ _ _ _ H E).
  intros o t t' Hin Ht Et.
  eapply run_op_inv; [exact Hs| |exact Ht|exact Et].
  rewrite forallb_forall in Ho. specialize (Ho o Hin). now destruct (head_slice o).
Qed.

Lemma inv26_fresh s :
  data_matches_grid s -> NoDup (dkeys (s_wave s)) -> s_f s = empty_forest -> inv26 s.
Proof.
  intros D N E. split; [easy|]. split; [easy|]. rewrite E.
  constructor; cbn; try lia; try constructor; auto.
Qed.
