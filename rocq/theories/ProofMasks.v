(** Masks and calibrations act pixel by pixel (C27-C30). *)
From Coq Require Import ZArith String List Bool Arith Lia Sorted Permutation Qcanon.
From Verif Require Import Num NpList NpListFacts Exn Dict ModelSpectrum ModelMasks SpecSpectrum
  ProofSpectrum1 ProofSpectrum2.
Import ListNotations.
Local Open Scope nat_scope.

Lemma wff_proper s :
  wff (s_f s) -> (forall arm w, dget arm (fw (s_f s)) = Some w -> ascending w) -> proper s.
Proof.
  intros W S. split; [now apply wff_aligned|]. destruct W. auto.
Qed.

(** a loop "for arm, wave in forestwave.items(): change flux and ivar of arm" *)
Section Loop.
Variable kern : string -> list Qc -> arr -> arr -> res (arr * arr).

Lemma with_arm_total arm f w :
  wff f -> dget arm (fw f) = Some w ->
  (forall fl iv, length fl = length w -> length iv = length w ->
     exists p, kern arm w fl iv = Ok p /\ length (fst p) = length w /\ length (snd p) = length w) ->
  exists f' fl iv p, with_arm arm f (kern arm w) = Ok f' /\
    dget arm (ff f) = Some fl /\ dget arm (fivar f) = Some iv /\
    length fl = length w /\ length iv = length w /\
    kern arm w fl iv = Ok p /\ wff f' /\ fw f' = fw f /\
    ri f' = ri f /\ rs f' = rs f /\ rw f' = rw f /\ fr f' = fr f /\
    ff f' = dset arm (fst p) (ff f) /\ fivar f' = dset arm (snd p) (fivar f) /\
    (rs f <> ri f -> fivar_sm f' = fivar_sm f) /\ (rw f <> ri f -> fweight f' = fweight f).
Proof.
  intros W Ew K.
  pose proof (wf_ff f W arm) as L1. pose proof (wf_iv f W arm) as L2.
  unfold len_at, deref in L1, L2. rewrite Ew in L1, L2.
  destruct (dget arm (ff f)) as [fl|] eqn:Ef; [|discriminate].
  destruct (dget arm (nth (ri f) (hp f) [])) as [iv|] eqn:Ei; [|discriminate].
  cbn in L1, L2. injection L1 as L1. injection L2 as L2.
  destruct (K fl iv L1 L2) as (p & Ep & P1 & P2).
  destruct W as [A B C N F I S Wt].
  exists (mut_ref (ri f) (dset arm (snd p)) (set_ff (dset arm (fst p) (ff f)) f)), fl, iv, p.
  assert (with_arm arm f (kern arm w) =
          Ok (mut_ref (ri f) (dset arm (snd p)) (set_ff (dset arm (fst p) (ff f)) f))) as Ewa.
  { unfold with_arm, fivar. rewrite (proj2 (rget_Ok _ _ _) Ef). cbn [rbind].
    rewrite (proj2 (rget_Ok _ _ _) Ei). cbn [rbind]. rewrite Ep. easy. }
  rewrite Ewa. repeat (split; [solve [easy | congruence]|]).
  split.
  { assert (wff f) as W by (constructor; auto).
    apply wff_mut_dset; [apply wff_set_ff; [easy|]| |].
    - unfold len_at. rewrite Ew. cbn. congruence.
    - exact A.
    - unfold len_at. cbn. rewrite Ew. cbn. congruence. }
  unfold fivar, fivar_sm, fweight. cbn. rewrite !nth_upd by assumption.
  rewrite Nat.eqb_refl.
  repeat split; intro H; apply Nat.eqb_neq in H; now rewrite H.
Qed.

Lemma arms_loop_total d f0 :
  wff f0 -> NoDup (dkeys d) -> (forall arm w, dget arm d = Some w -> dget arm (fw f0) = Some w) ->
  (forall arm w fl iv, dget arm d = Some w -> length fl = length w -> length iv = length w ->
     exists p, kern arm w fl iv = Ok p /\ length (fst p) = length w /\ length (snd p) = length w) ->
  exists f', for_each d (fun aw f => with_arm (fst aw) f (kern (fst aw) (snd aw))) f0 = Ok f' /\
    wff f' /\ fw f' = fw f0 /\
    ri f' = ri f0 /\ rs f' = rs f0 /\ rw f' = rw f0 /\ fr f' = fr f0 /\
    (rs f0 <> ri f0 -> fivar_sm f' = fivar_sm f0) /\
    (rw f0 <> ri f0 -> fweight f' = fweight f0) /\
    dkeys (ff f') = dkeys (ff f0) /\ dkeys (fivar f') = dkeys (fivar f0) /\
    forall arm, match dget arm d with
      | None => dget arm (ff f') = dget arm (ff f0) /\ dget arm (fivar f') = dget arm (fivar f0)
      | Some w => exists fl iv p, dget arm (ff f0) = Some fl /\ dget arm (fivar f0) = Some iv /\
          length fl = length w /\ length iv = length w /\
          kern arm w fl iv = Ok p /\ dget arm (ff f') = Some (fst p) /\ dget arm (fivar f') = Some (snd p)
      end.
Proof.
  revert f0. induction d as [|[q v] d IH]; intros f0 W N Hd K; cbn [for_each].
  - exists f0. repeat split; auto; apply W.
  - inversion N as [|? ? N1 N2]; subst. cbn [fst snd].
    assert (dget q ((q, v) :: d) = Some v) as Eq by (cbn; now rewrite String.eqb_refl).
    destruct (with_arm_total q f0 v W) as
      (f1 & fl & iv & p & E1 & Ef & Ei & L1 & L2 & Ep & W1 & F1 & R1 & R2 & R3 & R4 & F2 & F3 & S1 & S2).
    { now apply Hd. }
    { intros fl iv L1 L2. now apply (K q). }
    rewrite E1. cbn [rbind].
    destruct (IH f1 W1 N2) as (f' & E' & W' & G1 & G2 & G3 & G4 & G5 & G6 & G7 & GK1 & GK2 & G8).
    { intros arm w E. rewrite F1. apply Hd. cbn.
      destruct (String.eqb_spec arm q) as [X|X]; [|easy].
      subst arm. apply dget_None in N1. congruence. }
    { intros arm w fl' iv' E. apply (K arm). cbn.
      destruct (String.eqb_spec arm q) as [X|X]; [|easy].
      subst arm. apply dget_None in N1. congruence. }
    exists f'. split; [easy|]. split; [easy|].
    repeat (split; [congruence|]).
    split; [intro H; rewrite G6 by congruence; auto|].
    split; [intro H; rewrite G7 by congruence; auto|].
    split; [rewrite GK1, F2; apply dset_in_keys, dget_In; eauto|].
    split; [rewrite GK2, F3; apply dset_in_keys, dget_In; eauto|].
    intro arm. specialize (G8 arm). cbn [dget].
    rewrite F2, F3 in G8.
    destruct (String.eqb_spec arm q) as [X|X].
    + subst arm. apply dget_None in N1. rewrite N1 in G8.
      rewrite !dget_dset_same in G8. exists fl, iv, p. intuition.
    + rewrite !dget_dset_other in G8 by easy. exact G8.
Qed.
End Loop.

(** pixel-by-pixel kernels *)
Definition kernel_of (g : pixel -> num * num) (w : list Qc) (fl iv : arr) : arr * arr :=
  (map (fun p => fst (g p)) (pixels w fl iv), map (fun p => snd (g p)) (pixels w fl iv)).

Lemma pixels_length w : forall f i, length f = length w -> length i = length w ->
  length (pixels w f i) = length w.
Proof.
  induction w as [|x w IH]; intros [|y f] [|z i]; cbn; intros; try discriminate; auto.
Qed.
Lemma pixels_nth w : forall f i k, 
  nth_error (pixels w f i) k =
  match nth_error w k, nth_error f k, nth_error i k with
  | Some a, Some b, Some c => Some (mkPix a b c) | _, _, _ => None end.
Proof.
  induction w as [|x w IH]; intros [|y f] [|z i] [|k]; cbn; auto;
    try (destruct (nth_error w k); [|easy]; try destruct (nth_error f k); easy).
Qed.

Definition kernel_ok (g : nat -> pixel -> num * num) (w : list Qc) (fl iv : arr) (p : arr * arr) : Prop :=
  length (fst p) = length w /\ length (snd p) = length w /\
  forall k px, nth_error (pixels w fl iv) k = Some px ->
    nth_error (fst p) k = Some (fst (g k px)) /\ nth_error (snd p) k = Some (snd (g k px)).
Lemma kernel_of_ok g w fl iv :
  length fl = length w -> length iv = length w -> kernel_ok (fun _ => g) w fl iv (kernel_of g w fl iv).
Proof.
  intros L1 L2. unfold kernel_of, kernel_ok. cbn [fst snd]. rewrite !map_length.
  rewrite pixels_length by easy. split; [easy|]. split; [easy|].
  intros k px E. rewrite !nth_error_map, E. easy.
Qed.

Lemma arms_loop_mapped g kern s :
  proper s ->
  (forall arm w fl iv, dget arm (fw (s_f s)) = Some w -> ascending w ->
     length fl = length w -> length iv = length w ->
     exists p, kern arm w fl iv = Ok p /\ kernel_ok (g arm) w fl iv p) ->
  exists f', for_each (fw (s_f s)) (fun aw f => with_arm (fst aw) f (kern (fst aw) (snd aw))) (s_f s) = Ok f' /\
    wff f' /\ fw f' = fw (s_f s) /\ ri f' = ri (s_f s) /\ rs f' = rs (s_f s) /\ rw f' = rw (s_f s) /\
    fr f' = fr (s_f s) /\
    (rs (s_f s) <> ri (s_f s) -> fivar_sm f' = fivar_sm (s_f s)) /\
    (rw (s_f s) <> ri (s_f s) -> fweight f' = fweight (s_f s)) /\
    pixels_mapped g s (set_f f' s).
Proof.
  intros P K. pose proof (proper_wff s P) as W.
  destruct P as (A & N & S & _).
  destruct (arms_loop_total kern (fw (s_f s)) (s_f s) W N) as
    (f' & E & W' & G1 & G2 & G3 & G4 & G5 & G6 & G7 & _ & _ & G8); auto.
  { intros arm w fl iv Ew L1 L2. destruct (K arm w fl iv Ew (S _ _ Ew) L1 L2) as (p & Ep & H1 & H2 & _).
    eauto. }
  exists f'. split; [easy|]. split; [easy|]. repeat (split; [easy|]).
  intros arm k. unfold pixel_at. cbn [s_f set_f]. rewrite G1.
  specialize (G8 arm). unfold at_pix.
  destruct (dget arm (fw (s_f s))) as [w|] eqn:Ew; [|now destruct (dget arm (ff f'))].
  destruct G8 as (fl & iv & p & H1 & H2 & L1 & L2 & H3 & H4 & H5).
  destruct (K arm w fl iv Ew (S _ _ Ew) L1 L2) as (p' & Ep & M1 & M2 & M3).
  rewrite Ep in H3. injection H3 as ->.
  rewrite H4, H5, H1, H2. specialize (M3 k). rewrite pixels_nth in M3.
  destruct (nth_error w k) as [x|] eqn:Ex.
  2: { now destruct (nth_error (fst p) k). }
  destruct (nth_error fl k) as [y|] eqn:Ey.
  2: { apply nth_error_None in Ey. assert (k < length w) by (apply nth_error_Some; congruence). lia. }
  destruct (nth_error iv k) as [z|] eqn:Ez.
  2: { apply nth_error_None in Ez. assert (k < length w) by (apply nth_error_Some; congruence). lia. }
  destruct (M3 _ eq_refl) as (-> & ->). easy.
Qed.

(** ** Range masks *)
Lemma nth_error_repeat {A} (x : A) n k :
  nth_error (repeat x n) k = if k <? n then Some x else None.
Proof.
  revert k; induction n as [|n IH]; intros [|k]; cbn; auto. apply IH.
Qed.
Lemma set_range_length i j w : length (set_range i j w) = length w.
Proof.
  unfold set_range. rewrite !app_length, repeat_length, firstn_length, skipn_length, slice_length. lia.
Qed.
Lemma set_range_nth i j w k :
  nth_error (set_range i j w) k =
  option_map (fun b => b || ((i <=? k) && (k <? j))) (nth_error w k).
Proof.
  destruct (nth_error w k) as [b|] eqn:E; cbn [option_map].
  2: { apply nth_error_None in E. apply nth_error_None. now rewrite set_range_length. }
  assert (k < length w) as Hk by (apply nth_error_Some; congruence).
  unfold set_range.
  destruct (Nat.leb_spec i k) as [H1|H1].
  2: { rewrite nth_error_app1 by (rewrite firstn_length; lia).
       rewrite nth_error_firstn, E by lia. now destruct b. }
  rewrite nth_error_app2 by (rewrite firstn_length; lia). rewrite firstn_length.
  replace (Nat.min i (length w)) with i by lia.
  destruct (Nat.ltb_spec k j) as [H2|H2].
  - rewrite nth_error_app1 by (rewrite repeat_length, slice_length; lia).
    rewrite nth_error_repeat, slice_length.
    destruct (Nat.ltb_spec (k - i) (Nat.min (j - i) (length w - i))); [|lia].
    now destruct b.
  - rewrite nth_error_app2 by (rewrite repeat_length, slice_length; lia).
    rewrite repeat_length, nth_error_skipn, slice_length.
    replace (i + Nat.min (j - i) (length w - i) + (k - i - Nat.min (j - i) (length w - i))) with k by lia.
    rewrite E. now destruct b.
Qed.
Lemma range_mask_nth n ranges k :
  nth_error (range_mask n ranges) k =
  if k <? n then Some (existsb (fun r => (fst r <=? k) && (k <? snd r)) ranges) else None.
Proof.
  unfold range_mask.
  assert (forall w, nth_error (fold_left (fun w r => set_range (fst r) (snd r) w) ranges w) k =
    option_map (fun b => b || existsb (fun r => (fst r <=? k) && (k <? snd r)) ranges) (nth_error w k)) as H.
  { induction ranges as [|r l IH]; intro w; cbn.
    - destruct (nth_error w k); cbn; [now rewrite orb_false_r|easy].
    - rewrite IH, set_range_nth. destruct (nth_error w k); cbn; [now rewrite orb_assoc|easy]. }
  rewrite H, nth_error_repeat. destruct (k <? n); easy.
Qed.
Lemma range_mask_length n ranges : length (range_mask n ranges) = n.
Proof.
  unfold range_mask.
  assert (forall w, length (fold_left (fun w r => set_range (fst r) (snd r) w) ranges w) = length w) as H.
  { induction ranges as [|r l IH]; intro w; cbn; [easy|]. now rewrite IH, set_range_length. }
  now rewrite H, repeat_length.
Qed.

Lemma existsb_map' {A B} (f : A -> B) p l : existsb p (map f l) = existsb (fun x => p (f x)) l.
Proof. induction l as [|x l IH]; cbn; [easy|]. now rewrite IH. Qed.
Lemma existsb_ext' {A} (p q : A -> bool) l :
  (forall x, In x l -> p x = q x) -> existsb p l = existsb q l.
Proof. induction l as [|x l IH]; cbn; intro H; [easy|]. rewrite H, IH by auto. easy. Qed.

(** index interval of a wavelength interval *)
Lemma ss_interval wave a b k x :
  StronglySorted Qcle wave -> nth_error wave k = Some x ->
  (searchsorted wave a <=? k) && (k <? searchsorted wave b) = qleb a x && qltb x b.
Proof.
  intros S E.
  pose proof (searchsorted_spec wave a S k x E) as A.
  pose proof (searchsorted_spec wave b S k x E) as B.
  f_equal.
  - destruct (Nat.leb_spec (searchsorted wave a) k) as [H|H]; symmetry.
    + apply qleb_true. apply Qcnot_lt_le. intro C. apply A in C. lia.
    + apply qleb_false. now apply A.
  - destruct (Nat.ltb_spec k (searchsorted wave b)) as [H|H]; symmetry.
    + apply qltb_true. now apply B.
    + apply qltb_false. apply Qcnot_lt_le. intro C. apply B in C. lia.
Qed.

Lemma zero_pixels_kernel (mk : Qc -> bool) w fl iv m :
  length fl = length w -> length iv = length w -> m = map mk w ->
  zero_pixels m fl iv =
  Ok (kernel_of (fun p => if mk (p_wave p) then (n0, n0) else (p_flux p, p_ivar p)) w fl iv).
Proof.
  intros L1 L2 ->. unfold zero_pixels, mask_set.
  rewrite !zip2_eq by (now rewrite map_length). cbn [rbind]. f_equal. unfold kernel_of.
  revert fl iv L1 L2. induction w as [|x w IH]; intros [|y fl] [|z iv]; cbn; try discriminate; [easy|].
  intros L1 L2. injection L1 as L1. injection L2 as L2.
  pose proof (IH fl iv L1 L2) as Q. injection Q as I1 I2.
  rewrite I1, I2. now destruct (mk x).
Qed.

Lemma list_map_nth {A B} (l : list A) (m : list B) (f : A -> B) :
  length m = length l ->
  (forall k x, nth_error l k = Some x -> nth_error m k = Some (f x)) -> m = map f l.
Proof.
  intros L H. apply list_eq_nth_error. intro k. rewrite nth_error_map.
  destruct (nth_error l k) as [x|] eqn:E; [now apply H|].
  apply nth_error_None in E. apply nth_error_None. lia.
Qed.

(** *** SkyMask *)
Definition in_interval (a b x : Qc) : bool := qleb a x && qltb x b.
Lemma div_ascending z wave :
  (0 < 1 + z)%Qc -> StronglySorted Qcle wave ->
  StronglySorted Qcle (map (fun w => (w / (1 + z))%Qc) wave).
Proof.
  intros Hz. induction 1 as [|x l S IH F]; cbn; constructor; [easy|].
  apply Forall_map. eapply Forall_impl; [|exact F]. intros b H. cbn. unfold Qcdiv.
  apply Qcmult_le_compat_r; [easy|]. apply Qclt_le_weak. now apply Qcinv_pos.
Qed.
Definition sky_b (rows : list skyrow) (z x : Qc) : bool :=
  existsb (fun r => match sk_frame r with
                 | OBS => in_interval (sk_min r) (sk_max r) x
                 | RF => in_interval (sk_min r) (sk_max r) (x / (1 + z))%Qc
                 | OtherFrame => false end) rows.
Lemma sky_mask_eq rows z wave :
  (0 < 1 + z)%Qc -> ascending wave ->
  range_mask (length wave) (sky_ranges (skymask_init rows) z wave) =
  map (sky_b rows z) wave.
Proof.
  intros Hz S. apply ascending_le in S. apply list_map_nth; [apply range_mask_length|].
  intros k x E. rewrite range_mask_nth.
  assert (k < length wave) as Hk by (apply nth_error_Some; congruence).
  apply Nat.ltb_lt in Hk. rewrite Hk. f_equal.
  unfold sky_ranges, skymask_init, sky_b. cbn. rewrite existsb_app, !existsb_map'. cbn [fst snd].
  transitivity (existsb (fun r => in_interval (sk_min r) (sk_max r) x) (filter isOBS rows) ||
    existsb (fun r => in_interval (sk_min r) (sk_max r) (x / (1 + z))%Qc) (filter isRF rows)).
  { f_equal; apply existsb_ext'; intros r _; unfold in_interval.
    - now apply ss_interval.
    - apply ss_interval; [now apply div_ascending|]. now rewrite nth_error_map, E. }
  induction rows as [|r rows IH]; cbn; [easy|].
  rewrite <- IH. unfold isRF, isOBS. destruct (sk_frame r); cbn.
  - destruct (in_interval _ _ _), (existsb _ _); easy.
  - now rewrite orb_assoc.
  - easy.
Qed.

(** *** BALMask *)
Definition bal_b (ints : list (Qc * Qc)) (x : Qc) : bool :=
  existsb (fun p => in_interval (fst p) (snd p) x || in_interval (snd p) (fst p) x) ints.
Lemma bal_mask_eq ints wave :
  ascending wave ->
  range_mask (length wave) (bal_ranges ints wave) =
  map (bal_b ints) wave.
Proof.
  intros S. apply ascending_le in S. apply list_map_nth; [apply range_mask_length|].
  intros k x E. rewrite range_mask_nth.
  assert (k < length wave) as Hk by (apply nth_error_Some; congruence).
  apply Nat.ltb_lt in Hk. rewrite Hk. f_equal.
  unfold bal_ranges, bal_b. rewrite existsb_map'. apply existsb_ext'. intros [a b] _. cbn [fst snd].
  unfold in_interval. rewrite <- !(ss_interval wave _ _ k x S E). unfold sort_pair. cbn [fst snd].
  generalize (searchsorted wave a), (searchsorted wave b). intros i j.
  destruct (Nat.leb_spec i k), (Nat.leb_spec j k), (Nat.ltb_spec k i), (Nat.ltb_spec k j),
    (Nat.leb_spec (Nat.min i j) k), (Nat.ltb_spec k (Nat.max i j)); cbn; try easy; lia.
Qed.
