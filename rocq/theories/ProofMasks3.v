(** C29: sequences of masks; C30: calibrations. *)
From Coq Require Import Field ZArith String List Bool Arith Lia Sorted Permutation Qcanon.
From Verif Require Import Num NpList NpListFacts Exn Dict ModelSpectrum ModelMasks SpecSpectrum
  SpecMasks SpecDrop ProofGroup ProofSpectrum1 ProofSpectrum2 ProofMasks ProofMasks2 ProofDrop.
Import ListNotations.
Local Open Scope nat_scope.

(** ** each_pixel *)
Lemma each_refl (R : string -> nat -> pixel -> pixel -> Prop) s : (forall arm k p, R arm k p p) -> each_pixel R s s.
Proof. intro H. split; [easy|]. intros arm k. destruct (pixel_at s arm k); auto. Qed.
Lemma each_trans (R : string -> nat -> pixel -> pixel -> Prop) s t u :
  (forall arm k p q r, p_wave q = p_wave p -> R arm k p q -> R arm k q r -> R arm k p r) ->
  each_pixel R s t -> each_pixel R t u -> each_pixel R s u.
Proof.
  intros T (F1 & A) (F2 & B). split; [congruence|]. intros arm k. specialize (A arm k). specialize (B arm k).
  destruct (pixel_at s arm k), (pixel_at t arm k), (pixel_at u arm k); try easy.
  destruct A, B. split; [congruence|]. eapply T; eauto.
Qed.
Lemma each_mapped (R : string -> nat -> pixel -> pixel -> Prop) g s s' :
  (forall arm k p, pixel_at s arm k = Some p ->
     R arm k p (mkPix (p_wave p) (fst (g arm k p)) (snd (g arm k p)))) ->
  pixels_mapped g s s' -> each_pixel R s s'.
Proof.
  intros H (F & M). split; [easy|]. intros arm k. rewrite M.
  destruct (pixel_at s arm k) eqn:E; cbn; [|easy]. split; [easy|]. now apply H.
Qed.
Lemma zeroes_each m s s' :
  (forall x, m x \/ ~ m x) -> zeroes_exactly m s s' -> each_pixel only_masked s s'.
Proof.
  intros D (F & Z). split; [easy|]. intros arm k. specialize (Z arm k).
  destruct (pixel_at s arm k) as [p|]; [|now rewrite Z].
  destruct (D (p_wave p)) as [H|H]; rewrite ?(proj1 Z H), ?(proj2 Z H); (split; [easy|]); unfold only_masked; auto.
  cbn [p_ivar]. repeat split; auto. intro C. discriminate C.
Qed.

Lemma only_masked_refl arm k p : only_masked arm k p p.
Proof. unfold only_masked. auto. Qed.
Lemma only_masked_trans arm k p q r :
  p_wave q = p_wave p -> only_masked arm k p q -> only_masked arm k q r -> only_masked arm k p r.
Proof. unfold only_masked. intuition. Qed.

Lemma sq_nonneg (t : Qc) : (0 <= t * t)%Qc.
Proof. qnra. Qed.
Lemma mul_sq_pos i t : nltb n0 (nmul i (Fin (t * t))) = true -> nltb n0 i = true.
Proof.
  destruct i as [q| | |]; cbn; try easy.
  - rewrite !qltb_true. intro H. pose proof (sq_nonneg t).
    destruct (Qclt_le_dec 0 q) as [|C]; [easy|]. exfalso. qnra.
  - unfold infsgn. destruct (qeqb (t * t) 0) eqn:E; [easy|]. intro H.
    destruct (qltb 0 (t * t)) eqn:Q; [easy|]. apply qltb_false in Q. apply qeqb_false in E.
    exfalso. apply E. apply Qcle_antisym; [easy|apply sq_nonneg].
Qed.
Lemma mul_sq_nonneg i t : nltb i n0 = false -> nltb (nmul i (Fin (t * t))) n0 = false.
Proof.
  destruct i as [q| | |]; cbn; try easy.
  - rewrite !qltb_false. intro H. pose proof (sq_nonneg t). qnra.
  - unfold infsgn. destruct (qeqb (t * t) 0) eqn:E; [easy|]. intros _.
    destruct (qltb 0 (t * t)) eqn:Q; [easy|]. apply qltb_false in Q. apply qeqb_false in E.
    exfalso. apply E. apply Qcle_antisym; [easy|apply sq_nonneg].
Qed.
Lemma mul_zero q : nmul n0 (Fin q) = n0.
Proof. cbn. unfold n0. f_equal. ring. Qed.

Section Masks.
Variable profile : Qc -> Qc -> Qc -> Qc.
Let pf := pflux profile.

Lemma dla_each catalog local limit s :
  proper s ->
  exists s', dlamask_apply pf (dlamask_init catalog local limit) s = Ok s' /\ proper s' /\
    rest_unchanged s s' /\ each_pixel only_masked s s'.
Proof.
  intro P. pose proof (dlamask_lookup catalog local limit (c_targetid (s_cat s))) as L. cbn zeta in L.
  unfold dlamask_apply. destruct (nonzero _) as [|idx rest].
  - exists s. split; [easy|]. split; [easy|]. split; [repeat split|]. apply each_refl, only_masked_refl.
  - destruct L as (dlas & En & _). rewrite En. cbn [of_option rbind]. cbn [dlamask_init dm_limit].
    destruct (arms_loop_mapped (fun _ _ => dla_g profile (s_z s) limit dlas)
      (fun _ w => dla_arm limit (dla_transmission pf (s_z s) dlas w)) s P)
      as (f' & E & W & F1 & _ & _ & _ & F5 & _ & _ & Q).
    { intros arm w fl iv _ A L1 L2. eexists. split; [now apply dla_arm_kernel|].
      exact (kernel_of_ok _ w fl iv L1 L2). }
    exists (set_f f' s). rewrite E. split; [easy|]. split; [eapply mapped_proper; eauto|].
    split; [now apply rest_set_f|]. refine (each_mapped _ _ _ _ _ Q). intros arm k p _.
    unfold only_masked, dla_g. cbn [p_ivar].
    destruct (qltb (dla_t profile (s_z s) dlas (p_wave p)) limit); cbn [fst snd].
    + repeat split; auto. intro C; discriminate C.
    + cbn [nsq nmul]. split; [intros ->; apply mul_zero|]. split; [apply mul_sq_pos|apply mul_sq_nonneg].
Qed.

Lemma mask_each m s :
  constructed m -> maskable s ->
  exists s', mask_apply pf m s = Ok s' /\ maskable s' /\ rest_unchanged s s' /\ each_pixel only_masked s s'.
Proof.
  intros C (P & Hz & HL).
  assert (forall s', proper s' -> rest_unchanged s s' -> maskable s') as K.
  { intros s' P' R. split; [easy|]. unfold s_z in *. destruct R as (-> & _). now split. }
  destruct C as [(rows & ->)|[->|(catalog & local & limit & ->)]]; cbn [mask_apply].
  - destruct (sky_spec rows s P Hz) as (s' & E & P' & R & Z). exists s'. split; [easy|]. split; [auto|].
    split; [easy|]. eapply zeroes_each; [|exact Z]. intro x. apply sky_dec.
  - destruct (bal_spec s P HL) as (s' & E & P' & R & Z). exists s'. split; [easy|]. split; [auto|].
    split; [easy|]. eapply zeroes_each; [|exact Z]. intro x. now apply bal_dec.
  - destruct (dla_each catalog local limit s P) as (s' & E & P' & R & Z). exists s'. auto.
Qed.

Lemma rest_trans s t u : rest_unchanged s t -> rest_unchanged t u -> rest_unchanged s u.
Proof. unfold rest_unchanged. intuition congruence. Qed.

Lemma masks_each ms s :
  Forall constructed ms -> maskable s ->
  exists s', for_each ms (mask_apply pf) s = Ok s' /\ maskable s' /\ rest_unchanged s s' /\
    each_pixel only_masked s s'.
Proof.
  intro F. revert s. induction F as [|m ms C F IH]; intros s M; cbn [for_each].
  - exists s. split; [easy|]. split; [easy|]. split; [repeat split|]. apply each_refl, only_masked_refl.
  - destruct (mask_each m s C M) as (t & E & Mt & R & Z). rewrite E. cbn [rbind].
    destruct (IH t Mt) as (u & E' & Mu & R' & Z'). exists u. split; [easy|]. split; [easy|].
    split; [eapply rest_trans; eauto|]. eapply each_trans; eauto. intros; eapply only_masked_trans; eauto.
Qed.

Lemma good_pixels_pos iv : (0 < good_pixels iv)%Qc <-> exists k i, nth_error iv k = Some i /\ good i.
Proof.
  unfold good_pixels. change 0%Qc with (zq 0). rewrite zq_lt. split.
  - intro H. destruct (filter (fun x => nltb n0 x) iv) as [|x l] eqn:E; [easy|].
    assert (In x (filter (fun x => nltb n0 x) iv)) as I by (rewrite E; now left).
    apply filter_In in I as (I & G). apply In_nth_error in I as (k & I). exists k, x. easy.
  - intros (k & i & E & G). apply nth_error_In in E.
    assert (In i (filter (fun x => nltb n0 x) iv)) as I by (apply filter_In; easy).
    destruct (filter _ iv); [destruct I|cbn [length]; lia].
Qed.
Lemma arm_alive_count s arm : proper s -> (0 < arm_good_pixels s arm)%Qc <-> arm_alive s arm.
Proof.
  intro P. pose proof (proper_wff s P) as W. unfold arm_good_pixels, arm_alive, pixel_at, at_pix.
  pose proof (wf_iv _ W arm) as L1. pose proof (wf_ff _ W arm) as L2.
  unfold len_at, deref in L1, L2. unfold fivar.
  destruct (dget arm (nth (ri (s_f s)) (hp (s_f s)) [])) as [iv|].
  2: { split; [intro H; discriminate H|]. intros (k & p & H & _).
       destruct (dget arm (fw (s_f s))); [|easy]. discriminate. }
  destruct (dget arm (fw (s_f s))) as [w|]; [|discriminate].
  destruct (dget arm (ff (s_f s))) as [fl|]; [|discriminate].
  injection L1 as L1. injection L2 as L2. rewrite good_pixels_pos. split.
  - intros (k & i & E & G). assert (k < length iv) as Hk by (apply nth_error_Some; congruence).
    destruct (nth_error w k) as [x|] eqn:Ex; [|apply nth_error_None in Ex; lia].
    destruct (nth_error fl k) as [y|] eqn:Ey; [|apply nth_error_None in Ey; lia].
    exists k, (mkPix x y i). rewrite Ex, Ey, E. easy.
  - intros (k & p & E & G). destruct (nth_error w k), (nth_error fl k), (nth_error iv k) eqn:Ei; try discriminate.
    injection E as <-. eauto.
Qed.

Lemma arm_state_pixels s t arm :
  arm_state s arm = arm_state t arm ->
  dget arm (fw (s_f s)) = dget arm (fw (s_f t)) /\ forall k, pixel_at s arm k = pixel_at t arm k.
Proof.
  unfold arm_state. intro H. injection H as H1 H2 H3 _ _ _ _. split; [easy|].
  intro k. unfold pixel_at, at_pix. now rewrite H1, H2, H3.
Qed.

(** dropping arms without any good pixel *)
Lemma drop_empty_arms dwave t :
  proper t ->
  let s' := drop_short_arms dwave 0 0 0 t in
  forall arm,
    (arm_alive t arm -> arm_state s' arm = arm_state t arm) /\
    (dget arm (fw (s_f t)) <> None -> ~ arm_alive t arm -> arm_state s' arm = gone) /\
    (dget arm (fw (s_f s')) <> None -> arm_alive s' arm).
Proof.
  intros P s' arm.
  assert ((0 * forest_pixels t dwave 0 0)%Qc = 0%Qc) as Z by ring.
  destruct (drop_short_spec dwave 0 0 0 t P) with (arm := arm) as (A & B).
  { rewrite Z. apply Qcle_refl. }
  rewrite Z in B. fold s' in A, B.
  assert (arm_alive t arm -> dget arm (fw (s_f t)) <> None) as N.
  { intros (k & p & E & _) C. unfold pixel_at, at_pix in E. rewrite C in E. discriminate. }
  assert (arm_alive t arm -> arm_state s' arm = arm_state t arm) as K1.
  { intro H. apply (proj1 (B (N H))). now apply arm_alive_count. }
  assert (dget arm (fw (s_f t)) <> None -> ~ arm_alive t arm -> arm_state s' arm = gone) as K2.
  { intros Hn H. apply (proj2 (B Hn)). apply Qcnot_lt_le. intro C. apply H. now apply arm_alive_count. }
  split; [easy|]. split; [easy|]. intro H.
  destruct (dget arm (fw (s_f t))) as [w|] eqn:Ew.
  - destruct (Qclt_le_dec 0 (arm_good_pixels t arm)) as [G|G].
    + apply arm_alive_count in G; [|easy]. pose proof (arm_state_pixels _ _ _ (K1 G)) as (_ & Q).
      destruct G as (k & p & E & G). exists k, p. now rewrite Q.
    + exfalso. assert (arm_state s' arm = gone) as C.
      { apply K2; [discriminate|]. intro C. apply arm_alive_count in C; [|easy].
        apply Qclt_not_le in C. contradiction. }
      unfold arm_state, gone in C. injection C as C _. contradiction.
  - exfalso. pose proof (arm_state_pixels _ _ _ (A eq_refl)) as (Q & _). congruence.
Qed.
End Masks.

(** ** Calibrations *)
Lemma dset_same {A} k (v : A) d : dget k d = Some v -> dset k v d = d.
Proof.
  induction d as [|[q w] d IH]; cbn; [discriminate|].
  destruct (String.eqb_spec k q); [intro H; injection H as ->; now subst|]. intro H. now rewrite IH.
Qed.
Lemma set_ff_same f : set_ff (ff f) f = f.
Proof. now destruct f. Qed.
Definition ivar_kern (k : string -> list Qc -> arr -> res arr) (arm : string) (w : list Qc) (fl iv : arr)
  : res (arr * arr) := rmap (pair fl) (k arm w iv).
Lemma with_ivar_with_arm arm f k :
  dget arm (ff f) <> None ->
  with_ivar arm f k = with_arm arm f (fun fl iv => rmap (pair fl) (k iv)).
Proof.
  intro H. unfold with_ivar, with_arm, rget. destruct (dget arm (ff f)) as [fl|] eqn:E; [|easy].
  cbn [of_option rbind]. destruct (dget arm (fivar f)) as [iv|]; [|easy]. cbn [of_option rbind].
  destruct (k iv) as [iv'|]; [|easy]. cbn [rbind rmap fst snd].
  now rewrite (dset_same _ _ _ E), set_ff_same.
Qed.
Lemma ivar_loop k d f :
  (forall arm, In arm (dkeys d) -> dget arm (ff f) <> None) ->
  for_each d (fun aw f => with_ivar (fst aw) f (k (fst aw) (snd aw))) f =
  for_each d (fun aw f => with_arm (fst aw) f (ivar_kern k (fst aw) (snd aw))) f.
Proof.
  revert f. induction d as [|[arm w] d IH]; intros f H; cbn [for_each]; [easy|]. cbn [fst snd].
  rewrite (with_ivar_with_arm arm f (k arm w)) by (apply H; now left).
  fold (ivar_kern k arm w).
  change (fun fl iv : list num => rmap (pair fl) (k arm w iv)) with (ivar_kern k arm w).
  destruct (with_arm arm f (ivar_kern k arm w)) as [f'|] eqn:E; [|easy]. cbn [rbind].
  apply IH. intros a Ha. unfold with_arm in E.
  apply rbind_Ok in E as (fl & E1 & E). apply rbind_Ok in E as (iv & E2 & E).
  apply rbind_Ok in E as (p & E3 & E). injection E as <-. cbn [mut_ref set_ff ff].
  rewrite dget_dset. destruct (String.eqb a arm); [discriminate|]. apply H. now right.
Qed.

Lemma ivar_loop_mapped g k s :
  proper s ->
  (forall arm w iv, dget arm (fw (s_f s)) = Some w -> length iv = length w ->
     exists iv', k arm w iv = Ok iv' /\ length iv' = length w /\
       forall j x i, nth_error w j = Some x -> nth_error iv j = Some i ->
         nth_error iv' j = Some (g arm j x i)) ->
  exists f', for_each (fw (s_f s)) (fun aw f => with_ivar (fst aw) f (k (fst aw) (snd aw))) (s_f s) = Ok f' /\
    wff f' /\ fw f' = fw (s_f s) /\ fr f' = fr (s_f s) /\
    pixels_mapped (fun arm j p => (p_flux p, g arm j (p_wave p) (p_ivar p))) s (set_f f' s).
Proof.
  intros P K. pose proof (proper_wff s P) as W. rewrite ivar_loop.
  2: { intros arm H. apply dget_In in H as (w & H). pose proof (wf_ff _ W arm) as L.
       unfold len_at in L. rewrite H in L. now destruct (dget arm (ff (s_f s))). }
  destruct (arms_loop_mapped (fun arm j p => (p_flux p, g arm j (p_wave p) (p_ivar p)))
    (ivar_kern k) s P) as (f' & E & W' & F1 & _ & _ & _ & F5 & _ & _ & Q).
  { intros arm w fl iv Ew _ L1 L2. destruct (K arm w iv Ew L2) as (iv' & Ek & L3 & Hn).
    unfold ivar_kern. rewrite Ek. cbn [rmap]. exists (fl, iv'). split; [easy|].
    split; [easy|]. split; [easy|]. intros j px Hj. rewrite pixels_nth in Hj. cbn [fst snd].
    destruct (nth_error w j) eqn:Ej; [|discriminate]. destruct (nth_error fl j) eqn:Ef; [|discriminate].
    destruct (nth_error iv j) eqn:Ei; [|discriminate]. injection Hj as <-. cbn [p_flux p_wave p_ivar].
    split; [easy|]. now apply Hn. }
  exists f'. auto.
Qed.

Lemma flux_cal_spec (sf : Qc -> Qc) s :
  proper s ->
  exists s', flux_calibrate1 (fun x => Fin (sf x)) s = Ok s' /\ proper s' /\ rest_unchanged s s' /\
    each_pixel (flux_calibrated sf) s s'.
Proof.
  intro P. unfold flux_calibrate1.
  set (g := fun p => (ndiv (p_flux p) (Fin (sf (p_wave p))), nmul (p_ivar p) (nsq (Fin (sf (p_wave p)))))).
  destruct (arms_loop_mapped (fun _ _ => g) (fun _ w => flux_cal_arm (fun x => Fin (sf x)) w) s P)
    as (f' & E & W & F1 & _ & _ & _ & F5 & _ & _ & Q).
  { intros arm w fl iv _ _ L1 L2. exists (kernel_of g w fl iv).
    split; [|exact (kernel_of_ok g w fl iv L1 L2)]. unfold flux_cal_arm.
    rewrite !zip2_eq by (now rewrite map_length). cbn [rbind]. f_equal. unfold kernel_of.
    revert fl iv L1 L2. induction w as [|x w IH]; intros [|y fl] [|q iv]; cbn [length]; try discriminate; [easy|].
    intros L1 L2. injection L1 as L1. injection L2 as L2. pose proof (IH fl iv L1 L2) as H. injection H as I1 I2.
    cbn [map map2 pixels]. rewrite I1, I2. easy. }
  exists (set_f f' s). rewrite E. split; [easy|]. split; [eapply mapped_proper; eauto|].
  split; [now apply rest_set_f|]. refine (each_mapped _ _ _ _ _ Q). intros arm k p _.
  unfold flux_calibrated, g. cbn [p_wave p_flux p_ivar fst snd nsq nmul]. set (t := sf (p_wave p)).
  split; [easy|]. split; [easy|]. split; [|split].
  - intros Ht f i -> ->. rewrite ndiv_fin by easy. cbn. exists (f / t)%Qc, (i * (t * t))%Qc.
    split; [easy|]. split; [easy|]. field. easy.
  - intros ->. apply mul_zero.
  - intro Ht. split; [apply mul_sq_pos|]. unfold good. destruct (p_ivar p) as [q| | |]; cbn; try easy.
    + rewrite !qltb_true. intro H. assert (0 < t * t)%Qc by (destruct (Qclt_le_dec 0 t); [qnra|];
        assert (t < 0)%Qc by (apply Qcle_lt_or_eq in q0 as [|]; [easy|contradiction]); qnra). qnra.
    + unfold infsgn. intros _. destruct (qeqb (t * t) 0) eqn:Q0.
      * apply qeqb_true in Q0. apply Qcmult_integral in Q0. tauto.
      * destruct (qltb 0 (t * t)) eqn:Q1; [easy|]. apply qltb_false in Q1. apply qeqb_false in Q0.
        exfalso. apply Q0. apply Qcle_antisym; [easy|apply sq_nonneg].
Qed.

Lemma div_pos_sign i e : (0 < e)%Qc ->
  (nltb n0 (ndiv i (Fin e)) = nltb n0 i) /\ (nltb (ndiv i (Fin e)) n0 = nltb i n0).
Proof.
  intro H. assert (0 < / e)%Qc as Hi by now apply Qcinv_pos.
  assert (e <> 0)%Qc as Hn by (intro C; rewrite C in H; discriminate H).
  destruct i as [q| | |].
  - rewrite ndiv_fin by easy. unfold n0. cbn [nltb]. unfold Qcdiv. split; apply eq_true_iff_eq; rewrite !qltb_true;
      split; intro K; (destruct (Qclt_le_dec 0 q) as [A|A]; [qnra|]); try qnra.
  - now cbn.
  - cbn. destruct (qltb e 0) eqn:Q; [|easy]. apply qltb_true in Q. exfalso. qlra.
  - cbn. destruct (qltb e 0) eqn:Q; [|easy]. apply qltb_true in Q. exfalso. qlra.
Qed.

Lemma noise_eta_spec (eta : Qc -> Qc) s :
  proper s ->
  exists s', noise_eta (fun x => Fin (eta x)) s = Ok s' /\ proper s' /\ rest_unchanged s s' /\
    each_pixel (eta_calibrated eta) s s'.
Proof.
  intro P. unfold noise_eta.
  destruct (ivar_loop_mapped (fun _ _ x i => ndiv i (Fin (eta x)))
    (fun _ w iv => zip2 ndiv iv (map (fun x => Fin (eta x)) w)) s P) as (f' & E & W & F1 & F5 & Q).
  { intros arm w iv _ L. eexists. rewrite zip2_eq by (now rewrite map_length). split; [reflexivity|].
    split; [rewrite map2_length, map_length; lia|]. intros j x i Ex Ei.
    rewrite nth_error_map2, nth_error_map, Ex, Ei. easy. }
  exists (set_f f' s). rewrite E. split; [easy|]. split; [eapply mapped_proper; eauto|].
  split; [now apply rest_set_f|]. refine (each_mapped _ _ _ _ _ Q). intros arm k p _.
  unfold eta_calibrated. cbn [p_wave p_flux p_ivar fst snd]. split; [easy|]. split; [easy|]. intro He.
  destruct (div_pos_sign (p_ivar p) _ He) as (A & B). unfold good. rewrite A, B.
  split; [|easy]. intros ->. unfold n0. rewrite ndiv_fin; [|intro C; rewrite C in He; discriminate He].
  f_equal. unfold Qcdiv. ring.
Qed.

Definition additive_g (eta varlss : Qc -> Qc) (c : num) (x : Qc) (i : num) : num :=
  let v := ndiv i (nadd (Fin (eta x)) (nmul i (nmul (Fin (varlss x)) (nsq c)))) in
  if nltb v n0 then n0 else v.

Lemma noise_additive_arm_nth eta varlss w c iv :
  length c = length w -> length iv = length w ->
  exists iv', noise_additive_arm (fun x => Fin (eta x)) (fun x => Fin (varlss x)) w c iv = Ok iv' /\
    length iv' = length w /\
    forall j x i y, nth_error w j = Some x -> nth_error iv j = Some i -> nth_error c j = Some y ->
      nth_error iv' j = Some (additive_g eta varlss y x i).
Proof.
  intros L1 L2. unfold noise_additive_arm.
  rewrite zip2_eq by lia. cbn [rbind].
  rewrite zip2_eq by (rewrite map2_length; lia). cbn [rbind].
  rewrite zip2_eq by (rewrite !map2_length; lia). cbn [rbind].
  rewrite zip2_eq by (rewrite !map2_length; lia). cbn [rbind].
  eexists. split; [reflexivity|]. split; [rewrite map_length, !map2_length; lia|].
  intros j x i y Ex Ei Ey. rewrite nth_error_map.
  rewrite !nth_error_map2, Ex, Ei, Ey.
  reflexivity.
Qed.

Lemma noise_additive_spec (eta varlss : Qc -> Qc) s :
  proper s -> cont_matches s ->
  exists s', noise_additive (fun x => Fin (eta x)) (fun x => Fin (varlss x)) s = Ok s' /\ proper s' /\
    rest_unchanged s s' /\ each_pixel (additive_calibrated eta varlss (s_cont s)) s s'.
Proof.
  intros P C. unfold noise_additive.
  set (g := fun arm j x i => match at_pix (s_cont s) arm j with
       | Some c => additive_g eta varlss c x i | None => i end).
  destruct (ivar_loop_mapped g
    (fun arm w iv => rbind (rget arm (s_cont s)) (fun c =>
       noise_additive_arm (fun x => Fin (eta x)) (fun x => Fin (varlss x)) w c iv)) s P)
    as (f' & E & W & F1 & F5 & Q).
  { intros arm w iv Ew L. specialize (C arm). unfold len_at in C. rewrite Ew in C.
    unfold rget. destruct (dget arm (s_cont s)) as [c|] eqn:Ec.
    2: { exfalso. discriminate C. discriminate. }
    assert (length c = length w) as Lc by (assert (Some w <> None) as Q by discriminate; specialize (C Q); now injection C).
    cbn [of_option rbind].
    destruct (noise_additive_arm_nth eta varlss w c iv Lc L) as (iv' & E & L' & H).
    exists iv'. split; [easy|]. split; [easy|]. intros j x i Ex Ei. unfold g, at_pix. rewrite Ec.
    destruct (nth_error c j) as [y|] eqn:Ey; [now apply H|].
    apply nth_error_None in Ey. assert (j < length w) by (apply nth_error_Some; congruence). lia. }
  assert (for_each (fw (s_f s)) (fun aw f => rbind (rget (fst aw) (s_cont s)) (fun c =>
            with_ivar (fst aw) f (noise_additive_arm (fun x => Fin (eta x)) (fun x => Fin (varlss x)) (snd aw) c))) (s_f s)
          = Ok f') as E'.
  { rewrite <- E. apply for_each_ext. intros (arm, w) f Hin. cbn [fst snd].
    destruct P as (_ & N & _). pose proof (In_pair_dget arm w _ N Hin) as Ew.
    specialize (C arm). unfold len_at in C. rewrite Ew in C. unfold rget.
    destruct (dget arm (s_cont s)) as [c|] eqn:Ec; [easy|]. exfalso. discriminate C. discriminate. }
  exists (set_f f' s). rewrite E'. split; [easy|]. split; [eapply mapped_proper; eauto|].
  split; [now apply rest_set_f|]. refine (each_mapped _ _ _ _ _ Q). intros arm k p Hp.
  unfold additive_calibrated. cbn [p_wave p_flux p_ivar fst snd]. split; [easy|].
  unfold g. split.
  - destruct (at_pix (s_cont s) arm k) as [c|] eqn:Ec.
    + unfold additive_g. match goal with |- nltb (if ?b then _ else _) _ = _ => destruct b eqn:Eb end; [easy|exact Eb].
    + exfalso. unfold pixel_at in Hp. unfold at_pix in Ec, Hp at 1.
      destruct (dget arm (fw (s_f s))) as [w|] eqn:Ew; [|discriminate].
      specialize (C arm). unfold len_at in C. rewrite Ew in C.
      assert (Some w <> None) as Q0 by discriminate. specialize (C Q0).
      destruct (dget arm (s_cont s)) as [c|]; [|discriminate C]. injection C as C.
      destruct (nth_error w k) eqn:Ek; [|discriminate].
      apply nth_error_None in Ec. assert (k < length w) by (apply nth_error_Some; congruence). lia.
  - intros c Ec. rewrite Ec. unfold additive_g. cbn [nsq nmul]. split.
    + intros He ->. unfold n0; cbn [nmul nadd]. rewrite ndiv_fin.
      2: { intro K. apply He. rewrite <- K. ring. }
      replace (0 / _)%Qc with 0%Qc by (unfold Qcdiv; ring). easy.
    + intros He Hv i -> Hi. cbn [nmul nadd].
      assert (0 <= c * c)%Qc by apply sq_nonneg.
      assert (0 <= varlss (p_wave p) * (c * c))%Qc as H1 by qnra.
      assert (0 < eta (p_wave p) + i * (varlss (p_wave p) * (c * c)))%Qc as H2 by qnra.
      set (den := (eta (p_wave p) + i * (varlss (p_wave p) * (c * c)))%Qc) in *.
      assert (den <> 0)%Qc as Hd by (intro K; rewrite K in H2; discriminate H2).
      assert (i <> 0)%Qc as Hi0 by (intro K; rewrite K in Hi; discriminate Hi).
      rewrite ndiv_fin by easy. assert (0 < i / den)%Qc as H3.
      { unfold Qcdiv. assert (0 < / den)%Qc by now apply Qcinv_pos. qnra. }
      assert (nltb (Fin (i / den)) n0 = false) as ->.
      { cbn. apply qltb_false. now apply Qclt_le_weak. }
      exists (i / den)%Qc. split; [easy|]. split; [easy|]. unfold den in *. field. auto.
Qed.

(** ** Lists of spectra *)
Lemma rseq_map_Forall2 {A B} (f : A -> res B) (R : A -> B -> Prop) l :
  (forall x, In x l -> exists y, f x = Ok y /\ R x y) ->
  exists l', rseq (map f l) = Ok l' /\ Forall2 R l l'.
Proof.
  induction l as [|x l IH]; intro H; cbn.
  - exists []. auto.
  - destruct (H x) as (y & E & Hr); [now left|]. rewrite E. cbn [rbind].
    destruct IH as (l' & E' & F); [intros; apply H; now right|]. rewrite E'. cbn.
    exists (y :: l'). auto.
Qed.

Lemma drop_empty_spec dwave t :
  proper t ->
  let s' := drop_short_arms dwave 0 0 0 t in
  empty_arms_dropped t s' /\ (forall arm, dget arm (fw (s_f s')) <> None -> arm_alive s' arm).
Proof.
  intros P s'. split.
  - intro arm. destruct (drop_empty_arms dwave t P arm) as (A & B & _). fold s' in A, B. split.
    + intro H. specialize (A H). pose proof (arm_state_pixels _ _ _ A) as (Q1 & Q2).
      unfold arm_state in A. injection A as _ _ _ A1 A2 A3 A4. auto 10.
    + intro H. destruct (dget arm (fw (s_f t))) as [w|] eqn:Ew.
      * assert (arm_state s' arm = gone) as C by (apply B; [discriminate|easy]).
        unfold arm_state, gone in C. now injection C.
      * destruct (drop_short_spec dwave 0 0 0 t P) with (arm := arm) as (A1 & _).
        { replace (0 * forest_pixels t dwave 0 0)%Qc with 0%Qc by ring. apply Qcle_refl. }
        fold s' in A1. pose proof (arm_state_pixels _ _ _ (A1 Ew)) as (Q & _). congruence.
  - intros arm H. now apply (drop_empty_arms dwave t P arm).
Qed.

Lemma apply_masks_spec profile dwave ms l :
  ms <> [] -> Forall constructed ms -> Forall maskable l ->
  exists l', apply_masks (pflux profile) dwave ms l = Ok l' /\
    Forall2 (fun s s' => (exists t, each_pixel only_masked s t /\ rest_unchanged s t /\ empty_arms_dropped t s') /\
      forall arm, dget arm (fw (s_f s')) <> None -> arm_alive s' arm) l l'.
Proof.
  intros Hm Hc Hl. unfold apply_masks. destruct ms as [|m ms]; [easy|].
  apply rseq_map_Forall2. intros s Hs. rewrite Forall_forall in Hl.
  destruct (masks_each profile (m :: ms) s Hc (Hl s Hs)) as (t & E & M & R & Z).
  unfold apply_masks_one. rewrite E. cbn [rmap]. eexists. split; [reflexivity|].
  destruct M as (P & _). destruct (drop_empty_spec dwave t P) as (A & B). split; [|easy]. eauto.
Qed.

Lemma pixels_waves_ascending (q : pixel -> bool) w : forall fl iv,
  ascending w -> ascending (map p_wave (filter q (pixels w fl iv))).
Proof.
  unfold ascending. induction w as [|x w IH]; intros fl iv S; cbn; [constructor|].
  destruct fl as [|y fl]; [constructor|]. destruct iv as [|i iv]; [constructor|].
  inversion S as [|? ? S' F]; subst. cbn. destruct (q (mkPix x y i)); [|now apply IH].
  cbn. constructor; [now apply IH|]. apply Forall_forall. intros v Hv.
  apply in_map_iff in Hv as (p & <- & Hp). apply filter_In in Hp as (Hp & _).
  rewrite Forall_forall in F. apply F. clear - Hp. revert fl iv Hp.
  induction w as [|a w IH]; intros fl iv Hp; cbn in Hp; [easy|].
  destruct fl as [|y fl]; [easy|]. destruct iv as [|i iv]; [easy|]. destruct Hp as [<-|Hp]; [now left|].
  right. eapply IH; eauto.
Qed.
Lemma fresh_forest_proper nsqrt w1 w2 lya1 lya2 s s' :
  s_f s = empty_forest -> NoDup (dkeys (s_wave s)) -> data_matches_grid s ->
  (forall arm w, dget arm (s_wave s) = Some w -> ascending w) ->
  set_forest_region nsqrt w1 w2 lya1 lya2 s = Ok s' -> proper s'.
Proof.
  intros He N D A E. apply wff_proper.
  - eapply set_forest_region_wff; eauto. destruct (inv26_fresh s D N He) as (_ & _ & W). exact W.
  - intros arm w Hw. destruct (set_forest_region_spec nsqrt w1 w2 lya1 lya2 s s' He N D E arm) as (H & _).
    destruct (dget arm (s_wave s)) as [wv|] eqn:Ew; [|destruct H as (H & _); congruence].
    destruct (dget arm (s_flux s)) as [fl|]; [|destruct H as (H & _); congruence].
    destruct (dget arm (s_ivar s)) as [iv|]; [|destruct H as (H & _); congruence].
    specialize (H (A _ _ Ew)). destruct H as (H1 & H2).
    match type of H1 with (exists p, In p ?l /\ _) -> _ => set (px := l) in * end.
    assert ((exists p, In p px /\ good (p_ivar p)) \/ (forall p, In p px -> ~ good (p_ivar p))) as [C|C].
    { clear. induction px as [|p l [(q & Hq & G)|IH]]; [right; intros p []|left; exists q; split; [now right|easy]|].
      destruct (nltb n0 (p_ivar p)) eqn:G; [left; exists p; split; [now left|easy]|].
      right. intros q [<-|Hq]; [unfold good; congruence|auto]. }
    + destruct (H1 C) as (Q & _). rewrite Q in Hw. injection Hw as <-. now apply pixels_waves_ascending, (A arm).
    + destruct (H2 C) as (Q & _). congruence.
Qed.

Lemma remove_short_filter dwave lya1 lya2 skip l :
  exists keep : spec -> bool, remove_short_spectra dwave lya1 lya2 skip l = filter keep l /\
    forall s, keep s = true <-> (skip = 0%Qc \/
      (skip * forest_pixels s dwave lya1 lya2 < qsum (map good_pixels (dvals (fivar (s_f s)))))%Qc).
Proof.
  unfold remove_short_spectra. destruct (qeqb skip 0) eqn:E.
  - apply qeqb_true in E. exists (fun _ => true). split.
    + induction l as [|x l IH]; cbn; congruence.
    + tauto.
  - apply qeqb_false in E. eexists. split; [reflexivity|]. intro s. unfold is_long.
    rewrite qltb_true, real_size_sum. unfold forest_pixels. tauto.
Qed.

Lemma dla_snr_kept profile catalog tid z limit p p' :
  dla_pixel profile catalog tid z limit p p' -> (0 < limit)%Qc -> (limit <= 1)%Qc ->
  forall f i, p_flux p = Fin f -> p_ivar p = Fin i ->
  exists f' i', p_flux p' = Fin f' /\ p_ivar p' = Fin i' /\
    ((f' * f' * i' = f * f * i)%Qc \/ (f' = 0%Qc /\ i' = 0%Qc)).
Proof.
  intros (_ & A & B & C) H0 H1 f i Ef Ei.
  set (lim := ((1 + z) * fq 121567 100)%Qc) in *. set (T := transmission _ _ _ _) in *.
  destruct (Qclt_le_dec (p_wave p) lim) as [L|L].
  - destruct (Qclt_le_dec T limit) as [K|K].
    + destruct (B L K) as (-> & ->). exists 0%Qc, 0%Qc. auto.
    + destruct (C L K) as (-> & ->). rewrite Ef, Ei.
      assert (T <> 0)%Qc as Hn by (intro Q; rewrite Q in K; apply Qcle_not_lt in K; contradiction).
      rewrite ndiv_fin by easy. cbn [nmul]. eexists. eexists. split; [reflexivity|]. split; [reflexivity|].
      left. field. easy.
  - rewrite (A L). exists f, i. auto.
Qed.

(** a cubic spline through positive eta values that is negative in between *)
From Verif Require ModelInterp.
Definition neg_eta_nodes : list Qc := [zq 1; fq 1 100; fq 1 100; zq 1].
Definition neg_eta (junk : ModelInterp.arr) (x : Qc) : num :=
  match ModelInterp.cubic_init junk (zq 3600) (zq 2) neg_eta_nodes ModelInterp.NotAKnot with
  | Ok c => match ModelInterp.cubic_call c x with Some q => Fin q | None => NaN end
  | Err _ => NaN
  end.
Definition neg_spec : spec :=
  mkSpec (mkCatrow 1 1 (zq 2) None [] [] [] []) [] [] [] [] n0 None
    (mkForest [("b"%string, [zq 3603])] [("b"%string, [n1])] [] [[("b"%string, [n1])]] 0 0 0)
    0 false [] n0 [].
Lemma neg_eta_value junk : exists q, neg_eta junk (zq 3603) = Fin q /\ (q < 0)%Qc.
Proof. eexists. split; [vm_compute; reflexivity|]. vm_compute. reflexivity. Qed.
Lemma neg_eta_witness junk :
  exists c s s' p p',
    ModelInterp.cubic_init junk (zq 3600) (zq 2) neg_eta_nodes ModelInterp.NotAKnot = Ok c /\
    Forall (fun e => (0 < e)%Qc) neg_eta_nodes /\ proper s /\
    pixel_at s "b" 0 = Some p /\ good (p_ivar p) /\
    noise_eta (fun x => match ModelInterp.cubic_call c x with Some q => Fin q | None => NaN end) s = Ok s' /\
    pixel_at s' "b" 0 = Some p' /\ nltb (p_ivar p') n0 = true.
Proof.
  eexists. exists neg_spec. eexists. exists (mkPix (zq 3603) n1 n1). eexists.
  split; [reflexivity|]. split; [repeat constructor|]. split.
  - split; [|split; [|split; [|repeat split; cbn; lia]]].
    + intro arm. unfold len_at, fivar, fivar_sm, fweight. cbn. now destruct (String.eqb arm "b").
    + cbn. repeat constructor. intros [].
    + intros arm w. cbn. destruct (String.eqb arm "b"); [|discriminate]. intro H. injection H as <-.
      repeat constructor.
  - split; [reflexivity|]. split; [reflexivity|]. split; [vm_compute; reflexivity|].
    split; [vm_compute; reflexivity|]. vm_compute. reflexivity.
Qed.

Lemma maskable_after s s' : maskable s -> proper s' -> rest_unchanged s s' -> maskable s'.
Proof.
  intros (P & Hz & HL) P' R. split; [easy|]. unfold s_z in *. destruct R as (-> & _). now split.
Qed.
Lemma sky_idempotent rows s :
  proper s -> (0 < 1 + s_z s)%Qc ->
  exists s1 s2, skymask_apply (skymask_init rows) s = Ok s1 /\
    skymask_apply (skymask_init rows) s1 = Ok s2 /\ same_pixels s1 s2.
Proof.
  intros P Hz. destruct (sky_spec rows s P Hz) as (s1 & E1 & P1 & R1 & Z1).
  assert (s_z s1 = s_z s) as Q by (unfold s_z; now destruct R1 as (-> & _)).
  destruct (sky_spec rows s1 P1) as (s2 & E2 & P2 & R2 & Z2); [now rewrite Q|].
  exists s1, s2. split; [easy|]. split; [easy|]. rewrite Q in Z2.
  eapply zeroes_twice; [|exact Z1|exact Z2]. intro x. apply sky_dec.
Qed.
Lemma bal_idempotent s :
  maskable s ->
  exists s1 s2, balmask_apply s = Ok s1 /\ balmask_apply s1 = Ok s2 /\ same_pixels s1 s2.
Proof.
  intros M. pose proof M as (P & Hz & HL).
  destruct (bal_spec s P HL) as (s1 & E1 & P1 & R1 & Z1).
  pose proof (maskable_after _ _ M P1 R1) as (_ & _ & HL1).
  destruct (bal_spec s1 P1 HL1) as (s2 & E2 & P2 & R2 & Z2).
  exists s1, s2. split; [easy|]. split; [easy|]. destruct R1 as (Q & _). rewrite Q in Z2.
  eapply zeroes_twice; [|exact Z1|exact Z2]. intro x. now apply bal_dec.
Qed.
Lemma sky_sky_commute rows rows' s :
  maskable s ->
  exists a b c d, skymask_apply (skymask_init rows) s = Ok a /\ skymask_apply (skymask_init rows') a = Ok b /\
    skymask_apply (skymask_init rows') s = Ok c /\ skymask_apply (skymask_init rows) c = Ok d /\
    same_pixels b d.
Proof.
  intros (P & Hz & _).
  destruct (sky_spec rows s P Hz) as (a & Ea & Pa & Ra & Za).
  assert (s_z a = s_z s) as Qa by (unfold s_z; now destruct Ra as (-> & _)).
  destruct (sky_spec rows' a Pa) as (b & Eb & Pb & Rb & Zb); [now rewrite Qa|].
  destruct (sky_spec rows' s P Hz) as (c & Ec & Pc & Rc & Zc).
  assert (s_z c = s_z s) as Qc' by (unfold s_z; now destruct Rc as (-> & _)).
  destruct (sky_spec rows c Pc) as (d & Ed & Pd & Rd & Zd); [now rewrite Qc'|].
  exists a, b, c, d. repeat (split; [easy|]). rewrite Qa in Zb. rewrite Qc' in Zd.
  eapply zeroes_comm; [| |exact Za|exact Zb|exact Zc|exact Zd]; intro x; apply sky_dec.
Qed.
Lemma sky_bal_commute rows s :
  maskable s ->
  exists a b c d, skymask_apply (skymask_init rows) s = Ok a /\ balmask_apply a = Ok b /\
    balmask_apply s = Ok c /\ skymask_apply (skymask_init rows) c = Ok d /\ same_pixels b d.
Proof.
  intros M. pose proof M as (P & Hz & HL).
  destruct (sky_spec rows s P Hz) as (a & Ea & Pa & Ra & Za).
  pose proof (maskable_after _ _ M Pa Ra) as (_ & _ & HLa).
  destruct (bal_spec a Pa HLa) as (b & Eb & Pb & Rb & Zb).
  destruct (bal_spec s P HL) as (c & Ec & Pc & Rc & Zc).
  assert (s_z c = s_z s) as Qc' by (unfold s_z; now destruct Rc as (-> & _)).
  destruct (sky_spec rows c Pc) as (d & Ed & Pd & Rd & Zd); [now rewrite Qc'|].
  exists a, b, c, d. repeat (split; [easy|]). destruct Ra as (Qa & _). rewrite Qa in Zb. rewrite Qc' in Zd.
  eapply zeroes_comm; [| |exact Za|exact Zb|exact Zc|exact Zd]; intro x; [apply sky_dec|now apply bal_dec].
Qed.

(** the whole list *)
Lemma rseq_ok {A B} (f : A -> res B) (P : A -> B -> Prop) l : Forall (fun x => exists y, f x = Ok y /\ P x y) l ->
  exists l', rseq (map f l) = Ok l' /\ Forall2 P l l'.
Proof.
  induction 1 as [|x l (y & E & H) _ (l' & E' & H')]; [now exists []|]. exists (y :: l'). cbn. rewrite E. cbn. rewrite E'. cbn.
  split; [reflexivity|now constructor].
Qed.
Lemma noise_apply (eta varlss : Qc -> Qc) l : Forall proper l ->
  (Forall (fun s => s_cont s <> [] /\ cont_matches s) l ->
   exists l', noise_calibrate (fun x => Fin (eta x)) (Some (fun x => Fin (varlss x))) l = Ok l' /\
     Forall2 (fun s s' => proper s' /\ rest_unchanged s s' /\ each_pixel (additive_calibrated eta varlss (s_cont s)) s s') l l') /\
  (Exists (fun s => s_cont s = []) l ->
   exists e, noise_calibrate (fun x => Fin (eta x)) (Some (fun x => Fin (varlss x))) l = Err e).
Proof.
  intro Hp. unfold noise_calibrate. split.
  - intro Hc. replace (forallb _ l) with true.
    + apply rseq_ok. rewrite Forall_forall in *. intros s Hs. destruct (Hc s Hs). apply noise_additive_spec; auto.
    + symmetry. apply forallb_forall. intros s Hs. rewrite Forall_forall in Hc. destruct (Hc s Hs) as [H _]. now destruct (s_cont s).
  - intro Hx. replace (forallb _ l) with false; [eauto|]. symmetry. apply not_true_iff_false. rewrite forallb_forall. intro K.
    apply Exists_exists in Hx as (s & Hs & Es). specialize (K s Hs). now rewrite Es in K.
Qed.
