(** No step of qsonic-fit changes the catalog row and the rsnr of a spectrum. *)
From Coq Require Import ZArith String List Bool Arith Lia Qcanon.
From Verif Require Import Num NpList Exn Dict Mpi ModelSpectrum ModelMasks ModelContinuum ModelStack ModelSubsample
  ModelVarFit ModelFitter ModelExposures.
Import ListNotations.
Local Open Scope nat_scope.

(** Q holds if the computation succeeds *)
Definition okall {A} (Q : A -> Prop) (r : res A) : Prop := match r with Ok a => Q a | Err _ => True end.
Lemma okall_ok {A} (Q : A -> Prop) a : Q a -> okall Q (Ok a). Proof. easy. Qed.
Lemma okall_err {A} (Q : A -> Prop) e : okall Q (Err e). Proof. exact I. Qed.
Lemma okall_bind {A B} (Q : B -> Prop) (x : res A) (f : A -> res B) : (forall a, okall Q (f a)) -> okall Q (rbind x f).
Proof. destruct x; cbn; auto. Qed.
Lemma okall_bind2 {A B} (P : A -> Prop) (Q : B -> Prop) (x : res A) (f : A -> res B) :
  okall P x -> (forall a, P a -> okall Q (f a)) -> okall Q (rbind x f).
Proof. destruct x; cbn; auto. Qed.
Lemma okall_rmap {A B} (Q : B -> Prop) (x : res A) (f : A -> B) : (forall a, Q (f a)) -> okall Q (rmap f x).
Proof. destruct x; cbn; auto. Qed.
Lemma okall_rmap2 {A B} (P : A -> Prop) (Q : B -> Prop) (x : res A) (f : A -> B) : okall P x -> (forall a, P a -> Q (f a)) -> okall Q (rmap f x).
Proof. destruct x; cbn; auto. Qed.
Lemma okall_for_each {X S} (Q : S -> Prop) (l : list X) (f : X -> S -> res S) : (forall x s, Q s -> okall Q (f x s)) ->
  forall s, Q s -> okall Q (for_each l f s).
Proof.
  intro H. induction l as [|x l IH]; intros s Hs; [exact Hs|]. cbn. apply okall_bind2 with Q; [now apply H|]. exact IH.
Qed.
Lemma okall_use {A} (Q : A -> Prop) r a : okall Q r -> r = Ok a -> Q a.
Proof. intros H ->. exact H. Qed.
Lemma okall_rseq {A B} (P : A -> Prop) (Q : B -> Prop) (f : A -> res B) l : (forall x, P x -> okall Q (f x)) -> Forall P l ->
  okall (Forall Q) (rseq (map f l)).
Proof.
  intros H Hl. induction Hl as [|x l Hx Hl IH]; [constructor|]. cbn. apply okall_bind2 with Q; [now apply H|].
  intros y Hy. apply okall_rmap2 with (Forall Q); [exact IH|]. intros m Hm. now constructor.
Qed.

Definition skey (s : spec) : catrow * num := (s_cat s, s_rsnr s).
Definition keeps (s : spec) (r : res spec) : Prop := okall (fun s' => skey s' = skey s) r.
Lemma related_cat nsqrt s : keeps s (set_forest_related nsqrt s).
Proof. unfold set_forest_related. apply okall_bind. intros [[x0 wt] ms]. now repeat (destruct (_ : bool); try apply okall_ok). Qed.
Lemma region_cat nsqrt a b c d s : keeps s (set_forest_region nsqrt a b c d s).
Proof. unfold set_forest_region. destruct (forest_limits _ _ _ _ _). apply okall_bind. intro f. apply (related_cat nsqrt (set_f _ s)). Qed.
Lemma smooth_cat sm dw x s : skey (set_smooth_forestivar sm dw x s) = skey s.
Proof. unfold set_smooth_forestivar. now destruct (qleb x 0). Qed.
Lemma weight_cat a b s : keeps s (set_forest_weight a b s).
Proof. unfold set_forest_weight. destruct (_ || _); [reflexivity|]. repeat (apply okall_bind; intro). reflexivity. Qed.
Lemma chi2_cat s : keeps s (calc_continuum_chi2 s).
Proof. unfold calc_continuum_chi2. destruct (_ || _); [reflexivity|]. repeat (apply okall_bind; intro). reflexivity. Qed.
Lemma coadd_cat a b c d e f s : keeps s (coadd_arms_forest a b c d e f s).
Proof.
  unfold coadd_arms_forest. do 5 (apply okall_bind; intro). destruct (coadd_finish _). do 2 (apply okall_bind; intro).
  eapply okall_bind2; [apply weight_cat|]. intros s3 H. apply okall_bind. intro x. cbn [okall]. cbv beta in H. rewrite smooth_cat in H. exact H.
Qed.
Lemma drop_cat dw a b c s : skey (drop_short_arms dw a b c s) = skey s.
Proof.
  unfold drop_short_arms. match goal with |- context [fold_left _ ?l s] => generalize l end. intro l.
  revert s. induction l as [|x l IH]; intro s; [reflexivity|]. cbn. now rewrite IH.
Qed.
Lemma sky_cat m s : keeps s (skymask_apply m s). Proof. apply okall_rmap. reflexivity. Qed.
Lemma bal_cat s : keeps s (balmask_apply s).
Proof. unfold balmask_apply. apply okall_bind. intros [|? ?]; [reflexivity|]. apply okall_rmap. reflexivity. Qed.
Lemma dla_cat p m s : keeps s (dlamask_apply p m s).
Proof. unfold dlamask_apply. destruct (nonzero _); [reflexivity|]. apply okall_bind. intro. apply okall_rmap. reflexivity. Qed.
Lemma mask_cat p m s : keeps s (mask_apply p m s).
Proof. destruct m; [apply sky_cat|apply bal_cat|apply dla_cat]. Qed.
Lemma masks_cat p dw ms s : keeps s (apply_masks_one p dw ms s).
Proof.
  unfold apply_masks_one. apply okall_rmap2 with (fun s' => skey s' = skey s); [|intros s' H; now rewrite drop_cat].
  apply okall_for_each; [|reflexivity]. intros m s1 H.
  pose proof (mask_cat p m s1) as K. unfold keeps in K. destruct (mask_apply p m s1); cbn in *; [congruence|exact I].
Qed.
Lemma eta_cat e s : keeps s (noise_eta e s). Proof. apply okall_rmap. reflexivity. Qed.
Lemma additive_cat e v s : keeps s (noise_additive e v s). Proof. apply okall_rmap. reflexivity. Qed.
Lemma flux_cat f s : keeps s (flux_calibrate1 f s). Proof. apply okall_rmap. reflexivity. Qed.
Lemma scale_cat e k s : keeps s (scale_cont e k s). Proof. apply okall_rmap. reflexivity. Qed.
Lemma weight_chi2_cat (Q : spec -> Prop) a b s (k : spec -> spec) : (forall s', skey s' = skey s -> Q (k s')) ->
  okall Q (rbind (set_forest_weight a b s) (fun s2 => rbind (calc_continuum_chi2 s2) (fun s3 => Ok (k s3)))).
Proof.
  intro H. eapply okall_bind2; [apply weight_cat|]. intros s2 H2. eapply okall_bind2; [apply chi2_cat|]. intros s3 H3. apply H. congruence.
Qed.
Lemma picca_cat a b c d e f s x : okall (fun r => skey (fst r) = skey s) (picca_fit a b c d e f s x).
Proof.
  unfold picca_fit. do 2 (apply okall_bind; intro). set (s1 := if m_valid _ then _ else _).
  assert (skey s1 = skey s) as E by (unfold s1; destruct (m_valid _); [destruct (picca_arms _ _ _ _ _ _)|]; reflexivity).
  eapply okall_bind2; [apply weight_cat|]. intros s2 H2. eapply okall_bind2; [apply chi2_cat|]. intros s3 H3.
  assert (skey s3 = skey s) as K by (cbv beta in *; congruence). cbn [okall fst]. destruct (s_valid s3); exact K.
Qed.
Lemma input_cat a b c d s : keeps s (input_fit a b c d s).
Proof.
  unfold input_fit. destruct (negb _); [reflexivity|]. destruct (input_arms _ _ _ _ _) as [ok cont].
  eapply okall_bind2; [apply weight_cat|]. intros s2 H2. eapply okall_bind2; [apply chi2_cat|]. intros s3 H3.
  assert (skey s3 = skey s) as K by (cbv beta in *; etransitivity; [exact H3|rewrite H2; now destruct ok]). cbn [okall]. destruct (s_valid s3), ok; exact K.
Qed.
Lemma true_cat a b c s : keeps s (true_fit a b c s).
Proof.
  unfold true_fit. cbn zeta. eapply okall_bind2; [apply weight_cat|]. intros s2 H2. change (skey s2 = skey s) in H2. unfold keeps. rewrite <- H2. apply chi2_cat.
Qed.
Lemma fit_one_cat g ev mf sl mi ic tc t sx : okall (fun r => skey (fst r) = skey (fst sx)) (fit_one g ev mf sl mi ic tc t sx).
Proof.
  unfold fit_one. destruct sx as [s x]. destruct (g_model g); cbn [fst].
  - apply picca_cat.
  - eapply okall_rmap2; [apply input_cat|]. easy.
  - eapply okall_rmap2; [apply true_cat|]. easy.
Qed.
Lemma init_one_cat g ic sx : okall (fun r => skey (fst r) = skey (fst sx)) (init_one g ic sx).
Proof. unfold init_one. destruct (g_model g); [|reflexivity|reflexivity]. unfold picca_init. destruct (s_x _); [exact I|reflexivity]. Qed.

(** lists *)
Section Lists.
Variable C : catrow * num -> Prop.
Definition cats (l : list spec) : Prop := Forall (fun s => C (skey s)) l.
Definition catx (l : list specx) : Prop := Forall (fun sx => C (skey (fst sx))) l.
Lemma cats_rseq f l : (forall s, keeps s (f s)) -> cats l -> okall cats (rseq (map f l)).
Proof.
  intros H Hl. refine (okall_rseq _ _ f l _ Hl). intros s Hs. specialize (H s). unfold keeps in H. destruct (f s); [|exact I]. cbn in *. now rewrite H.
Qed.
Lemma cats_map f l : (forall s, skey (f s) = skey s) -> cats l -> cats (map f l).
Proof. intros H Hl. apply Forall_map. eapply Forall_impl; [|exact Hl]. intros s Hs. cbn. now rewrite H. Qed.
Lemma cats_filter f l : cats l -> cats (filter f l).
Proof. unfold cats. rewrite !Forall_forall. intros H x Hx. apply filter_In in Hx as [Hx _]. now apply H. Qed.
Lemma cats_masks p dw ms l : cats l -> okall cats (apply_masks p dw ms l).
Proof. unfold apply_masks. destruct ms; [easy|]. apply cats_rseq. intro. apply masks_cat. Qed.
Lemma cats_noise e v l : cats l -> okall cats (noise_calibrate e v l).
Proof. unfold noise_calibrate. destruct v; [destruct (forallb _ _); [|easy]|]; apply cats_rseq; intro; [apply additive_cat|apply eta_cat]. Qed.
Lemma catx_on f sx : (forall s, keeps s (f s)) -> C (skey (fst sx)) -> okall (fun sx' => C (skey (fst sx'))) (on_spec f sx).
Proof. intros H Hs. eapply okall_rmap2; [apply H|]. intros s E. cbn. now rewrite E. Qed.
Lemma catx_normalize g es t l : catx l -> okall catx (normalize_flux g es t l).
Proof.
  intro Hl. unfold normalize_flux. destruct (g_norm g); [|exact Hl]. refine (okall_rseq _ _ _ _ _ Hl). intros sx Hs.
  unfold on_valid. destruct (s_valid _); [|exact Hs]. apply catx_on; [intro; apply scale_cat|exact Hs].
Qed.
Lemma catx_eta g ev t l : catx l -> okall catx (eta_calibrate g ev t l).
Proof.
  intro Hl. unfold eta_calibrate. destruct (g_etacal g); [|exact Hl]. refine (okall_rseq _ _ _ _ _ Hl). intros sx Hs.
  apply catx_on; [intro; apply eta_cat|exact Hs].
Qed.
Lemma cats_valid l : cats l -> cats (valid_spectra l).
Proof. apply cats_filter. Qed.
Lemma cats_add_noise ev sm dw vl t l : cats l -> okall cats (add_noise ev sm dw vl t l).
Proof.
  intro Hl. unfold add_noise. eapply okall_bind2; [exact (cats_noise _ _ l Hl)|]. intros l1. apply cats_rseq.
  intro s. pose proof (weight_cat (ev (deref t (t_var t))) (ev (deref t (t_eta t))) (set_smooth_forestivar sm dw (s_sscale s) s)) as H.
  unfold keeps in *. now rewrite smooth_cat in H.
Qed.
Lemma cats_coadd_after a b c d e f l : cats l -> okall cats (coadd_after a b c d e f l).
Proof.
  unfold coadd_after. apply cats_rseq. intro s. eapply okall_bind2; [apply coadd_cat|]. intros s1 H. rewrite <- H. apply chi2_cat.
Qed.
End Lists.

(** exposures *)
Lemma slice_z_cat arm i j s : keeps s (spec_slice_z arm i j s).
Proof.
  unfold spec_slice_z. apply okall_bind; intro. destruct (_ && _); [reflexivity|]. repeat (apply okall_bind; intro). cbn zeta.
  apply okall_ok. destruct (dget arm (s_cont _)); reflexivity.
Qed.
Lemma match_arm_cat dw c p s : keeps s (match_arm dw c p s).
Proof.
  unfold match_arm. destruct p as [arm wv]. destruct (dget _ _); [|exact I]. do 4 (apply okall_bind; intro).
  destruct (if (_ <? 0)%Z then _ else _) as [i1 j1]. destruct (if (_ <? 0)%Z then _ else _) as [i2 j2].
  eapply okall_bind2; [apply slice_z_cat|]. intros s1 H. do 2 (apply okall_bind; intro). cbn. destruct (_ =? _); exact H.
Qed.
Lemma match_exposure_cat dw c s : keeps s (match_exposure dw c s).
Proof.
  unfold match_exposure. apply okall_for_each; [|reflexivity]. intros p s1 H. pose proof (match_arm_cat dw c p s1) as K.
  unfold keeps in K. destruct (match_arm dw c p s1); cbn in *; congruence.
Qed.
