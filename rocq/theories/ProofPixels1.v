(** A property of spectra that every step of the fit keeps holds after the fit (C71). *)
From Coq Require Import ZArith String List Bool Arith Lia Qcanon.
From Verif Require Import Num NpList Exn Dict Mpi ModelSpectrum ModelMasks ModelContinuum ModelStack ModelSubsample
  ModelVarFit ModelFitter ModelExposures ModelPipeline SpecFinal ProofCat ProofAttributes.
Import ListNotations.
Local Open Scope nat_scope.

Definition ckey (s : spec) : catrow * forest * Qc := (s_cat s, s_f s, s_sscale s).
Lemma chi2_c s : okall (fun s' => ckey s' = ckey s) (calc_continuum_chi2 s).
Proof. unfold calc_continuum_chi2. destruct (_ || _); [reflexivity|]. repeat (apply okall_bind; intro). reflexivity. Qed.

Section Inv.
Variable I : spec -> Prop.
Hypothesis Hset : forall s s', ckey s' = ckey s -> I s -> I s'.
Hypothesis Hweight : forall a b s, I s -> okall I (set_forest_weight a b s).

Lemma inv_chi2 s : I s -> okall I (calc_continuum_chi2 s).
Proof. intro H. pose proof (chi2_c s) as K. destruct (calc_continuum_chi2 s); [|exact Logic.I]. exact (Hset s _ K H). Qed.
Lemma inv_rseq f l : (forall s, I s -> okall I (f s)) -> Forall I l -> okall (Forall I) (rseq (map f l)).
Proof. intros H Hl. exact (okall_rseq I I f l H Hl). Qed.
Lemma weight_chi2_I (Q : spec -> Prop) a b s (k : spec -> spec) : I s -> (forall s', I s' -> Q (k s')) ->
  okall Q (rbind (set_forest_weight a b s) (fun s2 => rbind (calc_continuum_chi2 s2) (fun s3 => Ok (k s3)))).
Proof.
  intros Hs H. eapply okall_bind2; [apply Hweight; exact Hs|]. intros s2 H2. eapply okall_bind2; [apply inv_chi2; exact H2|]. intros s3 H3. now apply H.
Qed.
Definition IX (sx : specx) : Prop := I (fst sx).
Lemma picca_I a b c d e f s x : I s -> okall IX (picca_fit a b c d e f s x).
Proof.
  intro Hs. unfold picca_fit. do 2 (apply okall_bind; intro). set (s1 := if m_valid _ then _ else _).
  assert (I s1) as E by (unfold s1; destruct (m_valid _); [destruct (picca_arms _ _ _ _ _ _)|]; apply (Hset s); auto).
  eapply okall_bind2; [apply Hweight; exact E|]. intros s2 H2. eapply okall_bind2; [apply inv_chi2; exact H2|]. intros s3 H3.
  cbn [okall]. unfold IX. destruct (s_valid s3); cbn [fst]; refine (Hset s3 _ _ H3); reflexivity.
Qed.
Lemma input_I a b c d s : I s -> okall I (input_fit a b c d s).
Proof.
  intro Hs. unfold input_fit. destruct (negb _); [refine (Hset s _ _ Hs); reflexivity|]. destruct (input_arms _ _ _ _ _) as [ok cont].
  eapply okall_bind2; [apply Hweight; refine (Hset s _ _ Hs); now destruct ok|]. intros s2 H2.
  eapply okall_bind2; [apply inv_chi2; exact H2|]. intros s3 H3. cbn [okall]. destruct (s_valid s3); [exact H3|]. refine (Hset s3 _ _ H3); reflexivity.
Qed.
Lemma true_I a b c s : I s -> okall I (true_fit a b c s).
Proof.
  intro Hs. unfold true_fit. cbn zeta. eapply okall_bind2; [apply Hweight; refine (Hset s _ _ Hs); reflexivity|]. intros s2 H2. now apply inv_chi2.
Qed.
Lemma fit_one_I g ev mf sl mi ic tc t sx : IX sx -> okall IX (fit_one g ev mf sl mi ic tc t sx).
Proof.
  unfold IX. intro Hs. unfold fit_one. destruct sx as [s x]. destruct (g_model g).
  - now apply picca_I.
  - eapply okall_rmap2; [apply input_I; exact Hs|]. easy.
  - eapply okall_rmap2; [apply true_I; exact Hs|]. easy.
Qed.
Lemma init_one_I g ic sx : IX sx -> okall IX (init_one g ic sx).
Proof.
  intro Hs. unfold init_one. destruct (g_model g); [unfold picca_init; destruct (s_x _); [exact Logic.I|]|..]; refine (Hset (fst sx) _ _ Hs); reflexivity.
Qed.
Lemma scale_c e k s : okall (fun s' => ckey s' = ckey s) (scale_cont e k s).
Proof. apply okall_rmap. reflexivity. Qed.
Lemma iterations_I g ev mf slope mi ic tc nsqrt uspline xs quad mnp mnq ch cf vs wo isx rank : forall m it t l log, Forall IX l ->
  leaf (fun r => Forall IX (snd (fst r)))
    (iterations g ev mf slope mi ic tc nsqrt uspline xs quad mnp mnq ch cf vs wo isx rank m it t l log).
Proof.
  induction m as [|m IH]; intros it t l log Hl; cbn [iterations]; [exact Hl|].
  apply leaf_bind_any. intros _. apply (leaf_bind (Forall IX)).
  { unfold fit_continua. apply (leaf_bind (Forall IX)).
    - apply leaf_res. intros l1 E. refine (okall_use _ _ _ (okall_rseq IX IX _ l _ Hl) E). intros sx Hs. now apply fit_one_I.
    - intros l1 E. intros x y. destruct (Nat.eqb _ 0); [exact Logic.I|exact E]. }
  intros l1 E. apply leaf_bind_any. intro tb. apply leaf_bind_any. intro t2. cbv zeta. destruct (snd tb); [exact E|]. now apply IH.
Qed.
Lemma iterate_I g ev es mf slope mi ic tc nsqrt uspline xs quad mnp mnq ch cf vs wo isx rank t l :
  (g_etacal g = true -> forall e s, I s -> okall I (noise_eta e s)) -> Forall IX l ->
  leaf (fun r => Forall IX (snd (fst r)))
    (iterate g ev es mf slope mi ic tc nsqrt uspline xs quad mnp mnq ch cf vs wo isx rank t l).
Proof.
  intros Heta Hl. unfold iterate. apply (leaf_bind (Forall IX)).
  { apply leaf_res. intros l0 E. refine (okall_use _ _ _ (okall_rseq IX IX _ l _ Hl) E). intros sx Hs. now apply init_one_I. }
  intros l0 E0. eapply leaf_bind; [apply iterations_I; exact E0|]. intros [[t1 l1] log] E1. cbn [fst snd] in E1.
  apply (leaf_bind (Forall IX)).
  { apply leaf_res. intros l2 E. unfold normalize_flux in E. destruct (g_norm g); [|now injection E as <-].
    refine (okall_use _ _ _ (okall_rseq IX IX _ l1 _ E1) E). intros sx Hs. unfold on_valid. destruct (s_valid _); [|exact Hs].
    eapply okall_rmap2; [apply scale_c|]. intros s K. exact (Hset _ _ K Hs). }
  intros l2 E2. apply (leaf_bind (Forall IX)).
  { apply leaf_res. intros l3 E. unfold eta_calibrate in E. destruct (g_etacal g) eqn:Eg; [|now injection E as <-].
    refine (okall_use _ _ _ (okall_rseq IX IX _ l2 _ E2) E). intros sx Hs. eapply okall_rmap2; [apply (Heta eq_refl); exact Hs|]. intros s K. exact K. }
  intros l3 E3. apply leaf_bind_any. intros _. apply leaf_bind_any. intro t2. apply leaf_bind_any. intros _. exact E3.
Qed.

Variable nsqrt : num -> num.
Variable smooth : list num -> Qc -> list num.
Variable junk : nat -> num.
Variable dwave : Qc.
Hypothesis Hsm : forall s, I s -> I (set_smooth_forestivar smooth dwave (s_sscale s) s).

Lemma valid_I l : Forall I l -> Forall I (valid_spectra l).
Proof. intro H. apply Forall_forall. intros s Hs. apply filter_In in Hs as [Hs _]. rewrite Forall_forall in H. auto. Qed.
Lemma fitting_I g ev es slope mi ic tc uspline xs quad mnp mnq ch cf vs wo isx rank o l :
  (g_etacal g = true -> forall e s, I s -> okall I (noise_eta e s)) -> (o_additive o <> None -> forall e v s, I s -> okall I (noise_additive e v s)) ->
  (o_coadd_after o = true -> forall a b s, I s -> okall I (coadd_arms_forest nsqrt smooth junk dwave a b s)) -> Forall IX l ->
  leaf (fun r => Forall I (snd (fst r)))
    (continuum_fitting g ev es slope mi ic tc nsqrt uspline xs quad mnp mnq ch cf vs wo isx smooth junk dwave rank o l).
Proof.
  intros Heta Hadd Hco Hl. unfold continuum_fitting. apply leaf_bind_any. intro mt. eapply leaf_bind; [apply iterate_I; [exact Heta|exact Hl]|].
  intros [[t l1] log] H1. cbn [fst snd] in H1. apply (leaf_bind (Forall I)).
  { assert (Forall I (valid_spectra (map fst l1))) as Hv by now apply valid_I, Forall_map.
    destruct (o_additive o) as [file|]; [|exact Hv]. apply leaf_bind_any. intro vl. apply leaf_res. intros v1 E.
    unfold add_noise in E. refine (okall_use (Forall I) _ _ _ E). eapply okall_bind2.
    - unfold noise_calibrate. destruct (forallb _ _); [|exact Logic.I]. apply inv_rseq; [|exact Hv]. intros s Hs. now apply Hadd; [discriminate|].
    - intros l2 H2. apply inv_rseq; [|exact H2]. intros s Hs. now apply Hweight, Hsm. }
  intros v1 H2. apply (leaf_bind (Forall I)).
  { destruct (o_coadd_after o) eqn:Eo; [|exact H2]. apply leaf_res. intros v2 E. unfold coadd_after in E.
    refine (okall_use _ _ _ (inv_rseq _ _ _ H2) E). intros s Hs. eapply okall_bind2; [apply (Hco eq_refl); exact Hs|]. intros s1 Hs1. now apply inv_chi2. }
  intros v2 H3. apply leaf_bind_any. intros _. exact H3.
Qed.
End Inv.
