(** MEANSNR of the spectra that a run writes (C80). *)
From Coq Require Import ZArith String List Bool Arith Lia Qcanon Permutation.
From Verif Require Import Num NpList NpListFacts Exn Dict Mpi ModelMpiUtils ModelSpectrum ModelMasks ModelBlinding
  ModelContinuum ModelStack ModelSubsample ModelVarFit ModelFitter ModelExposures ModelFitArgs ModelCatalog ModelFitQueue ModelIO
  ModelPipeline SpecMpi SpecFinal SpecCatalog SpecPipeline SpecDrop SpecSpectrum SpecSnr SpecSelect SpecRanks SpecComplete SpecSnrCut ProofMpi ProofMpi2 ProofLock ProofSafe ProofFitter ProofFinal ProofCat ProofGroup
  ProofCatalog ProofBalance ProofIO2 ProofDistribution ProofPipeline ProofPipeline2 ProofDrop ProofMasks3 ProofSelect ProofRanks ProofRanks2 ProofRanks4 ProofRanks6 ProofAttributes
  ProofComplete ProofSnrCut.
Import ListNotations.
Local Open Scope nat_scope.

Lemma smooth_m sm dw x s : mkey (set_smooth_forestivar sm dw x s) = mkey s.
Proof. unfold set_smooth_forestivar. now destruct (qleb x 0). Qed.
Lemma weight_m a b s : keepsm s (set_forest_weight a b s).
Proof. unfold set_forest_weight. destruct (_ || _); [reflexivity|]. repeat (apply okall_bind; intro). reflexivity. Qed.
Lemma chi2_m s : keepsm s (calc_continuum_chi2 s).
Proof. unfold calc_continuum_chi2. destruct (_ || _); [reflexivity|]. repeat (apply okall_bind; intro). reflexivity. Qed.
Lemma eta_m e s : keepsm s (noise_eta e s). Proof. apply okall_rmap. reflexivity. Qed.
Lemma additive_m e v s : keepsm s (noise_additive e v s). Proof. apply okall_rmap. reflexivity. Qed.
Lemma scale_m e k s : keepsm s (scale_cont e k s). Proof. apply okall_rmap. reflexivity. Qed.
Lemma picca_m a b c d e f s x : okall (fun r => mkey (fst r) = mkey s) (picca_fit a b c d e f s x).
Proof.
  unfold picca_fit. do 2 (apply okall_bind; intro). set (s1 := if m_valid _ then _ else _).
  assert (mkey s1 = mkey s) as E by (unfold s1; destruct (m_valid _); [destruct (picca_arms _ _ _ _ _ _)|]; reflexivity).
  eapply okall_bind2; [apply weight_m|]. intros s2 H2. eapply okall_bind2; [apply chi2_m|]. intros s3 H3.
  assert (mkey s3 = mkey s) as K by (cbv beta in *; congruence). cbn [okall fst]. destruct (s_valid s3); exact K.
Qed.
Lemma input_m a b c d s : keepsm s (input_fit a b c d s).
Proof.
  unfold input_fit. destruct (negb _); [reflexivity|]. destruct (input_arms _ _ _ _ _) as [ok cont].
  eapply okall_bind2; [apply weight_m|]. intros s2 H2. eapply okall_bind2; [apply chi2_m|]. intros s3 H3.
  assert (mkey s3 = mkey s) as K by (cbv beta in *; etransitivity; [exact H3|rewrite H2; now destruct ok]). cbn [okall]. destruct (s_valid s3), ok; exact K.
Qed.
Lemma true_m a b c s : keepsm s (true_fit a b c s).
Proof.
  unfold true_fit. cbn zeta. eapply okall_bind2; [apply weight_m|]. intros s2 H2. change (mkey s2 = mkey s) in H2. unfold keepsm. rewrite <- H2. apply chi2_m.
Qed.
Lemma fit_one_m g ev mf sl mi ic tc t sx : okall (fun r => mkey (fst r) = mkey (fst sx)) (fit_one g ev mf sl mi ic tc t sx).
Proof.
  unfold fit_one. destruct sx as [s x]. destruct (g_model g); cbn [fst].
  - apply picca_m.
  - eapply okall_rmap2; [apply input_m|]. easy.
  - eapply okall_rmap2; [apply true_m|]. easy.
Qed.
Lemma init_one_m g ic sx : okall (fun r => mkey (fst r) = mkey (fst sx)) (init_one g ic sx).
Proof. unfold init_one. destruct (g_model g); [|reflexivity|reflexivity]. unfold picca_init. destruct (s_x _); [exact I|reflexivity]. Qed.
Definition xmkey (sx : specx) := mkey (fst sx).
Lemma iterations_m g ev mf slope mi ic tc nsqrt uspline xs quad mnp mnq ch cf vs wo isx rank : forall m it t l log,
  leaf (fun r => map xmkey (snd (fst r)) = map xmkey l)
    (iterations g ev mf slope mi ic tc nsqrt uspline xs quad mnp mnq ch cf vs wo isx rank m it t l log).
Proof.
  induction m as [|m IH]; intros it t l log; cbn [iterations]; [reflexivity|].
  apply leaf_bind_any. intros _. apply (leaf_bind (fun l1 => map xmkey l1 = map xmkey l)).
  { unfold fit_continua. apply (leaf_bind (fun l1 => map xmkey l1 = map xmkey l)).
    - apply leaf_res. intros l1 E. refine (rseq_map _ xmkey l _ l1 E). intro sx. apply fit_one_m.
    - intros l1 E. intros x y. destruct (Nat.eqb _ 0); [exact I|exact E]. }
  intros l1 E. apply leaf_bind_any. intro tb. apply leaf_bind_any. intro t2. cbv zeta. destruct (snd tb); [exact E|].
  eapply leaf_weaken; [|apply IH]. intros r K. cbv beta in K. now rewrite K.
Qed.
Lemma iterate_m g ev es mf slope mi ic tc nsqrt uspline xs quad mnp mnq ch cf vs wo isx rank t l :
  leaf (fun r => map xmkey (snd (fst r)) = map xmkey l)
    (iterate g ev es mf slope mi ic tc nsqrt uspline xs quad mnp mnq ch cf vs wo isx rank t l).
Proof.
  unfold iterate. apply (leaf_bind (fun l0 => map xmkey l0 = map xmkey l)).
  { apply leaf_res. intros l0 E. refine (rseq_map _ xmkey l _ l0 E). intro sx. apply init_one_m. }
  intros l0 E0. eapply leaf_bind; [apply iterations_m|]. intros [[t1 l1] log] E1. cbn [fst snd] in E1.
  apply (leaf_bind (fun l2 => map xmkey l2 = map xmkey l)).
  { apply leaf_res. intros l2 E. rewrite <- E0, <- E1. unfold normalize_flux in E. destruct (g_norm g); [|now injection E as <-].
    refine (rseq_map _ xmkey l1 _ l2 E). intro sx. unfold on_valid. destruct (s_valid _); [|reflexivity].
    eapply okall_rmap2; [apply scale_m|]. intros s K. exact K. }
  intros l2 E2. apply (leaf_bind (fun l3 => map xmkey l3 = map xmkey l)).
  { apply leaf_res. intros l3 E. rewrite <- E2. unfold eta_calibrate in E. destruct (g_etacal g); [|now injection E as <-].
    refine (rseq_map _ xmkey l2 _ l3 E). intro sx. eapply okall_rmap2; [apply eta_m|]. intros s K. exact K. }
  intros l3 E3. apply leaf_bind_any. intros _. apply leaf_bind_any. intro t2. apply leaf_bind_any. intros _. exact E3.
Qed.
Lemma add_noise_m ev sm dw vl t l l' : add_noise ev sm dw vl t l = Ok l' -> map mkey l' = map mkey l.
Proof.
  unfold add_noise. intro E. apply rbind_Ok in E as (l1 & E1 & E2). unfold noise_calibrate in E1. destruct (forallb _ l); [|discriminate].
  rewrite <- (rseq_map _ mkey l (fun s => additive_m _ _ s) l1 E1). refine (rseq_map _ mkey l1 _ l' E2).
  intro s. rewrite <- (smooth_m sm dw (s_sscale s) s). apply weight_m.
Qed.

Section Run.
Variable ang2pix : Z -> num -> num -> Z.
Variable dla_flux : Qc -> Qc -> Qc -> num.
Variable row_of : catrow -> row.
Variable logic : runargs -> bool.
Variable argsort : list Z -> list nat.
Variable hpix_of : spec -> Z.
Variable g : runargs -> config.
Variable ev : interp -> Qc -> num.
Variable ev_stack : stacker -> Qc -> num.
Variable slope : Qc -> num.
Variable minimizer : interp -> interp -> interp -> interp -> spec -> num -> option minres.
Variable input_cont : spec -> option (Qc -> num).
Variable true_cont : spec -> Qc -> num.
Variable nsqrt : num -> num.
Variable uspline : list Qc -> list num -> list num -> option (list num).
Variable xs : list Qc.
Variable quad : list Qc -> Qc.
Variable min_num_pix min_num_qso : nat.
Variable cholesky : list (list Qc) -> bool.
Variable curve_fit : list Qc -> list Qc -> list num -> errors -> option (list num * list num).
Variable vspline : list Qc -> list num -> list num -> option (list num).
Variable write_ok : string -> bool.
Variable iter_suffix : nat -> string.
Variable smooth : list num -> Qc -> list num.
Variable junk : nat -> num.
Variable dwave : Qc.
Variable w : world.
Variable n : nat.
Hypothesis Hn : 1 <= n.
Hypothesis sky : sky_alike w n.
Hypothesis Ha : argsort_ok argsort.

Notation the_run := (the_run ang2pix dla_flux row_of logic argsort hpix_of g ev ev_stack slope minimizer input_cont true_cont
  nsqrt uspline xs quad min_num_pix min_num_qso cholesky curve_fit vspline write_ok iter_suffix smooth junk dwave w n).
Notation iterate_on a mt := (iterate (g a) ev ev_stack (ev (fst mt)) slope (minimizer (fst mt)) input_cont true_cont nsqrt uspline xs quad
           min_num_pix min_num_qso cholesky curve_fit vspline write_ok iter_suffix).
Notation fitting a := (continuum_fitting (g a) ev ev_stack slope minimizer input_cont true_cont nsqrt uspline xs quad
           min_num_pix min_num_qso cholesky curve_fit vspline write_ok iter_suffix smooth junk dwave).
Notation select a := (select_spectra dla_flux ev nsqrt smooth junk dwave w false a (r_exposures a) (r_coadd a)).
Notation reading a := (read_queue nsqrt smooth junk dwave w false a (r_exposures a) (r_coadd a)).
Notation the_catalog a := (read_quasar_catalog ang2pix (the_file (w_catalog w)) (r_mock a) (r_tile a) (r_surveys a)
      (Fin (fst (z_limits (r_w1 a) (r_w2 a) (r_fw1 a) (r_fw2 a) (r_skip a))))
      (Fin (snd (z_limits (r_w1 a) (r_w2 a) (r_fw1 a) (r_fw2 a) (r_skip a))))).
Notation prep a := (prep smooth dwave a).
Notation shorten a := (shorten dwave a).

Lemma fit_stages_m a o (l : nat -> list specx) h : o_coadd_after o = false -> finishes n (fun r => fitting a r o (l r)) h ->
  exists mt it, finishes n (fun r => fitter_init (g a) r o) mt /\ finishes n (fun r => iterate_on a (mt r) r (snd (mt r)) (l r)) it /\
    forall r, r < n -> map mkey (snd (fst (h r))) = map mkey (filter s_valid (map fst (snd (fst (it r))))).
Proof.
  intros Hc H. unfold continuum_fitting in H. eapply bind_inv in H; [|exact Hn|apply fitter_init_together; exact Hn].
  destruct H as (mt & (mf & T & sh & _ & _ & Hf) & Hmt & H).
  eapply bind_inv in H; [|exact Hn|apply (iterate_together (g a) ev ev_stack (fun r => ev (fst (mt r))) slope (fun r => minimizer (fst (mt r)))
    input_cont true_cont nsqrt uspline xs quad min_num_pix min_num_qso cholesky curve_fit vspline write_ok iter_suffix n Hn
    (fun _ _ => True) ltac:(easy) ltac:(easy) (fun r => snd (mt r)) l T sh)].
  2: { intros r Hr. now destruct (Hf r Hr). }
  2: { intros r Hr. now apply Forall_forall. }
  destruct H as (it & _ & Hit & H). exists mt, it. split; [exact Hmt|]. split; [exact Hit|].
  refine (leaf_finishes n _ h (fun r x => map mkey (snd (fst x)) = map mkey (filter s_valid (map fst (snd (fst (it r)))))) _ H).
  intros r Hr. destruct (it r) as [[t l1] log]. cbn [fst snd]. set (v := filter s_valid (map fst l1)).
  apply (leaf_bind (fun v1 => map mkey v1 = map mkey v)).
  { destruct (o_additive o) as [file|]; [|reflexivity]. apply leaf_bind_any. intro vl. apply leaf_res. intros v1 E. exact (add_noise_m _ _ _ _ _ _ _ E). }
  intros v1 E1. apply (leaf_bind (fun v2 => map mkey v2 = map mkey v)).
  { rewrite Hc. exact E1. }
  intros v2 E2. apply leaf_bind_any. intros _. exact E2.
Qed.

Variable sq : Qc -> Qc.
Lemma filter_sub (P : spec -> bool) l s : In s (filter P l) -> In s l. Proof. intro H. now apply filter_In in H. Qed.
Lemma written_thm f a : square_root nsqrt sq -> finishes n the_run f -> w_parse w = Parsed a -> r_outdir a = true -> r_exposures a <> After ->
  r_coadd a = Disable -> (forall r b cat m s, w_reader w false r b cat = Some m -> In s m -> readable s) ->
  forall r s', r < n -> In s' (concat (map snd (f r))) -> exists queue all s s1 m,
    read_from w false r (is_before (r_exposures a)) queue all /\ In s all /\ same_object s s' /\
    set_forest_region nsqrt (r_w1 a) (r_w2 a) (r_fw1 a) (r_fw2 a) s = Ok s1 /\ meansnr_of sq s' s1 /\
    get_effective_meansnr s1 = Ok m /\ nleb (r_minsnr a) m = true.
Proof.
  intros root H Ea Ho He Hc Hread r s' Hr Hs.
  apply (stages ang2pix dla_flux row_of logic argsort hpix_of g ev ev_stack slope minimizer input_cont true_cont
    nsqrt uspline xs quad min_num_pix min_num_qso cholesky curve_fit vspline write_ok iter_suffix smooth junk dwave w n Hn sky) in H
    as (a1 & cat & q & ms & l & h & b & E1 & _ & _ & _ & L1 & F1 & S1).
  assert (a1 = a) as -> by congruence.
  assert (is_after (r_exposures a) = false) as He' by now destruct (r_exposures a). specialize (S1 He' r Hr). rewrite Ho in S1. cbn [negb] in S1.
  apply fit_stages_m in F1 as (mt & it & _ & Hit & Hv); [|cbn [fit_options o_coadd_after]; now rewrite Hc].
  assert (Permutation (concat (map snd (f r))) (filter s_valid (shorten a (snd (fst (h r)))))) as P.
  { destruct b.
    2: { destruct (save_unblinded_refuses hpix_of s_valid argsort Ha (shorten a (snd (fst (h r)))) (r_byhpx a) (Some (Z.of_nat r))) as (m & K'). congruence. }
    destruct (r_byhpx a).
    + destruct (save_by_hpx_spec hpix_of s_valid argsort Ha (shorten a (snd (fst (h r)))) (Some (Z.of_nat r))) as (fs & E2 & P & _). rewrite E2 in S1. injection S1 as <-. exact P.
    + rewrite save_by_rank_spec in S1. injection S1 as <-. cbn. now rewrite app_nil_r. }
  apply (Permutation_in _ P) in Hs. apply filter_sub in Hs. unfold ProofRanks6.shorten in Hs. apply in_map_iff in Hs as (s3 & E3 & H3).
  destruct (in_map_key mkey _ _ _ (Hv r Hr) H3) as (s4 & H4 & K4). apply filter_sub in H4.
  pose proof (leaf_finishes n _ it (fun r x => map xmkey (snd (fst x)) = map xmkey (prep a (l r))) (fun r _ => iterate_m _ _ _ _ _ _ _ _ _ _ _ _ _ _ _ _ _ _ _ r _ _) Hit r Hr) as K.
  cbv beta in K. apply in_map_iff in H4 as (x4 & <- & H4). destruct (in_map_key xmkey _ _ _ K H4) as (x5 & H5 & K5).
  assert (exists s6, In s6 (l r) /\ mkey (fst x5) = mkey s6) as (s6 & H6 & K6).
  { clear - H5. unfold ProofRanks6.prep in H5. apply in_map_iff in H5 as (s & <- & H5). cbn [fst]. destruct (qltb 0 (r_scale a)); [|now exists s].
    apply in_map_iff in H5 as (s0 & <- & H5). exists s0. split; [exact H5|apply smooth_m]. }
  assert (mkey s' = mkey s6) as Km by (rewrite <- E3, drop_m, K4; unfold xmkey in K5; now rewrite K5).
  destruct (raw_thm dla_flux ev nsqrt sq smooth junk dwave w n Hn root a ms q l L1 ltac:(rewrite Hc; discriminate) Hread r s6 Hr H6)
    as (all & s & s1 & m & A1 & A2 & A3 & A4 & A5 & A6 & A7 & _).
  assert (s_msnr s' = s_msnr s6 /\ skey s' = skey s6) as (Ks & Kk) by (unfold mkey in Km; split; congruence). unfold skey in Kk.
  exists (q r), all, s, s1, m. split; [exact A1|]. split; [exact A2|]. split; [destruct A3; split; congruence|]. split; [exact A4|].
  split; [unfold meansnr_of in *; now rewrite Ks|]. now split.
Qed.
End Run.
