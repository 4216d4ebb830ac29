(** What becomes of the spectra of a run (C70). *)
From Coq Require Import ZArith String List Bool Arith Lia Qcanon Permutation.
From Verif Require Import Num NpList NpListFacts Exn Dict Mpi ModelMpiUtils ModelSpectrum ModelMasks ModelBlinding
  ModelContinuum ModelStack ModelSubsample ModelVarFit ModelFitter ModelExposures ModelFitArgs ModelCatalog ModelFitQueue ModelIO
  ModelPipeline SpecMpi SpecFinal SpecCatalog SpecPipeline SpecDrop SpecSelect SpecRanks SpecComplete ProofMpi ProofMpi2 ProofLock ProofSafe ProofFitter ProofFinal ProofCat ProofGroup
  ProofCatalog ProofBalance ProofIO2 ProofDistribution ProofPipeline ProofPipeline2 ProofDrop ProofMasks3 ProofSelect ProofRanks ProofRanks2 ProofRanks4 ProofRanks6 ProofAttributes.
Import ListNotations.
Local Open Scope nat_scope.

Lemma same_object_keys l l' : map skey l' = map skey l -> Forall2 same_object l l'.
Proof.
  revert l'. induction l as [|s l IH]; intros [|s' l'] E; try discriminate; [constructor|]. cbn [map] in E. injection E as E1 E2 E.
  constructor; [split; [exact E1|exact E2]|now apply IH].
Qed.
Lemma same_object_trans l l1 l2 : Forall2 same_object l l1 -> Forall2 same_object l1 l2 -> Forall2 same_object l l2.
Proof.
  intro H. revert l2. induction H as [|s s1 l l1 [A B] H IH]; intros l2 K; inversion K as [|? s2 ? l2' [C D] K']; subst; constructor; [split; congruence|now apply IH].
Qed.
Lemma rseq_map {A K} (f : A -> res A) (k : A -> K) (l : list A) : (forall s, okall (fun s' => k s' = k s) (f s)) -> forall l' : list A, rseq (map f l) = Ok l' -> map k l' = map k l.
Proof.
  intro H. induction l as [|s l IH]; intros l' E; cbn in E; [now injection E as <-|].
  specialize (H s). destruct (f s) as [s1|]; [|discriminate]. destruct (rseq (map f l)) as [l1|]; [|discriminate]. injection E as <-. cbn.
  f_equal; [exact H|now apply IH].
Qed.

(** identity and validity *)
Definition vkey (s : spec) : catrow * num * bool := (skey s, s_valid s).
Definition keepsv (s : spec) (r : res spec) : Prop := okall (fun s' => vkey s' = vkey s) r.
Lemma smooth_v sm dw x s : vkey (set_smooth_forestivar sm dw x s) = vkey s.
Proof. unfold set_smooth_forestivar. now destruct (qleb x 0). Qed.
Lemma weight_v a b s : keepsv s (set_forest_weight a b s).
Proof. unfold set_forest_weight. destruct (_ || _); [reflexivity|]. repeat (apply okall_bind; intro). reflexivity. Qed.
Lemma chi2_v s : keepsv s (calc_continuum_chi2 s).
Proof. unfold calc_continuum_chi2. destruct (_ || _); [reflexivity|]. repeat (apply okall_bind; intro). reflexivity. Qed.
Lemma coadd_v a b c d e f s : keepsv s (coadd_arms_forest a b c d e f s).
Proof.
  unfold coadd_arms_forest. do 5 (apply okall_bind; intro). destruct (coadd_finish _). do 2 (apply okall_bind; intro).
  eapply okall_bind2; [apply weight_v|]. intros s3 H. apply okall_bind. intro x. cbn [okall]. cbv beta in H. rewrite smooth_v in H. exact H.
Qed.
Lemma drop_v dw a b c s : vkey (drop_short_arms dw a b c s) = vkey s.
Proof.
  unfold drop_short_arms. match goal with |- context [fold_left _ ?l s] => generalize l end. intro l.
  revert s. induction l as [|x l IH]; intro s; [reflexivity|]. cbn. now rewrite IH.
Qed.
Lemma additive_v e v s : keepsv s (noise_additive e v s). Proof. apply okall_rmap. reflexivity. Qed.
Lemma add_noise_v ev sm dw vl t l l' : add_noise ev sm dw vl t l = Ok l' -> map vkey l' = map vkey l.
Proof.
  unfold add_noise. intro E. apply rbind_Ok in E as (l1 & E1 & E2). unfold noise_calibrate in E1. destruct (forallb _ l); [|discriminate].
  rewrite <- (rseq_map _ vkey l (fun s => additive_v _ _ s) l1 E1). refine (rseq_map _ vkey l1 _ l' E2).
  intro s. rewrite <- (smooth_v sm dw (s_sscale s) s). apply weight_v.
Qed.
Lemma coadd_after_v a b c d e f l l' : coadd_after a b c d e f l = Ok l' -> map vkey l' = map vkey l.
Proof.
  unfold coadd_after. apply (rseq_map). intro s. eapply okall_bind2; [apply coadd_v|]. intros s1 H. cbv beta in H. rewrite <- H. apply chi2_v.
Qed.
Lemma vkey_skey l l' : map vkey l' = map vkey l -> map skey l' = map skey l.
Proof. intro H. change skey with (fun s => fst (vkey s)). rewrite <- (map_map vkey fst l'), <- (map_map vkey fst l). now rewrite H. Qed.
Lemma vkey_valid l l' : map vkey l' = map vkey l -> map vkey (filter s_valid l') = map vkey (filter s_valid l).
Proof.
  revert l'. induction l as [|s l IH]; intros [|s' l'] E; try discriminate; [reflexivity|]. cbn [map] in E. injection E as E1 E2 E3 E.
  cbn [filter]. specialize (IH l' E). rewrite E3. destruct (s_valid s) eqn:V; [|exact IH]. cbn [map]. f_equal; [|exact IH]. unfold vkey, skey. now rewrite E1, E2, E3, V.
Qed.
Lemma filter_idem {A} (f : A -> bool) l : filter f (filter f l) = filter f l.
Proof. induction l as [|x l IH]; [reflexivity|]. cbn. destruct (f x) eqn:E; [cbn; now rewrite E, IH|exact IH]. Qed.

(** selection *)
Lemma snr_cut_filter m l l' : snr_cut m l = Ok l' -> sublist_of (fun s => exists x, get_effective_meansnr s = Ok x /\ nleb m x = true) l l'.
Proof.
  unfold snr_cut. intro E. apply rmap_Ok in E as (ll & E & ->). revert ll E. induction l as [|s l IH]; intros ll E; cbn in E; [injection E as <-; constructor|].
  destruct (get_effective_meansnr s) as [x|] eqn:G; cbn [rmap rbind] in E; [|discriminate].
  destruct (rseq _) as [l1|] eqn:R; [|discriminate]. injection E as <-. cbn [concat]. specialize (IH l1 eq_refl).
  destruct (nleb m x) eqn:N; cbn [app].
  - constructor; [|exact IH]. now exists x.
  - constructor; [|exact IH]. intros (y & E & M). congruence.
Qed.
Lemma sublist_filter {A} (keep : A -> bool) (P Q : A -> Prop) (l l' : list A) : (forall s, keep s = true <-> P s) ->
  sublist_of Q (filter keep l) l' -> sublist_of (fun s => P s /\ Q s) l l'.
Proof.
  intro K. revert l'. induction l as [|s l IH]; intros l' H; cbn [filter] in H; [inversion H; constructor|].
  destruct (keep s) eqn:E.
  - inversion H as [|? ? ? HQ H'|? ? ? HQ H']; subst.
    + constructor; [split; [now apply K|exact HQ]|now apply IH].
    + constructor; [now intros [_ C]|now apply IH].
  - constructor; [|now apply IH]. intros [C _]. apply K in C. congruence.
Qed.

(** fitting keeps the spectra *)
Definition xkey (sx : specx) : catrow * num := skey (fst sx).
Lemma iterations_keys g ev mf slope mi ic tc nsqrt uspline xs quad mnp mnq ch cf vs wo isx rank : forall m it t l log,
  leaf (fun r => map xkey (snd (fst r)) = map xkey l)
    (iterations g ev mf slope mi ic tc nsqrt uspline xs quad mnp mnq ch cf vs wo isx rank m it t l log).
Proof.
  induction m as [|m IH]; intros it t l log; cbn [iterations]; [reflexivity|].
  apply leaf_bind_any. intros _. apply (leaf_bind (fun l1 => map xkey l1 = map xkey l)).
  { unfold fit_continua. apply (leaf_bind (fun l1 => map xkey l1 = map xkey l)).
    - apply leaf_res. intros l1 E. refine (rseq_map _ xkey l _ l1 E). intro sx. apply fit_one_cat.
    - intros l1 E. intros x y. destruct (Nat.eqb _ 0); [exact I|exact E]. }
  intros l1 E. apply leaf_bind_any. intro tb. apply leaf_bind_any. intro t2. cbv zeta. destruct (snd tb); [exact E|].
  eapply leaf_weaken; [|apply IH]. intros r K. cbv beta in K. now rewrite K.
Qed.
Lemma iterate_keys g ev es mf slope mi ic tc nsqrt uspline xs quad mnp mnq ch cf vs wo isx rank t l :
  leaf (fun r => map xkey (snd (fst r)) = map xkey l)
    (iterate g ev es mf slope mi ic tc nsqrt uspline xs quad mnp mnq ch cf vs wo isx rank t l).
Proof.
  unfold iterate. apply (leaf_bind (fun l0 => map xkey l0 = map xkey l)).
  { apply leaf_res. intros l0 E. refine (rseq_map _ xkey l _ l0 E). intro sx. apply init_one_cat. }
  intros l0 E0. eapply leaf_bind; [apply iterations_keys|]. intros [[t1 l1] log] E1. cbn [fst snd] in E1.
  apply (leaf_bind (fun l2 => map xkey l2 = map xkey l)).
  { apply leaf_res. intros l2 E. rewrite <- E0, <- E1. unfold normalize_flux in E. destruct (g_norm g); [|now injection E as <-].
    refine (rseq_map _ xkey l1 _ l2 E). intro sx. unfold on_valid. destruct (s_valid _); [|reflexivity].
    eapply okall_rmap2; [apply scale_cat|]. intros s K. exact K. }
  intros l2 E2. apply (leaf_bind (fun l3 => map xkey l3 = map xkey l)).
  { apply leaf_res. intros l3 E. rewrite <- E2. unfold eta_calibrate in E. destruct (g_etacal g); [|now injection E as <-].
    refine (rseq_map _ xkey l2 _ l3 E). intro sx. eapply okall_rmap2; [apply eta_cat|]. intros s K. exact K. }
  intros l3 E3. apply leaf_bind_any. intros _. apply leaf_bind_any. intro t2. apply leaf_bind_any. intros _. exact E3.
Qed.

Section Run.
Variable ang2pix : Z -> num -> num -> Z.
Variable dla_flux : Qc -> Qc -> Qc -> num.
Variable row_of : catrow -> row.
Variable logic : runargs -> bool.
Variable argsort : list Z -> list nat.
Variable hpix_of : spec -> Z.
Variable g : runargs -> config.
Variable ev : interp -> Qc -> num.
Variable ev_stack : stacker -> Qc -> num.
Variable slope : Qc -> num.
Variable minimizer : interp -> interp -> interp -> interp -> spec -> num -> option minres.
Variable input_cont : spec -> option (Qc -> num).
Variable true_cont : spec -> Qc -> num.
Variable nsqrt : num -> num.
Variable uspline : list Qc -> list num -> list num -> option (list num).
Variable xs : list Qc.
Variable quad : list Qc -> Qc.
Variable min_num_pix min_num_qso : nat.
Variable cholesky : list (list Qc) -> bool.
Variable curve_fit : list Qc -> list Qc -> list num -> errors -> option (list num * list num).
Variable vspline : list Qc -> list num -> list num -> option (list num).
Variable write_ok : string -> bool.
Variable iter_suffix : nat -> string.
Variable smooth : list num -> Qc -> list num.
Variable junk : nat -> num.
Variable dwave : Qc.
Variable w : world.
Variable n : nat.
Hypothesis Hn : 1 <= n.
Hypothesis sky : sky_alike w n.
Hypothesis Ha : argsort_ok argsort.

Notation the_run := (the_run ang2pix dla_flux row_of logic argsort hpix_of g ev ev_stack slope minimizer input_cont true_cont
  nsqrt uspline xs quad min_num_pix min_num_qso cholesky curve_fit vspline write_ok iter_suffix smooth junk dwave w n).
Notation iterate_on a mt := (iterate (g a) ev ev_stack (ev (fst mt)) slope (minimizer (fst mt)) input_cont true_cont nsqrt uspline xs quad
           min_num_pix min_num_qso cholesky curve_fit vspline write_ok iter_suffix).
Notation fitting a := (continuum_fitting (g a) ev ev_stack slope minimizer input_cont true_cont nsqrt uspline xs quad
           min_num_pix min_num_qso cholesky curve_fit vspline write_ok iter_suffix smooth junk dwave).
Notation select a := (select_spectra dla_flux ev nsqrt smooth junk dwave w false a (r_exposures a) (r_coadd a)).
Notation reading a := (read_queue nsqrt smooth junk dwave w false a (r_exposures a) (r_coadd a)).
Notation the_catalog a := (read_quasar_catalog ang2pix (the_file (w_catalog w)) (r_mock a) (r_tile a) (r_surveys a)
      (Fin (fst (z_limits (r_w1 a) (r_w2 a) (r_fw1 a) (r_fw2 a) (r_skip a))))
      (Fin (snd (z_limits (r_w1 a) (r_w2 a) (r_fw1 a) (r_fw2 a) (r_skip a))))).
Notation prep a := (prep smooth dwave a).
Notation shorten a := (shorten dwave a).

Lemma stages f : finishes n the_run f ->
  exists a cat q ms l h b, w_parse w = Parsed a /\ the_catalog a = Ok cat /\
    (forall r, r < n -> nth_error (make_queues (r_tile a) n cat) r = Some (q r)) /\
    finishes n (fun r => read_masks w a r (q r)) ms /\ finishes n (fun r => select a r (ms r) (q r)) l /\
    finishes n (fun r => fitting a r (fit_options w a) (prep a (l r))) h /\
    (is_after (r_exposures a) = false -> forall r, r < n ->
       save_deltas hpix_of s_valid argsort (shorten a (snd (fst (h r)))) (negb (r_outdir a)) (r_byhpx a) (Some (Z.of_nat r)) b = Ok (f r)).
Proof.
  intros H. unfold ProofPipeline2.the_run, run_all in H.
  apply (bind_inv n _ (fun y => exists a, parse_result w = Ok a /\ logic a = true /\ forall r, r < n -> y r = a)) in H as (a0 & (a & Ea & _ & Ha0) & _ & H); [|exact Hn|].
  2: { apply together_lift; [reflexivity|]. apply parse_together; [exact Hn|]. intro m. unfold parse_result. destruct (w_parse w); discriminate. }
  unfold parse_result in Ea. destruct (w_parse w) as [a'| |] eqn:Ew; try discriminate. injection Ea as ->.
  eapply finishes_ext in H. 2: { intros r Hr. rewrite (Ha0 r Hr). reflexivity. }
  apply finishes_res in H as (u & _ & H); [|exact Hn].
  destruct (z_limits (r_w1 a) (r_w2 a) (r_fw1 a) (r_fw2 a) (r_skip a)) as [zmin zmax] eqn:Ez.
  eapply bind_inv in H; [|exact Hn|apply together_lift; [reflexivity|]; apply queue_together; [exact Hn|]].
  2: { unfold the_file. destruct (w_catalog w); discriminate. }
  destruct H as (q & (cat & Ecat & Eq) & _ & H).
  eapply bind_inv in H; [|exact Hn|apply together_lift; [reflexivity|]; apply blinding_together; exact Hn].
  destruct H as (st0 & (st & Hst) & _ & H).
  eapply bind_inv in H; [|exact Hn|apply masks_together; [exact Hn|apply sky; exact Ew]].
  destruct H as (ms & _ & Hms & H).
  eapply bind_inv in H; [|exact Hn|].
  2: { apply (select_together dla_flux ev nsqrt smooth junk dwave w n Hn (fun _ _ => True) (fun _ _ => True)); try easy.
       intros r Hr. apply Forall_forall. intros c _. now apply Forall_forall. }
  destruct H as (l & _ & Hl & H). cbv zeta in H.
  eapply bind_inv in H; [|exact Hn|].
  2: { apply together_lift; [reflexivity|].
       apply (fitting_together ev ev_stack slope minimizer input_cont true_cont nsqrt uspline xs quad min_num_pix min_num_qso cholesky curve_fit vspline
         write_ok iter_suffix smooth junk dwave n Hn (fun _ _ => True)). intros r Hr. apply Forall_forall. easy. }
  destruct H as (h & _ & Hh & H). unfold finishes in Hh. rewrite lift_spmd in Hh by reflexivity.
  exists a, cat, q, ms, l, h, (match st_blinding st with Some _ => true | None => false end). rewrite Ez. cbn [fst snd].
  split; [reflexivity|]. split; [exact Ecat|]. split; [exact Eq|]. split; [exact Hms|]. split; [exact Hl|]. split; [exact Hh|].
  intros HE. rewrite HE in H.
  assert (@finishes pval _ n (fun r => pbind (of_res (save_deltas hpix_of s_valid argsort (shorten a (snd (fst (h r)))) (negb (r_outdir a)) (r_byhpx a) (Some (Z.of_nat r))
      (match st_blinding st with Some _ => true | None => false end))) (fun files =>
      of_res (if r_outdir a && negb (w_save w r) then Err (OtherExn "OSError") else Ok files))) f) as H'.
  { refine (finishes_ext n _ _ f _ H). intros r Hr. rewrite (Hst r Hr). now destruct (h r) as [[t l2] log]. }
  apply finishes_res in H' as (fs & Hs & H'); [|exact Hn]. intros r Hr. rewrite (Hs r Hr). f_equal.
  refine (eq_sym (leaf_finishes n _ f (fun r x => x = fs r) _ H' r Hr)). intros r' _. destruct (_ && _); cbn; auto.
Qed.

Lemma fit_stages a o (l : nat -> list specx) h : finishes n (fun r => fitting a r o (l r)) h ->
  exists mt it, finishes n (fun r => fitter_init (g a) r o) mt /\ finishes n (fun r => iterate_on a (mt r) r (snd (mt r)) (l r)) it /\
    forall r, r < n -> map vkey (snd (fst (h r))) = map vkey (filter s_valid (map fst (snd (fst (it r))))).
Proof.
  intro H. unfold continuum_fitting in H. eapply bind_inv in H; [|exact Hn|apply fitter_init_together; exact Hn].
  destruct H as (mt & (mf & T & sh & _ & _ & Hf) & Hmt & H).
  eapply bind_inv in H; [|exact Hn|apply (iterate_together (g a) ev ev_stack (fun r => ev (fst (mt r))) slope (fun r => minimizer (fst (mt r)))
    input_cont true_cont nsqrt uspline xs quad min_num_pix min_num_qso cholesky curve_fit vspline write_ok iter_suffix n Hn
    (fun _ _ => True) ltac:(easy) ltac:(easy) (fun r => snd (mt r)) l T sh)].
  2: { intros r Hr. now destruct (Hf r Hr). }
  2: { intros r Hr. now apply Forall_forall. }
  destruct H as (it & _ & Hit & H). exists mt, it. split; [exact Hmt|]. split; [exact Hit|].
  refine (leaf_finishes n _ h (fun r x => map vkey (snd (fst x)) = map vkey (filter s_valid (map fst (snd (fst (it r)))))) _ H).
  intros r Hr. destruct (it r) as [[t l1] log]. cbn [fst snd]. set (v := filter s_valid (map fst l1)).
  apply (leaf_bind (fun v1 => map vkey v1 = map vkey v)).
  { destruct (o_additive o) as [file|]; [|reflexivity]. apply leaf_bind_any. intro vl. apply leaf_res. intros v1 E. exact (add_noise_v _ _ _ _ _ _ _ E). }
  intros v1 E1. apply (leaf_bind (fun v2 => map vkey v2 = map vkey v)).
  { destruct (o_coadd_after o); [|exact E1]. apply leaf_res. intros v2 E. rewrite <- E1. exact (coadd_after_v _ _ _ _ _ _ _ _ E). }
  intros v2 E2. apply leaf_bind_any. intros _. exact E2.
Qed.

Lemma select_stages a (ms : nat -> list masker) (q : nat -> list (list row)) l : finishes n (fun r => select a r (ms r) (q r)) l ->
  exists rd cal masked, finishes n (fun r => calibrate ev w false a r (rd r)) cal /\ forall r, r < n ->
    reading a r (q r) = Ok (rd r) /\ map skey (cal r) = map skey (rd r) /\
    apply_masks dla_flux dwave (ms r) (cal r) = Ok (masked r) /\ sublist_of (enough dwave a) (masked r) (l r).
Proof.
  intro H. unfold select_spectra in H. eapply bind_inv in H; [|exact Hn|].
  2: { apply (read_together nsqrt smooth junk dwave w n Hn (fun _ _ => True) (fun _ _ => True)); try easy.
       intros r Hr. apply Forall_forall. intros c _. now apply Forall_forall. }
  destruct H as (rd & _ & Hrd & H). eapply bind_inv in H; [|exact Hn|].
  2: { apply (calibrate_together ev w n Hn (fun _ _ => True)). intros r Hr. now apply Forall_forall. }
  destruct H as (cal & _ & Hcal & H).
  assert (@finishes pval _ n (fun r => pbind (of_res (apply_masks dla_flux dwave (ms r) (cal r))) (fun l2 =>
            of_res (snr_cut (r_minsnr a) (remove_short_spectra dwave (r_fw1 a) (r_fw2 a) (r_skip a) l2)))) l) as H'.
  { refine (finishes_ext n _ _ l _ H). intros r Hr. now destruct (apply_masks _ _ _ _). }
  apply finishes_res in H' as (masked & Em & H'); [|exact Hn].
  exists rd, cal, masked. split; [exact Hcal|]. intros r Hr. split; [|split; [|split; [exact (Em r Hr)|]]].
  - refine (leaf_finishes n _ rd (fun r x => reading a r (q r) = Ok x) _ Hrd r Hr). intros r' _.
    unfold read_spectra. apply (leaf_bind (fun x => reading a r' (q r') = Ok x)); [apply leaf_res; auto|]. intros x E y. exact E.
  - refine (leaf_finishes n _ cal (fun r x => map skey x = map skey (rd r)) _ Hcal r Hr). intros r' _.
    unfold calibrate. apply (leaf_bind (fun l1 => map skey l1 = map skey (rd r'))).
    + destruct (r_noise a); [|reflexivity]. apply leaf_bind_any. intro i. apply leaf_res. intros l1 E1. exact (rseq_map _ skey _ (fun s => eta_cat _ s) l1 E1).
    + intros l1 E1. destruct (r_flux a); [|exact E1]. apply leaf_bind_any. intro i. apply leaf_res. intros l2 E2. rewrite <- E1.
      exact (rseq_map _ skey l1 (fun s => flux_cat _ s) l2 E2).
  - refine (leaf_finishes n _ l (fun r x => sublist_of (enough dwave a) (masked r) x) _ H' r Hr). intros r' _. apply leaf_res. intros x E.
    apply snr_cut_filter in E. destruct (remove_short_filter dwave (r_fw1 a) (r_fw2 a) (r_skip a) (masked r')) as (keep & Ek & Hk). rewrite Ek in E.
    exact (sublist_filter keep _ _ _ x Hk E).
Qed.

Lemma queues_perm a cat q : the_catalog a = Ok cat -> (forall r, r < n -> nth_error (make_queues (r_tile a) n cat) r = Some (q r)) ->
  Permutation (gathered n (fun r => concat (q r))) cat.
Proof.
  intros Er Q. destruct (read_quasar_catalog_spec _ _ _ _ _ _ _ _ Er) as (c & _ & _ & _ & Hne & _ & Ss & _). apply sorted_by_group in Ss.
  unfold make_queues in Q. change (if r_tile a then TILEID else HPXPIXEL) with (group_key (r_tile a)) in Q.
  destruct (split_by_key_grouped (group_key (r_tile a)) cat Ss Hne) as (Ec & _). set (groups := split_by_key _ cat) in *.
  destruct (balance_load_permutation groups n Hn) as (N1 & B1).
  assert (gathered n (fun r => concat (q r)) = concat (gathered n q)) as ->.
  { unfold gathered. clear. induction (seq 0 n) as [|x l IH]; [reflexivity|]. cbn [map concat]. now rewrite concat_app, IH. }
  rewrite (gathered_nth n _ q N1 Q), <- Ec. now apply concat_perm.
Qed.

Lemma complete f a : finishes n the_run f -> w_parse w = Parsed a -> r_outdir a = true -> r_exposures a <> After ->
  (forall r b cat m s, w_reader w false r b cat = Some m -> In s m -> SpecSelect.fresh s) ->
  exists cat queue maskers all kept calibrated masked took start mt fit,
    the_catalog a = Ok cat /\ Permutation (gathered n (fun r => concat (queue r))) cat /\
    finishes n (fun r => read_masks w a r (queue r)) maskers /\ finishes n (fun r => calibrate ev w false a r (kept r)) calibrated /\
    finishes n (fun r => fitter_init (g a) r (fit_options w a)) mt /\
    finishes n (fun r => iterate_on a (mt r) r (snd (mt r)) (start r)) fit /\
    forall r, r < n ->
      read_from w false r (is_before (r_exposures a)) (queue r) (all r) /\
      Forall2 same_object (filter (SpecSelect.selected a) (all r)) (kept r) /\
      apply_masks dla_flux dwave (maskers r) (calibrated r) = Ok (masked r) /\ Forall2 same_object (kept r) (masked r) /\
      sublist_of (enough dwave a) (masked r) (took r) /\
      Forall2 (fun s sx => fst sx = if qltb 0 (r_scale a) then set_smooth_forestivar smooth dwave (r_scale a) s else s) (took r) (start r) /\
      Forall2 same_object (took r) (map fst (snd (fst (fit r)))) /\
      exists out, Permutation (concat (map snd (f r))) out /\
        Forall2 same_object (filter s_valid (map fst (snd (fst (fit r))))) out /\ Forall (fun s => s_valid s = true) out.
Proof.
  intros H Ea Ho He Hfresh. apply stages in H as (a1 & cat & q & ms & l & h & b & E1 & C1 & Q1 & M1 & L1 & F1 & S1).
  assert (a1 = a) as -> by congruence.
  assert (is_after (r_exposures a) = false) as He' by now destruct (r_exposures a). specialize (S1 He').
  apply fit_stages in F1 as (mt & it & Hmt & Hit & Hv).
  apply select_stages in L1 as (rd & cal & masked & Hcal & Hsel).
  assert (forall r, r < n -> exists all, read_from w false r (is_before (r_exposures a)) (q r) all /\ Forall2 same_object (filter (SpecSelect.selected a) all) (rd r)) as Hall.
  { intros r Hr. destruct (Hsel r Hr) as (E & _). destruct (selection_thm _ _ _ _ _ _ _ _ _ _ _ _ (Hfresh r) E) as (all & R & F & _). now exists all. }
  assert (exists all, forall r, r < n -> read_from w false r (is_before (r_exposures a)) (q r) (all r) /\ Forall2 same_object (filter (SpecSelect.selected a) (all r)) (rd r)) as (all & Hall').
  { clear - Hall. induction n as [|m IH]; [exists (fun _ => []); intros; lia|]. destruct IH as (all & A); [intros; apply Hall; lia|].
    destruct (Hall m ltac:(lia)) as (x & X). exists (fun r => if Nat.eqb r m then x else all r). intros r Hr.
    destruct (Nat.eqb_spec r m) as [->|N]; [exact X|]. apply A. lia. }
  exists cat, q, ms, all, rd, cal, masked, l, (fun r => prep a (l r)), mt, it.
  split; [exact C1|]. split; [now apply (queues_perm a)|]. split; [exact M1|]. split; [exact Hcal|]. split; [exact Hmt|]. split; [exact Hit|].
  intros r Hr. destruct (Hall' r Hr) as (A1 & A2). destruct (Hsel r Hr) as (E & Ec & Em & Es).
  assert (map skey (map fst (prep a (l r))) = map skey (l r)) as Kp.
  { unfold ProofRanks6.prep. rewrite map_map. cbn [fst]. destruct (qltb 0 (r_scale a)); rewrite !map_map; apply map_ext; intro s; [apply smooth_cat|reflexivity]. }
  split; [exact A1|]. split; [exact A2|]. split; [exact Em|]. split.
  { apply same_object_keys. rewrite <- Ec. unfold apply_masks in Em. destruct (ms r); [now injection Em as <-|].
    refine (rseq_map _ skey (cal r) _ (masked r) Em). intro s. apply masks_cat. }
  split; [exact Es|]. split.
  { unfold ProofRanks6.prep. destruct (qltb 0 (r_scale a)); clear; induction (l r); constructor; auto. }
  split.
  { apply same_object_keys. rewrite <- Kp.
    pose proof (leaf_finishes n _ it (fun r x => map xkey (snd (fst x)) = map xkey (prep a (l r))) (fun r _ => iterate_keys _ _ _ _ _ _ _ _ _ _ _ _ _ _ _ _ _ _ _ r _ _) Hit r Hr) as K.
    cbv beta in K. unfold xkey in K. now rewrite !map_map. }
  specialize (S1 r Hr). rewrite Ho in S1. cbn [negb] in S1.
  exists (filter s_valid (shorten a (snd (fst (h r))))).
  assert (map vkey (filter s_valid (shorten a (snd (fst (h r))))) = map vkey (filter s_valid (map fst (snd (fst (it r)))))) as K.
  { rewrite <- (filter_idem s_valid (map fst _)). rewrite <- (vkey_valid _ _ (Hv r Hr)). apply vkey_valid. unfold ProofRanks6.shorten. rewrite map_map. apply map_ext.
    intro s. apply drop_v. }
  split; [|split].
  - destruct b.
    2: { destruct (save_unblinded_refuses hpix_of s_valid argsort Ha (shorten a (snd (fst (h r)))) (r_byhpx a) (Some (Z.of_nat r))) as (m & K'). congruence. }
    destruct (r_byhpx a).
    + destruct (save_by_hpx_spec hpix_of s_valid argsort Ha (shorten a (snd (fst (h r)))) (Some (Z.of_nat r))) as (fs & E2 & P & _). rewrite E2 in S1. injection S1 as <-. exact P.
    + rewrite save_by_rank_spec in S1. injection S1 as <-. cbn. now rewrite app_nil_r.
  - apply same_object_keys. now apply vkey_skey.
  - apply Forall_forall. intros s Hs. now apply filter_In in Hs as [_ Hs].
Qed.
End Run.

From Verif Require Import SpecSpectrum SpecDrop ProofDrop.
Lemma one_arm_kept dwave a s arm iv :
  proper s -> fivar (s_f s) = [(arm, iv)] -> (0 <= r_skip a * forest_pixels s dwave (r_fw1 a) (r_fw2 a))%Qc ->
  enough dwave a s -> r_skip a <> 0%Qc -> arm_state (drop_short_arms dwave (r_fw1 a) (r_fw2 a) (r_skip a) s) arm = arm_state s arm.
Proof.
  intros P E Hn [[Hz|Hk] _] Hs; [contradiction|].
  destruct (drop_short_spec dwave (r_fw1 a) (r_fw2 a) (r_skip a) s P Hn arm) as (H1 & H2).
  destruct (dget arm (fw (s_f s))) eqn:Ew; [|now apply H1].
  destruct (H2 ltac:(discriminate)) as (H3 & _). apply H3. rewrite E in Hk. unfold arm_good_pixels. rewrite E.
  cbn [dget]. rewrite String.eqb_refl. cbn [dvals map snd qsum fold_right] in Hk. now rewrite Qcplus_0_r in Hk.
Qed.
