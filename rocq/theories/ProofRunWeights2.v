(** ... from the fit to the files (C73). *)
From Coq Require Import ZArith String List Bool Arith Lia Qcanon.
From Verif Require Import Num NpList NpListFacts Exn Dict Mpi ModelMpiUtils ModelSpectrum ModelBlinding ModelMasks ModelContinuum ModelStack ModelSubsample ModelVarFit ModelFitter ModelFitArgs ModelCatalog ModelIO ModelDelta ModelPipeline
  SpecMpi SpecFinal SpecSpectrum SpecMasks SpecCatalog SpecPipeline SpecSelect SpecPixels
  ProofMpi ProofMpi2 ProofLock ProofSafe ProofFitter ProofFinal ProofCatalog ProofCat ProofSpectrum1 ProofMasks3 ProofIO2 ProofPipeline ProofPipeline2 ProofAttributes ProofRanks ProofRanks4 ProofRanks6 ProofComplete
  ProofPixels1 ProofPixels2 ProofPixels3 ProofPixels4 ProofPixels6 ProofRunWeights.
Import ListNotations.
Local Open Scope nat_scope.

Section Run.
Variable ang2pix : Z -> num -> num -> Z.
Variable dla_flux : Qc -> Qc -> Qc -> num.
Variable row_of : catrow -> ModelCatalog.row.
Variable logic : runargs -> bool.
Variable argsort : list Z -> list nat.
Variable hpix_of : spec -> Z.
Variable g : runargs -> config.
Variable ev : interp -> Qc -> num.
Variable ev_stack : stacker -> Qc -> num.
Variable slope : Qc -> num.
Variable minimizer : interp -> interp -> interp -> interp -> spec -> num -> option minres.
Variable input_cont : spec -> option (Qc -> num).
Variable true_cont : spec -> Qc -> num.
Variable nsqrt : num -> num.
Variable uspline : list Qc -> list num -> list num -> option (list num).
Variable xs : list Qc.
Variable quad : list Qc -> Qc.
Variable min_num_pix min_num_qso : nat.
Variable cholesky : list (list Qc) -> bool.
Variable curve_fit : list Qc -> list Qc -> list num -> errors -> option (list num * list num).
Variable vspline : list Qc -> list num -> list num -> option (list num).
Variable write_ok : string -> bool.
Variable iter_suffix : nat -> string.
Variable smooth : list num -> Qc -> list num.
Variable junk : nat -> num.
Variable dwave : Qc.
Variable w : world.
Variable n : nat.
Hypothesis Hn : 1 <= n.
Hypothesis sky : sky_alike w n.
Hypothesis Ha : argsort_ok argsort.

Notation the_run := (the_run ang2pix dla_flux row_of logic argsort hpix_of g ev ev_stack slope minimizer input_cont true_cont
  nsqrt uspline xs quad min_num_pix min_num_qso cholesky curve_fit vspline write_ok iter_suffix smooth junk dwave w n).
Notation fitting a := (continuum_fitting (g a) ev ev_stack slope minimizer input_cont true_cont nsqrt uspline xs quad
           min_num_pix min_num_qso cholesky curve_fit vspline write_ok iter_suffix smooth junk dwave).
Variable a : runargs.
Hypothesis Hread : forall r b cat m s, w_reader w false r b cat = Some m -> In s m -> SpecSelect.fresh s /\ unread s.

Lemma flat_select rank ms queue :
  leaf (Forall flat) (select_spectra dla_flux ev nsqrt smooth junk dwave w false a (r_exposures a) (r_coadd a) rank ms queue).
Proof.
  unfold select_spectra, read_spectra. apply (leaf_bind (Forall flat)).
  - apply (leaf_bind (Forall flat)); [|intros l H x; exact H]. apply leaf_res. intros l E. refine (okall_use (Forall flat) _ _ _ E). unfold read_queue. eapply okall_bind2.
    + apply (okall_rseq (fun _ => True) (Forall flat)); [|apply Forall_forall; easy]. intros cat _.
      unfold the_file. destruct (w_reader w false rank _ cat) as [m|] eqn:Er; [|exact I]. cbn [of_option rbind].
      eapply okall_rmap2; [apply (okall_rseq (fun s => In s m) flat)|].
      * intros s Hs. destruct (cut_forest nsqrt a s) as [s1|] eqn:Es; [|exact I]. cbn [okall]. destruct (Hread _ _ _ _ _ Er Hs) as (F & U). exact (cut_flat nsqrt a s s1 F U Es).
      * now apply Forall_forall.
      * intros l1 Hl. apply Forall_forall. intros s Hs. apply filter_In in Hs as [Hs _]. rewrite Forall_forall in Hl. now apply Hl.
    + intros ll Hll. assert (Forall flat (concat ll)) as Hc by now apply Forall_concat.
      destruct (is_before (r_coadd a)); [|exact Hc]. refine (okall_rseq flat flat _ _ _ Hc). intros s Hs. now apply coadd_flat.
  - intros l Hl. apply (leaf_bind (Forall flat)).
    + unfold calibrate. apply (leaf_bind (Forall flat)).
      * destruct (r_noise a); [|exact Hl]. apply leaf_bind_any. intro i. apply leaf_res. intros l1 E.
        refine (okall_use _ _ _ (okall_rseq flat flat _ _ _ Hl) E). intros s Hs. exact (flat_keeps s _ (eta_f _ s) Hs).
      * intros l1 H1. destruct (r_flux a); [|exact H1]. apply leaf_bind_any. intro i. apply leaf_res. intros l2 E.
        refine (okall_use _ _ _ (okall_rseq flat flat _ _ _ H1) E). intros s Hs. exact (flat_keeps s _ (flux_f _ s) Hs).
    + intros l1 H1. apply leaf_res. intros l2 E. refine (okall_use (Forall flat) _ _ _ E). eapply okall_bind2.
      * unfold apply_masks. destruct ms as [|m ms]; [exact H1|]. refine (okall_rseq flat flat _ _ _ H1). intros s Hs. unfold apply_masks_one.
        eapply okall_rmap2; [apply (okall_for_each flat); [|exact Hs]|].
        { intros m1 s1 Hs1. exact (flat_keeps s1 _ (mask_f _ _ s1) Hs1). }
        intros s1 Hs1. now apply drop_flat.
      * intros l3 H3. now apply snr_cut_sub, short_sub.
Qed.

(** ** the scale of the smoothing during the fit *)
Definition unsmoothed (s : spec) : Prop := s_sscale s = 0%Qc.
Lemma unsmoothed_set_f f s : unsmoothed s -> unsmoothed (set_f f s). Proof. easy. Qed.
Lemma unsmoothed_weight x y s : unsmoothed s -> okall unsmoothed (set_forest_weight x y s).
Proof. intro H. destruct (set_forest_weight x y s) as [s'|] eqn:E; [|exact I]. apply set_forest_weight_kept in E as ((_ & _ & _ & K & _) & _). unfold unsmoothed in *. cbn. now rewrite K. Qed.
Lemma unsmoothed_fit rank o l : Forall (fun sx => unsmoothed (fst sx)) l -> leaf (fun r => Forall unsmoothed (snd (fst r))) (fitting a rank o l).
Proof.
  intro Hl. assert (forall s, unsmoothed s -> unsmoothed (set_smooth_forestivar smooth dwave (s_sscale s) s)) as Hsm.
  { intros s Hs. unfold set_smooth_forestivar. rewrite Hs. reflexivity. }
  apply (fitting_I unsmoothed).
  - intros s s' K Hs. unfold ckey in K. injection K as _ _ K. unfold unsmoothed. now rewrite K.
  - exact unsmoothed_weight.
  - exact Hsm.
  - intros _ e s Hs. unfold noise_eta. apply okall_rmap. intro f. now apply unsmoothed_set_f.
  - intros _ e v s Hs. unfold noise_additive. apply okall_rmap. intro f. now apply unsmoothed_set_f.
  - intros _ x y s Hs. unfold coadd_arms_forest. cbv zeta. do 5 (apply okall_bind; intro). destruct (coadd_finish _) as [cf ci]. do 2 (apply okall_bind; intro).
    eapply okall_bind2; [apply unsmoothed_weight|].
    + unfold set_smooth_forestivar. rewrite Hs. reflexivity.
    + intros s3 H3. apply okall_bind. intro d. exact H3.
  - exact Hl.
Qed.

(** the var_lss and eta in the weights, and what they are for a fiducial var_lss *)
Definition fiducial (vl eta : Qc -> num) : Prop :=
  r_varlss a = true -> r_noise a && r_additive a = false -> r_coadd a <> After ->
  exists i, w_varlss w = Some i /\ (forall x, vl x = ev i x) /\
    (forall x, eta x = match g_model (g a) with TrueCont => n1 | _ => ev (ones_like i) x end).
Lemma run_weights f : finishes n the_run f -> w_parse w = Parsed a -> r_exposures a <> After ->
  n_iterations (g a) <> 0 -> (r_scale a <= 0)%Qc ->
  r_noise a && r_additive a = true \/ r_coadd a = After \/ (g_norm (g a) = false /\ g_etacal (g a) = false) ->
  exists vl eta, fiducial vl eta /\ forall r s, r < n -> In s (concat (map snd (f r))) ->
    NoDup (dkeys (fw (s_f s))) /\ file_weights vl eta s /\ weights_explained vl eta s.
Proof.
  intros Hf Ea Hexp Hit Hsc HO.
  destruct (stages ang2pix dla_flux row_of logic argsort hpix_of g ev ev_stack slope minimizer input_cont true_cont
    nsqrt uspline xs quad min_num_pix min_num_qso cholesky curve_fit vspline write_ok iter_suffix smooth junk dwave w n Hn sky f Hf)
    as (a' & cat & q & ms & l & h & b & Ea' & _ & _ & _ & Hl & Hh & Hsave).
  assert (a' = a) as -> by congruence.
  assert (is_after (r_exposures a) = false) as He by (destruct (r_exposures a); try reflexivity; now contradiction Hexp).
  specialize (Hsave He).
  assert (forall r, r < n -> Forall flat (l r)) as Fl by exact (leaf_finishes n _ l (fun _ x => Forall flat x) (fun r _ => flat_select r (ms r) (q r)) Hl).
  assert (forall l0, prep smooth dwave a l0 = map (fun s => (s, [[n1; n0]; [n0; n1]])) l0) as Hprep.
  { intro l0. unfold prep. assert (qltb 0 (r_scale a) = false) as -> by (apply qltb_false; exact Hsc). reflexivity. }
  assert (forall r, r < n -> Forall (fun sx => plain_forest (fst sx)) (prep smooth dwave a (l r))) as HP.
  { intros r Hr. rewrite Hprep. apply Forall_map. cbn [fst]. refine (Forall_impl _ _ (Fl r Hr)). intros s (A & B & C & D). split; [exact A|]. split; [exact B|]. split; [now rewrite C|]. now intros _. }
  assert (forall r, r < n -> Forall unsmoothed (snd (fst (h r)))) as HU.
  { refine (leaf_finishes n _ h (fun _ x => Forall unsmoothed (snd (fst x))) _ Hh). intros r Hr. apply unsmoothed_fit. rewrite Hprep. apply Forall_map. cbn [fst].
    refine (Forall_impl _ _ (Fl r Hr)). now intros s (_ & _ & _ & D). }
  destruct (final_weights (g a) ev ev_stack slope minimizer input_cont true_cont nsqrt uspline xs quad min_num_pix min_num_qso cholesky curve_fit vspline
    write_ok iter_suffix smooth junk dwave n _ _ h Hn Hit HP Hh) as (T & T0 & T1 & T' & (S1 & S2) & R0 & R1 & V01 & _ & H).
  set (o := fit_options w a) in *.
  assert (o_additive o = if r_noise a && r_additive a then Some (w_additive w) else None) as Oa by reflexivity.
  assert (o_coadd_after o = is_after (r_coadd a)) as Oc by reflexivity.
  assert (o_varlss o = if r_varlss a then Some (w_varlss w) else None) as Ov by reflexivity.
  assert (exists vl eta, fiducial vl eta /\ forall r s, r < n -> In s (snd (fst (h r))) -> NoDup (dkeys (fw (s_f s))) /\ file_weights vl eta s /\ weights_explained vl eta s) as (vl & eta & Fid & K).
  { assert ((o_additive o <> None \/ o_coadd_after o = true) \/ (o_additive o = None /\ o_coadd_after o = false /\ g_norm (g a) = false /\ g_etacal (g a) = false)) as [HO1|(A1 & A2 & A3 & A4)].
    { rewrite Oa, Oc. destruct (r_noise a && r_additive a) eqn:En; [left; left; discriminate|]. destruct (r_coadd a) eqn:Er; cbn [is_after]; try (left; now right);
        (right; destruct HO as [C|[C|[? ?]]]; [congruence|congruence|easy]). }
    - exists (ev (ModelFitter.deref T' (t_var T'))), (ev (ModelFitter.deref T' (t_eta T'))). split.
      { intros _ B1 B2. exfalso. rewrite Oa, Oc, B1 in HO1. destruct HO1 as [C|C]; [now contradiction C|]. destruct (r_coadd a); try discriminate. now apply B2. }
      intros r s Hr Hs. destruct (H r Hr) as [_ K]. pose proof (HU r Hr) as U. rewrite Forall_forall in U. specialize (U s Hs).
      assert (s_sscale s <= 0)%Qc as Z by (rewrite U; apply Qcle_refl).
      destruct (K s Hs) as [(B1 & B2 & _)|(_ & (_ & P) & W)]; [destruct HO1; congruence|]. split; [apply P|]. split; [now apply weighted_file|now apply weighted_explained].
    - exists (ev (ModelFitter.deref T0 (t_mvar T0))), (eta_used (g a) ev T0). split.
      { intros B1 B2 B3. rewrite Ov, B1 in V01, S2. destruct (V01 ltac:(discriminate)) as [V0 V1]. destruct S2 as (i & Ei & Hh0). exists i. split; [congruence|].
        destruct S1 as (S11 & S12 & S13 & S14). destruct R0 as (_ & _ & R03 & R04). unfold eta_used.
        rewrite !(same_var_deref T T0 _ V0), R03, R04, S13, S14. unfold ModelFitter.deref. rewrite Hh0. split; [reflexivity|]. intro x. now destruct (g_model (g a)). }
      intros r s Hr Hs. destruct (H r Hr) as [_ K]. pose proof (HU r Hr) as U. rewrite Forall_forall in U. specialize (U s Hs).
      assert (s_sscale s <= 0)%Qc as Z by (rewrite U; apply Qcle_refl).
      destruct (K s Hs) as [(_ & _ & s0 & P & _ & W & Es)|([C|C] & _)]; [|congruence|congruence].
      rewrite (Es A3 A4) in *. split; [apply P|]. split; [now apply weighted_file|now apply weighted_explained]. }
  exists vl, eta. split; [exact Fid|]. intros r s Hr Hin.
  apply (save_sub _ _ Ha _ _ _ _ _ _ _ (Hsave r Hr)) in Hin. unfold shorten in Hin. apply in_map_iff in Hin as (s0 & <- & Hs).
  apply drop_short_weights. exact (K r s0 Hr Hs).
Qed.
Lemma weights_thm f : finishes n the_run f -> w_parse w = Parsed a -> r_exposures a <> After ->
  n_iterations (g a) <> 0 -> (r_scale a <= 0)%Qc ->
  r_noise a && r_additive a = true \/ r_coadd a = After \/ (g_norm (g a) = false /\ g_etacal (g a) = false) ->
  exists vl eta, fiducial vl eta /\ forall mr rd st r s hdus h k x d i wt, r < n -> In s (concat (map snd (f r))) ->
    spec_write mr rd st s = Ok hdus -> In h hdus -> hdu_row h k x d (Fin i) wt -> (0 < i)%Qc ->
    (forall e v, eta x = Fin e -> vl x = Fin v -> (0 < e)%Qc -> (0 <= v)%Qc -> wt = Fin (/ (e * / i + v))%Qc) /\
    (forall q, wt = Fin q -> q <> 0%Qc -> exists e v, eta x = Fin e /\ vl x = Fin v /\ q = (/ (e * / i + v))%Qc).
Proof.
  intros Hf Ea Hexp Hit Hsc HO. destruct (run_weights f Hf Ea Hexp Hit Hsc HO) as (vl & eta & Fid & K). exists vl, eta. split; [exact Fid|].
  intros mr rd st r s hdus h k x d i wt Hr Hs Ew Hh. destruct (K r s Hr Hs) as (N & W1 & W2). exact (hdu_weights vl eta mr rd st s hdus h N W1 W2 Ew Hh k x d i wt).
Qed.
Lemma fiducial_thm f i : finishes n the_run f -> w_parse w = Parsed a -> r_exposures a <> After ->
  n_iterations (g a) <> 0 -> (r_scale a <= 0)%Qc -> g_norm (g a) = false -> g_etacal (g a) = false ->
  r_varlss a = true -> r_noise a && r_additive a = false -> r_coadd a <> After ->
  w_varlss w = Some i -> (forall x, ev (ones_like i) x = n1) ->
  forall mr rd st r s hdus h k x d iv wt, r < n -> In s (concat (map snd (f r))) ->
    spec_write mr rd st s = Ok hdus -> In h hdus -> hdu_row h k x d (Fin iv) wt -> (0 < iv)%Qc ->
    (forall v, ev i x = Fin v -> (0 <= v)%Qc -> wt = Fin (/ (/ iv + v))%Qc) /\
    (forall q, wt = Fin q -> q <> 0%Qc -> exists v, ev i x = Fin v /\ q = (/ (/ iv + v))%Qc).
Proof.
  intros Hf Ea Hexp Hit Hsc G1 G2 B1 B2 B3 Ew Ho mr rd st r s hdus h k x d iv wt Hr Hs E Hh Hrow Hi.
  destruct (weights_thm f Hf Ea Hexp Hit Hsc (or_intror (or_intror (conj G1 G2)))) as (vl & eta & Fid & K).
  destruct (Fid B1 B2 B3) as (i' & Ew' & Hvl & Heta). assert (i' = i) as -> by congruence.
  assert (eta x = Fin 1%Qc) as E1. { rewrite Heta. destruct (g_model (g a)); [apply Ho|apply Ho|reflexivity]. }
  destruct (K mr rd st r s hdus h k x d iv wt Hr Hs E Hh Hrow Hi) as (K1 & K2). split.
  - intros v Hv V. rewrite (K1 1%Qc v E1 (eq_trans (Hvl x) Hv) eq_refl V). now rewrite Qcmult_1_l.
  - intros q Eq Q. destruct (K2 q Eq Q) as (e & v & A1 & A2 & A3). exists v. split; [now rewrite <- Hvl|]. assert (e = 1%Qc) as -> by congruence. now rewrite A3, Qcmult_1_l.
Qed.
End Run.
