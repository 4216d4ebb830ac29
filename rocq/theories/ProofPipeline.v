(** qsonic-fit as a whole: the ranks end together; what they write comes from their queues. *)
From Coq Require Import ZArith String List Bool Arith Lia Qcanon Permutation.
From Verif Require Import Num NpList Exn Dict Mpi ModelMpiUtils ModelSpectrum ModelMasks ModelBlinding
  ModelContinuum ModelStack ModelSubsample ModelVarFit ModelFitter ModelExposures ModelFitArgs ModelCatalog ModelFitQueue ModelIO
  ModelPipeline SpecMpi ProofMpi ProofMpi2 ProofLock ProofSafe ProofFitter ProofCat ProofGroup NpListFacts ProofCatalog.
Import ListNotations.
Local Open Scope nat_scope.

(** ** the local parts only raise unexpected exceptions *)
Lemma safe_related nsqrt s : safe (set_forest_related nsqrt s).
Proof. unfold set_forest_related, arm_mean_snr. safe. Qed.
#[global] Hint Resolve safe_related : safe.
Lemma safe_region nsqrt a b c d s : safe (set_forest_region nsqrt a b c d s).
Proof. unfold set_forest_region. safe. Qed.
#[global] Hint Resolve safe_region : safe.
Lemma safe_zero_pixels w fl iv : safe (zero_pixels w fl iv). Proof. unfold zero_pixels. safe. Qed.
#[global] Hint Resolve safe_zero_pixels : safe.
Lemma safe_mask p m s : safe (mask_apply p m s).
Proof.
  destruct m; cbn [mask_apply].
  - unfold skymask_apply. safe. apply safe_with_arm. safe.
  - unfold balmask_apply, bal_velocities. safe. apply safe_with_arm. safe.
  - unfold dlamask_apply. safe. apply safe_with_arm. unfold dla_arm. safe.
Qed.
#[global] Hint Resolve safe_mask : safe.
Lemma safe_masks p dw ms l : safe (apply_masks p dw ms l).
Proof. unfold apply_masks, apply_masks_one. safe. Qed.
#[global] Hint Resolve safe_masks safe_coadd_arms safe_noise_calibrate safe_flux_calibrate : safe.
Lemma safe_snr_cut m l : safe (snr_cut m l). Proof. unfold snr_cut, get_effective_meansnr. safe. Qed.
#[global] Hint Resolve safe_snr_cut : safe.
Lemma safe_slice_z arm i j s : safe (spec_slice_z arm i j s). Proof. unfold spec_slice_z. safe. Qed.
#[global] Hint Resolve safe_slice_z : safe.
Lemma safe_match dw cs l : safe (match_exposures dw cs l).
Proof. unfold match_exposures, match_exposure, match_arm. safe. Qed.
#[global] Hint Resolve safe_match : safe.
Lemma safe_lastnight q : safe (local_lastnight q).
Proof. unfold local_lastnight, zmax_list. safe. Qed.
#[global] Hint Resolve safe_lastnight : safe.

Lemma together_case {V A} n (b : bool) (p q : nat -> prog V A) Q :
  (b = true -> together n p Q) -> (b = false -> together n q Q) -> together n (fun r => if b then p r else q r) Q.
Proof. intros H1 H2. destruct b; [now apply H1|now apply H2]. Qed.
Lemma skipn_In {A} k (l : list A) x : In x (skipn k l) -> In x l.
Proof. revert l. induction k as [|k IH]; intros [|y l] H; try exact H. right. now apply IH. Qed.
Lemma firstn_In {A} k (l : list A) x : In x (firstn k l) -> In x l.
Proof. revert l. induction k as [|k IH]; intros [|y l] H; try (destruct H; fail). destruct H as [->|H]; [now left|]. right. now apply IH. Qed.
Lemma split_from_In {A} (l : list A) idxs : forall start q x, In q (split_from l start idxs) -> In x q -> In x l.
Proof.
  induction idxs as [|i idxs IH]; intros start q x Hq Hx; cbn in Hq; destruct Hq as [<-|Hq].
  - now apply skipn_In in Hx.
  - destruct Hq.
  - unfold slice in Hx. now apply firstn_In, skipn_In in Hx.
  - exact (IH i q x Hq Hx).
Qed.
Lemma split_by_key_In {A} key (l : list A) q x : In q (split_by_key key l) -> In x q -> In x l.
Proof. apply split_from_In. Qed.

Section Pipeline.
Variable ang2pix : Z -> num -> num -> Z.
Variable dla_flux : Qc -> Qc -> Qc -> num.
Variable row_of : catrow -> row.
Variable logic : runargs -> bool.
Variable argsort : list Z -> list nat.
Variable hpix_of : spec -> Z.
Variable g : runargs -> config.
Variable ev : interp -> Qc -> num.
Variable ev_stack : stacker -> Qc -> num.
Variable slope : Qc -> num.
Variable minimizer : interp -> interp -> interp -> interp -> spec -> num -> option minres.
Variable input_cont : spec -> option (Qc -> num).
Variable true_cont : spec -> Qc -> num.
Variable nsqrt : num -> num.
Variable uspline : list Qc -> list num -> list num -> option (list num).
Variable xs : list Qc.
Variable quad : list Qc -> Qc.
Variables (min_num_pix min_num_qso : nat) (cholesky : list (list Qc) -> bool)
  (curve_fit : list Qc -> list Qc -> list num -> errors -> option (list num * list num))
  (vspline : list Qc -> list num -> list num -> option (list num)).
Variable write_ok : string -> bool.
Variable iter_suffix : nat -> string.
Variable smooth : arr -> Qc -> arr.
Variable junk : nat -> num.
Variable dwave : Qc.
Variable w : world.
Variable n : nat.
Hypothesis Hn : 1 <= n.

(** R: rows a rank may read; C: catalog rows of the spectra it then holds *)
Variable R : nat -> row -> Prop.
Variable C : nat -> catrow * num -> Prop.
Variable a : runargs.
Hypothesis reads : forall again r e cat l s, r < n -> Forall (R r) cat -> w_reader w again r e cat = Some l -> In s l ->
  nleb (r_minrsnr a) (s_rsnr s) = true -> C r (skey s).
Hypothesis rows : forall r c, r < n -> C r c -> R r (row_of (fst c)).

Lemma read_queue_cats again e c r queue : r < n -> Forall (Forall (R r)) queue ->
  okall (cats (C r)) (read_queue nsqrt smooth junk dwave w again a e c r queue).
Proof.
  intros Hr Hq. unfold read_queue. eapply okall_bind2.
  - apply (okall_rseq (Forall (R r)) (cats (C r)) _ queue); [|exact Hq]. intros cat Hc.
    unfold the_file. destruct (w_reader w again r (is_before e) cat) as [l|] eqn:E; [|exact I]. cbn [of_option rbind].
    apply okall_rmap2 with (Forall (fun s => nleb (r_minrsnr a) (s_rsnr s) = true -> C r (skey s))).
    + refine (okall_rseq _ _ _ l _ (proj2 (Forall_forall _ _) (fun s Hs => reads _ _ _ _ _ s Hr Hc E Hs))). intros s Hs. unfold cut_forest.
      eapply okall_rmap2; [apply region_cat|]. intros s' H. cbn beta in H. change (skey (remove_nonforest_pixels s')) with (skey s').
      change (s_rsnr (remove_nonforest_pixels s')) with (snd (skey s')). rewrite H. exact Hs.
    + intros m Hm. apply Forall_forall. intros s Hs. apply filter_In in Hs as [Hs K]. rewrite Forall_forall in Hm. apply Hm; [exact Hs|].
      now apply andb_true_iff in K as [_ K].
  - intros ll Hll. assert (cats (C r) (concat ll)) as H by now apply Forall_concat.
    destruct (is_before c); [|exact H]. apply cats_rseq; [|exact H]. intro. apply coadd_cat.
Qed.
Lemma safe_read_queue again e c r queue : safe (read_queue nsqrt smooth junk dwave w again a e c r queue).
Proof. unfold read_queue, cut_forest, the_file. safe. Qed.

Definition all_cats (f : nat -> list spec) : Prop := forall r, r < n -> cats (C r) (f r).
Lemma read_together again e c (queue : nat -> list (list row)) : (forall r, r < n -> Forall (Forall (R r)) (queue r)) ->
  together n (fun r => read_spectra nsqrt smooth junk dwave w again a e c r (queue r)) all_cats.
Proof.
  intro Hq. unfold read_spectra. apply (together_bind n _ _ all_cats); [exact Hn| |].
  - apply together_local; [exact Hn|intros; apply safe_read_queue|]. intros l Hl r Hr.
    exact (okall_use _ _ _ (read_queue_cats again e c r (queue r) Hr (Hq r Hr)) (Hl r Hr)).
  - intros l Hl. apply together_allreduce; [exact Hn|]. now apply together_ret.
Qed.

Lemma calibrate_together again (l : nat -> list spec) : all_cats l ->
  together n (fun r => calibrate ev w again a r (l r)) all_cats.
Proof.
  intro Hl. unfold calibrate. apply (together_bind n _ _ all_cats); [exact Hn| |].
  - apply together_case; [|intro; now apply together_ret]. intros _. eapply (together_bind n); [exact Hn| |].
    + apply together_lift; [reflexivity|]. apply fnc_bcast_together; [exact Hn|]. intros. apply safe_of_option.
    + intros i _. apply together_local; [exact Hn|intros; apply safe_noise_calibrate|]. intros l1 Hl1 r Hr.
      exact (okall_use _ _ _ (cats_noise (C r) _ _ _ (Hl r Hr)) (Hl1 r Hr)).
  - intros l1 Hl1. apply together_case; [|intro; now apply together_ret]. intros _. eapply (together_bind n); [exact Hn| |].
    + apply together_lift; [reflexivity|]. apply fnc_bcast_together; [exact Hn|]. intros. apply safe_of_option.
    + intros i _. apply together_local; [exact Hn|intros; safe|]. intros l2 Hl2 r Hr.
      exact (okall_use _ _ _ (cats_rseq (C r) _ _ (flux_cat _) (Hl1 r Hr)) (Hl2 r Hr)).
Qed.

Lemma snr_cut_cats (D : catrow * num -> Prop) m l : cats D l -> okall (cats D) (snr_cut m l).
Proof.
  intro Hl. unfold snr_cut. eapply okall_rmap2; [|intros ll Hll; apply Forall_concat; exact Hll].
  refine (okall_rseq _ (cats D) _ l _ Hl). intros s Hs. apply okall_rmap. intro x. destruct (nleb _ _); repeat constructor; exact Hs.
Qed.
Lemma select_together again e c maskers (queue : nat -> list (list row)) : (forall r, r < n -> Forall (Forall (R r)) (queue r)) ->
  together n (fun r => select_spectra dla_flux ev nsqrt smooth junk dwave w again a e c r (maskers r) (queue r)) all_cats.
Proof.
  intro Hq. unfold select_spectra. apply (together_bind n _ _ all_cats); [exact Hn|now apply read_together|].
  intros l Hl. apply (together_bind n _ _ all_cats); [exact Hn|now apply calibrate_together|].
  intros l1 Hl1. apply together_local; [exact Hn|intros; safe|]. intros l2 Hl2 r Hr. refine (okall_use _ _ _ _ (Hl2 r Hr)).
  eapply okall_bind2; [exact (cats_masks (C r) _ _ _ _ (Hl1 r Hr))|]. intros l3 Hl3. apply snr_cut_cats.
  unfold remove_short_spectra. destruct (qeqb _ _); [exact Hl3|]. now apply cats_filter.
Qed.

(** the sky mask is read by every rank on its own *)
Lemma masks_together (queue : nat -> list (list row)) :
  (r_sky a = true -> forall r, r < n -> w_sky w r = None <-> w_sky w 0 = None) ->
  together n (fun r => read_masks w a r (queue r)) (fun _ => True).
Proof.
  intro Hsky. unfold read_masks. apply (together_bind n _ _ (fun _ => True)); [exact Hn| |].
  - apply together_case; [|intro; now apply together_ret]. intro E. specialize (Hsky E).
    apply (together_bind n _ _ (fun _ => True)); [exact Hn| |intros; now apply together_ret].
    apply together_lift; [reflexivity|]. unfold mpi_fnc_bcast. cbn [negb orb Nat.eqb].
    destruct (w_sky w 0) as [m0|] eqn:E0.
    + set (h := fun r => match w_sky w r with Some m => m | None => [] end).
      apply together_ext with (fun r => Ret (h r)); [|now apply together_ret]. intros r Hr. unfold h.
      destruct (w_sky w r) eqn:Er; [reflexivity|]. apply (Hsky r Hr) in Er. discriminate.
    + eapply together_ext; [|apply together_raise; exact Hn]. intros r Hr. cbn beta.
      rewrite (proj2 (Hsky r Hr) eq_refl). reflexivity.
  - intros m1 _. apply (together_bind n _ _ (fun _ => True)); [exact Hn| |].
    + apply together_case; [|intro; now apply together_ret]. intros _.
      apply (together_bind n _ _ (fun _ => True)); [exact Hn| |intros; now apply together_ret].
      unfold bal_check. apply (together_bind n _ _ (fun _ => True)); [exact Hn| |].
      * apply together_local; [exact Hn|intros; safe|easy].
      * intros _ _. now apply together_same.
    + intros m2 _. apply (together_bind n _ _ (fun _ => True)); [exact Hn| |intros; now apply together_ret].
      apply together_case; [|intro; now apply together_ret]. intros _.
      apply (together_bind n _ _ (fun _ => True)); [exact Hn| |].
      * apply together_local; [exact Hn|intros; unfold local_ids; safe|easy].
      * intros ids _. apply (together_bind n _ _ (fun _ => True)); [exact Hn| |intros; now apply together_ret].
        apply together_lift; [reflexivity|]. eapply together_weaken; [|apply fnc_bcast_together; [exact Hn|intros; apply safe_of_option]]. easy.
Qed.


Lemma exposure_queue_rows (D : row -> Prop) l : Forall D l -> Forall (Forall D) (exposure_queue l).
Proof.
  intro H. apply Forall_forall. intros q Hq. apply Forall_forall. intros x Hx. rewrite Forall_forall in H. apply H.
  apply (Permutation_in _ (isort_perm (lexleb [HPXPIXEL; TARGETID]) l)).
  exact (split_by_key_In _ _ q x Hq Hx).
Qed.
Lemma match_exposures_cats (D : catrow * num -> Prop) dw cs l : cats D l -> okall (cats D) (match_exposures dw cs l).
Proof.
  intro Hl. unfold match_exposures. apply cats_rseq; [|exact Hl]. intro s. destruct (find _ _); [apply match_exposure_cat|exact I].
Qed.
Lemma exposures_together maskers (l : nat -> list spec) : all_cats l ->
  together n (fun r => exposures_after dla_flux row_of ev nsqrt smooth junk dwave w a r (maskers r) (l r)) all_cats.
Proof.
  intro Hl. unfold exposures_after. apply (together_bind n _ _ (fun _ => True)); [exact Hn| |].
  - apply together_local; [exact Hn|intros; safe|easy].
  - intros _ _. apply (together_bind n _ _ all_cats); [exact Hn| |].
    + apply select_together. intros r Hr. apply exposure_queue_rows. apply Forall_map. eapply Forall_impl; [|exact (Hl r Hr)].
      intros s Hs. exact (rows r (skey s) Hr Hs).
    + intros e He. apply together_local; [exact Hn|intros; safe|]. intros l2 Hl2 r Hr.
      exact (okall_use _ _ _ (match_exposures_cats (C r) _ _ _ (He r Hr)) (Hl2 r Hr)).
Qed.

Lemma fitting_together gg o (l : nat -> list specx) : (forall r, r < n -> catx (C r) (l r)) ->
  together n (fun r => continuum_fitting gg ev ev_stack slope minimizer input_cont true_cont nsqrt uspline xs quad
      min_num_pix min_num_qso cholesky curve_fit vspline write_ok iter_suffix smooth junk dwave r o (l r))
    (fun f => forall r, r < n -> cats (C r) (snd (fst (f r)))).
Proof.
  intro Hl. eapply together_weaken; [|apply (continuum_fitting_outcome gg ev ev_stack slope minimizer input_cont true_cont nsqrt uspline xs quad
      min_num_pix min_num_qso cholesky curve_fit vspline write_ok iter_suffix smooth junk dwave (fun r s => r < n -> C r (skey s)))].
  - intros f (mf & T & T0 & T1 & T' & s & log & l1 & l3 & _ & _ & _ & _ & _ & _ & (_ & HP) & Hf) r Hr.
    destruct (Hf r Hr) as (_ & _ & HFin & (v1 & HA & HC)).
    assert (catx (C r) (l1 r)) as H1. { eapply Forall_impl; [|exact (HP r Hr)]. intros sx K. now apply K. }
    assert (catx (C r) (l3 r)) as H3.
    { refine (okall_use _ _ _ _ HFin). eapply okall_bind2; [exact (catx_normalize (C r) _ _ _ _ H1)|]. intros l2 H2. now apply catx_eta. }
    assert (cats (C r) (valid_spectra (map fst (l3 r)))) as Hv. { apply cats_valid. apply Forall_map. exact H3. }
    assert (cats (C r) v1) as Hv1.
    { destruct (o_additive o) as [file|]; [|now rewrite HA]. destruct HA as (vl & _ & HA).
      exact (okall_use _ _ _ (cats_add_noise (C r) _ _ _ _ _ _ Hv) HA). }
    destruct (o_coadd_after o); [|now rewrite HC]. exact (okall_use _ _ _ (cats_coadd_after (C r) _ _ _ _ _ _ _ Hv1) HC).
  - intros r mf t sx sx' Hs E Hr. pose proof (okall_use _ _ _ (fit_one_cat _ _ _ _ _ _ _ _ _) E) as K. cbn beta in K. rewrite K. now apply Hs.
  - intros r sx sx' Hs E Hr. pose proof (okall_use _ _ _ (init_one_cat _ _ _) E) as K. cbn beta in K. rewrite K. now apply Hs.
  - exact Hn.
  - intros r Hr. eapply Forall_impl; [|exact (Hl r Hr)]. intros sx Hs _. exact Hs.
Qed.

Lemma blinding_together (queue : nat -> list (list row)) :
  together n (fun r => blinding_prog (r_mock a) (r_skip_resomat a) (r_fw1 a) [map (map LASTNIGHT) (queue r)] statics0 0)
    (fun f => exists st, forall r, r < n -> f r = st).
Proof.
  unfold blinding_prog. apply together_case; intros _.
  - apply together_same; [exact Hn|]. intros st _. now exists st.
  - apply (together_bind n _ _ (fun _ => True)); [exact Hn| |].
    + apply together_local; [exact Hn|intros; safe|easy].
    + intros m _. apply together_allreduce; [exact Hn|]. apply together_same; [exact Hn|]. intros st _. now exists st.
Qed.

(** everything after the queues are distributed *)
Definition after_queue (rank : nat) (queue : list (list row)) : prog pval (@saved spec) :=
  pbind (lift PNight pnight_of (blinding_prog (r_mock a) (r_skip_resomat a) (r_fw1 a) [map (map LASTNIGHT) queue] statics0 0)) (fun st =>
  pbind (read_masks w a rank queue) (fun maskers =>
  pbind (select_spectra dla_flux ev nsqrt smooth junk dwave w false a (r_exposures a) (r_coadd a) rank maskers queue) (fun l =>
  let l1 := if qltb 0 (r_scale a) then map (set_smooth_forestivar smooth dwave (r_scale a)) l else l in
  pbind (lift PFit pfit_of (continuum_fitting (g a) ev ev_stack slope minimizer input_cont true_cont nsqrt uspline xs quad
           min_num_pix min_num_qso cholesky curve_fit vspline write_ok iter_suffix smooth junk dwave rank (fit_options w a)
           (map (fun s => (s, [[n1; n0]; [n0; n1]])) l1))) (fun r =>
  let '(t, l2, log) := r in
  pbind (if is_after (r_exposures a) then exposures_after dla_flux row_of ev nsqrt smooth junk dwave w a rank maskers l2 else Ret l2) (fun l3 =>
  let l4 := map (drop_short_arms dwave (r_fw1 a) (r_fw2 a) (r_skip a)) l3 in
  pbind (of_res (save_deltas hpix_of s_valid argsort l4 (negb (r_outdir a)) (r_byhpx a) (Some (Z.of_nat rank))
                   (match st_blinding st with Some _ => true | None => false end))) (fun files =>
  of_res (if r_outdir a && negb (w_save w rank) then Err (OtherExn "OSError") else Ok files))))))).
(** the files of a rank hold spectra of its queue *)
Definition written (f : nat -> @saved spec) : Prop :=
  exists blinded, forall r, r < n -> exists l, cats (C r) l /\
    save_deltas hpix_of s_valid argsort l (negb (r_outdir a)) (r_byhpx a) (Some (Z.of_nat r)) blinded = Ok (f r).
Lemma after_queue_together (queue : nat -> list (list row)) : (forall r, r < n -> Forall (Forall (R r)) (queue r)) ->
  (r_sky a = true -> forall r, r < n -> w_sky w r = None <-> w_sky w 0 = None) ->
  together n (fun r => after_queue r (queue r)) written.
Proof.
  intros Hq Hsky. unfold after_queue. eapply (together_bind n); [exact Hn|apply together_lift; [reflexivity|apply blinding_together]|].
  intros st0 (st & Hst). apply (together_bind n _ _ (fun _ => True)); [exact Hn|now apply masks_together|].
  intros ms _. apply (together_bind n _ _ all_cats); [exact Hn|now apply select_together|].
  intros l Hl. cbn zeta.
  eapply (together_bind n); [exact Hn|apply together_lift; [reflexivity|]; apply fitting_together|].
  { intros r Hr. apply Forall_map. change (cats (C r) (if qltb 0 (r_scale a) then map (set_smooth_forestivar smooth dwave (r_scale a)) (l r) else l r)).
    destruct (qltb 0 (r_scale a)); [|now apply Hl]. apply cats_map; [|now apply Hl]. intro. apply smooth_cat. }
  intros h Hh.
  apply together_ext with (fun r =>
    pbind (if is_after (r_exposures a) then exposures_after dla_flux row_of ev nsqrt smooth junk dwave w a r (ms r) (snd (fst (h r))) else Ret (snd (fst (h r)))) (fun l3 =>
    let l4 := map (drop_short_arms dwave (r_fw1 a) (r_fw2 a) (r_skip a)) l3 in
    pbind (of_res (save_deltas hpix_of s_valid argsort l4 (negb (r_outdir a)) (r_byhpx a) (Some (Z.of_nat r))
                     (match st_blinding st with Some _ => true | None => false end))) (fun files =>
    of_res (if r_outdir a && negb (w_save w r) then Err (OtherExn "OSError") else Ok files)))).
  { intros r Hr. rewrite (Hst r Hr). now destruct (h r) as [[t l2] log]. }
  apply (together_bind n _ _ all_cats); [exact Hn| |].
  { apply together_case; [|intros _; now apply together_ret]. intros _. now apply exposures_together. }
  intros l3 Hl3. cbn zeta. set (l4 := fun r => map (drop_short_arms dwave (r_fw1 a) (r_fw2 a) (r_skip a)) (l3 r)).
  assert (all_cats l4) as Hl4. { intros r Hr. apply cats_map; [|now apply Hl3]. intro. apply drop_cat. }
  set (b := match st_blinding st with Some _ => true | None => false end).
  apply (together_bind n _ _ (fun f => forall r, r < n ->
    save_deltas hpix_of s_valid argsort (l4 r) (negb (r_outdir a)) (r_byhpx a) (Some (Z.of_nat r)) b = Ok (f r))); [exact Hn| |].
  - unfold save_deltas. destruct (negb (r_outdir a)); [now apply together_ret|].
    destruct b.
    + apply together_local; [exact Hn| |easy]. intros. cbn [negb]. cbv beta iota. safe.
    + apply (together_peq n _ (fun r => pbind (of_res (if r_byhpx a then
          rbind (of_option "IndexError" (take_idx (map hpix_of (l4 r)) (argsort (map hpix_of (l4 r))))) (fun _ =>
          rbind (of_option "IndexError" (take_idx (l4 r) (argsort (map hpix_of (l4 r))))) (fun _ => Ok tt)) else Ok tt))
          (fun _ => Raise (QsonicExn "Blinding is not set. Cannot save delta.")))).
      { intros r Hr. fold (l4 r). destruct (r_byhpx a); cbn [negb]; [|apply peq_refl].
        destruct (take_idx (map hpix_of (l4 r)) _); cbn [of_option rbind]; [|apply peq_refl].
        destruct (take_idx (l4 r) _); cbn [of_option rbind]; apply peq_refl. }
      apply (together_bind n _ _ (fun _ => True)); [exact Hn| |].
      * apply together_local; [exact Hn| |easy]. intros. safe.
      * intros _ _. now apply together_raise.
  - intros f Hf. apply together_local; [exact Hn|intros; safe|]. intros f' Hf'. exists b. intros r Hr. exists (l4 r).
    split; [now apply Hl4|]. rewrite (Hf r Hr). specialize (Hf' r Hr). destruct (_ && _); [discriminate|exact Hf'].
Qed.
End Pipeline.
