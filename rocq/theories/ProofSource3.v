(** ... in a whole run (C72). *)
From Coq Require Import ZArith String List Bool Arith Lia Qcanon.
From Verif Require Import Num NpList NpListFacts Exn Dict Mpi ModelMpiUtils ModelSpectrum ModelBlinding ModelMasks ModelContinuum ModelStack ModelSubsample ModelVarFit ModelFitter ModelFitArgs ModelCatalog ModelIO ModelDelta ModelPipeline
  SpecMpi SpecFinal SpecSpectrum SpecMasks SpecCatalog SpecPipeline SpecSelect SpecPixels SpecSource
  ProofMpi ProofMpi2 ProofLock ProofSafe ProofFitter ProofCatalog ProofCat ProofSpectrum1 ProofMasks ProofMasks2 ProofMasks3 ProofIO2 ProofPipeline ProofPipeline2 ProofAttributes ProofRanks ProofRanks4 ProofRanks5
  ProofPixels1 ProofPixels2 ProofPixels3 ProofPixels4 ProofPixels5 ProofPixels6 ProofSource1 ProofSource2.
Import ListNotations.
Local Open Scope nat_scope.

Section Read.
Variable row_of : catrow -> ModelCatalog.row.
Variable nsqrt : num -> num.
Variable smooth : list num -> Qc -> list num.
Variable junk : nat -> num.
Variable dwave : Qc.
Variable w : world.
Hypothesis Hids : forall c, TARGETID (row_of c) = c_targetid c.
Hypothesis Hreq : reads_requested row_of w.
Variable a : runargs.
Hypothesis Hread : forall r b cat m s, w_reader w false r b cat = Some m -> In s m -> SpecSelect.fresh s /\ unread s.
Notation asks ids K r := (fun s => ready s /\ In (c_targetid (s_cat s)) ids /\ comes w (fun s0 arm px => forest_pixels a s0 arm = Some px) K r s).
Lemma read_comes e rank queue :
  okall (Forall (asks (map TARGETID (concat queue)) (fun _ p q => q = p) rank)) (read_queue nsqrt smooth junk dwave w false a e Disable rank queue).
Proof.
  unfold read_queue. set (U := asks (map TARGETID (concat queue)) (fun _ p q => q = p) rank).
  apply okall_bind2 with (Forall (Forall U)).
  - apply (okall_rseq (fun cat => In cat queue) (Forall U)); [|now apply Forall_forall]. intros cat Hcat.
    unfold the_file. destruct (w_reader w false rank (is_before e) cat) as [m|] eqn:E; [|exact I]. cbn [of_option rbind].
    eapply okall_rmap2; [apply (okall_rseq (fun s => In s m) U)|].
    + intros s Hs. destruct (cut_forest nsqrt a s) as [s1|] eqn:Es; [|exact I]. cbn [okall]. destruct (Hread _ _ _ _ _ E Hs) as (F & (Z & V & Sc)).
      destruct (ready_cut nsqrt a s s1 F Z V Sc Es) as ((U1 & _) & C1). split; [exact U1|]. split; [|exact (cut_comes w a nsqrt rank _ cat m s s1 E Hs F Es)]. rewrite C1, <- Hids. apply in_map.
      apply in_concat. exists cat. split; [exact Hcat|]. exact (Hreq _ _ _ _ _ _ E Hs).
    + now apply Forall_forall.
    + intros l1 H1. apply Forall_forall. intros s Hs. apply filter_In in Hs as [Hs _]. rewrite Forall_forall in H1. now apply H1.
  - intros ll H. apply Forall_concat in H. exact H.
Qed.
End Read.

Section Run.
Variable profile : Qc -> Qc -> Qc -> Qc.
Variable ang2pix : Z -> num -> num -> Z.
Notation dla_flux := (fun x z h => Fin (profile x z h)).
Variable row_of : catrow -> ModelCatalog.row.
Variable logic : runargs -> bool.
Variable argsort : list Z -> list nat.
Variable hpix_of : spec -> Z.
Variable g : runargs -> config.
Variable ev : interp -> Qc -> num.
Variable ev_stack : stacker -> Qc -> num.
Variable slope : Qc -> num.
Variable minimizer : interp -> interp -> interp -> interp -> spec -> num -> option minres.
Variable input_cont : spec -> option (Qc -> num).
Variable true_cont : spec -> Qc -> num.
Variable nsqrt : num -> num.
Variable uspline : list Qc -> list num -> list num -> option (list num).
Variable xs : list Qc.
Variable quad : list Qc -> Qc.
Variable min_num_pix min_num_qso : nat.
Variable cholesky : list (list Qc) -> bool.
Variable curve_fit : list Qc -> list Qc -> list num -> errors -> option (list num * list num).
Variable vspline : list Qc -> list num -> list num -> option (list num).
Variable write_ok : string -> bool.
Variable iter_suffix : nat -> string.
Variable smooth : list num -> Qc -> list num.
Variable junk : nat -> num.
Variable dwave : Qc.
Variable w : world.
Variable n : nat.
Hypothesis Hn : 1 <= n.
Hypothesis sky : sky_alike w n.
Hypothesis Ha : argsort_ok argsort.

Notation the_run := (the_run ang2pix dla_flux row_of logic argsort hpix_of g ev ev_stack slope minimizer input_cont true_cont
  nsqrt uspline xs quad min_num_pix min_num_qso cholesky curve_fit vspline write_ok iter_suffix smooth junk dwave w n).


Variable a : runargs.
Variable src : spec -> string -> list pixel -> Prop.
Hypothesis Hcoadd : r_coadd a <> After.
Hypothesis Hexp : r_exposures a <> After.
Notation quiet := (g_etacal (g a) = false /\ r_noise a && r_additive a = false).
Notation sound r := (sound profile ev w a src quiet r).
Notation asks ids K r := (fun s => ready s /\ In (c_targetid (s_cat s)) ids /\ comes w src K r s).
Hypothesis Hread : forall e rank queue,
  okall (Forall (asks (map TARGETID (concat queue)) (fun _ p q => q = p) rank)) (read_queue nsqrt smooth junk dwave w false a e (r_coadd a) rank queue).

Definition Keta (_ : catrow) (p q : pixel) : Prop := p_flux q = p_flux p /\ p_ivar q = ivar1 w a ev (p_wave p) (p_ivar p).
Lemma calibrate_comes (ids : nat -> list Z) rd cal : (forall r, r < n -> Forall (asks (ids r) (fun _ p q => q = p) r) (rd r)) ->
  finishes n (fun r => calibrate ev w false a r (rd r)) cal -> forall r, r < n -> Forall (asks (ids r) (Kcal w a ev) r) (cal r).
Proof.
  intros Hl H. unfold calibrate in H.
  apply (bind_inv n _ (fun l1 => forall r, r < n -> Forall (asks (ids r) Keta r) (l1 r))) in H as (l1 & H1 & _ & H); [|exact Hn|].
  2: { apply together_case; intro E.
    - eapply (together_bind n); [exact Hn| |].
      + apply together_lift; [reflexivity|]. apply fnc_bcast_together; [exact Hn|]. intros. apply safe_of_option.
      + intros i (i0 & Ei & Hi). apply together_local; [exact Hn|intros; apply safe_noise_calibrate|]. intros l1 Hl1 r Hr.
        refine (okall_use (Forall (asks (ids r) Keta r)) _ _ _ (Hl1 r Hr)). unfold noise_calibrate. refine (okall_rseq _ _ _ _ _ (Hl r Hr)). intros s (S1 & S2 & S3).
        destruct (noise_eta _ s) as [s'|] eqn:Es; [|exact I]. cbn [okall]. destruct (eta_each _ s s' S1 Es) as (T1 & T2 & T3). split; [exact T1|]. split; [now rewrite T2|].
        refine (comes_each w src _ Keta _ r s s' T2 T3 _ S3). intros arm k p q q' Q1 Q2 (Q3 & Q4) ->. split; [exact Q3|]. rewrite Q4. unfold ivar1. rewrite E.
        rewrite (Hi r Hr). unfold the_file in Ei. destruct (w_noise w false 0); [|discriminate]. injection Ei as ->. reflexivity.
    - apply together_ret. intros r Hr. refine (Forall_impl _ _ (Hl r Hr)). intros s (S1 & S2 & S3). split; [exact S1|]. split; [exact S2|].
      refine (comes_weaken w src _ _ r s _ S3). intros c p q ->. split; [reflexivity|]. unfold ivar1. now rewrite E. }
  destruct (r_flux a) eqn:Ef.
  - eapply bind_inv in H; [|exact Hn|apply together_lift; [reflexivity|]; apply fnc_bcast_together; [exact Hn|]; intros; apply safe_of_option].
    destruct H as (i & (i0 & Ei & Hi) & _ & H).
    intros r Hr. refine (leaf_finishes n _ cal (fun r x => Forall (asks (ids r) (Kcal w a ev) r) x) _ H r Hr). clear r Hr. intros r Hr. apply leaf_res. intros l2 E2.
    refine (okall_use (Forall (asks (ids r) (Kcal w a ev) r)) _ _ _ E2). refine (okall_rseq _ _ _ _ _ (H1 r Hr)). intros s (S1 & S2 & S3).
    destruct (flux_calibrate1 _ s) as [s'|] eqn:Es; [|exact I]. cbn [okall]. destruct (flux_each _ s s' S1 Es) as (T1 & T2 & T3). split; [exact T1|]. split; [now rewrite T2|].
    refine (comes_each w src _ (Kcal w a ev) _ r s s' T2 T3 _ S3). intros arm k p q q' Q1 Q2 (Q3 & Q4) (Q5 & Q6). unfold Kcal, flux1, ivar2. rewrite Ef, Q3, Q4, Q5, Q6, Q1, (Hi r Hr).
    unfold the_file in Ei. destruct (w_flux w false 0); [|discriminate]. injection Ei as ->. split; reflexivity.
  - intros r Hr. refine (leaf_finishes n _ cal (fun r x => Forall (asks (ids r) (Kcal w a ev) r) x) _ H r Hr). clear r Hr. intros r Hr. cbn [leaf].
    refine (Forall_impl _ _ (H1 r Hr)). intros s (S1 & S2 & S3). split; [exact S1|]. split; [exact S2|].
    refine (comes_weaken w src _ _ r s _ S3). intros c p q (Q5 & Q6). unfold Kcal, flux1, ivar2. rewrite Ef. now split.
Qed.
Lemma masks_sound r ids l : Forall (asks ids (Kcal w a ev) r) l -> okall (Forall (sound r)) (apply_masks dla_flux dwave (masks_at w a r ids) l).
Proof.
  intro Hl. assert (forall s, asks ids (Kcal w a ev) r s -> okall (sound r) (for_each (masks_at w a r ids) (mask_apply dla_flux) s)) as K.
  { intros s (S1 & S2 & S3). pose proof (masks_comes w a src profile ev r ids s S1 S2 S3) as K. destruct (for_each _ _ s) as [s1|]; [|exact I]. cbn [okall] in *. destruct K as (K1 & K2).
    apply ready_sound; [exact K1|]. refine (comes_weaken w src _ _ r s1 _ K2). intros c p q Hk Hm. destruct (Hk Hm) as (F & G). split; [exact F|]. intros _. exact (G Logic.I). }
  unfold apply_masks. destruct (masks_at w a r ids) as [|mk mks] eqn:E.
  - cbn [okall]. refine (Forall_impl _ _ Hl). intros s Hs. exact (K s Hs).
  - refine (okall_rseq _ _ _ _ _ Hl). intros s Hs. specialize (K s Hs). unfold apply_masks_one.
    destruct (for_each (mk :: mks) (mask_apply dla_flux) s) as [s1|]; [|exact I]. cbn [rmap okall] in *. now apply sound_drop.
Qed.
Lemma rest_sound st rank ms l : Forall (sound rank) l ->
  leaf (fun fs => forall s, In s (concat (map snd fs)) -> sound rank s)
  (pbind (lift PFit pfit_of (continuum_fitting (g a) ev ev_stack slope minimizer input_cont true_cont nsqrt uspline xs quad
           min_num_pix min_num_qso cholesky curve_fit vspline write_ok iter_suffix smooth junk dwave rank (fit_options w a)
           (map (fun s => (s, [[n1; n0]; [n0; n1]])) (if qltb 0 (r_scale a) then map (set_smooth_forestivar smooth dwave (r_scale a)) l else l)))) (fun r =>
  let '(t, l2, log) := r in
  pbind (if is_after (r_exposures a) then exposures_after dla_flux row_of ev nsqrt smooth junk dwave w a rank ms l2 else Ret l2) (fun l3 =>
  pbind (of_res (save_deltas hpix_of s_valid argsort (map (drop_short_arms dwave (r_fw1 a) (r_fw2 a) (r_skip a)) l3) (negb (r_outdir a)) (r_byhpx a) (Some (Z.of_nat rank))
                   (match st_blinding st with Some _ => true | None => false end))) (fun files =>
  of_res (if r_outdir a && negb (w_save w rank) then Err (OtherExn "OSError") else Ok files))))).
Proof.
  intro Hl. assert (forall x s, sound rank s -> sound rank (set_smooth_forestivar smooth dwave x s)) as Hsm.
  { intros x s Hs. destruct (smooth_view smooth dwave x s (proj1 Hs)) as (V & L). exact (sound_view profile ev w a src quiet rank s _ V L Hs). }
  apply (leaf_bind (fun r => Forall (sound rank) (snd (fst r)))).
  { apply leaf_lift. apply (fitting_I (sound rank)).
    - intros s s' K Hs. unfold ckey in K. injection K as Kc Kf _. apply (sound_view profile ev w a src quiet rank s); [unfold view; now rewrite Kc, Kf| |exact Hs]. unfold live1. rewrite Kf. exact (proj1 Hs).
    - intros x y s Hs. pose proof (weight_view x y s (proj1 Hs)) as K. destruct (set_forest_weight x y s) as [s'|]; [|exact I]. destruct K as (V & L). exact (sound_view profile ev w a src quiet rank s _ V L Hs).
    - exact (fun s => Hsm (s_sscale s) s).
    - intros Eg e s Hs. pose proof (eta_alike e s (proj1 Hs)) as K. destruct (noise_eta e s) as [s'|]; [|exact I]. refine (sound_alike profile ev w a src quiet rank s s' _ K Hs). intros (Q & _). congruence.
    - intros Eo e v s Hs. pose proof (additive_alike e v s (proj1 Hs)) as K. destruct (noise_additive e v s) as [s'|]; [|exact I]. refine (sound_alike profile ev w a src quiet rank s s' _ K Hs). intros (_ & Q).
      unfold fit_options in Eo. cbn [o_additive] in Eo. rewrite Q in Eo. now apply Eo.
    - intro Eo. unfold fit_options in Eo. cbn [o_coadd_after] in Eo. destruct (r_coadd a); cbn in Eo; try discriminate. now contradiction Hcoadd.
    - apply Forall_map. unfold IX. cbn [fst]. destruct (qltb 0 (r_scale a)); [|exact Hl]. apply Forall_map. refine (Forall_impl _ _ Hl). intros s Hs. now apply Hsm. }
  intros [[t l2] log] Hl2. cbn [fst snd] in Hl2. apply (leaf_bind (Forall (sound rank))).
  { destruct (r_exposures a); cbn [is_after]; try exact Hl2. now contradiction Hexp. }
  intros l3 Hl3. apply (leaf_bind (fun fs => forall s, In s (concat (map snd fs)) -> sound rank s)).
  { apply leaf_res. intros fs E s Hs. apply (save_sub _ _ Ha _ _ _ _ _ _ _ E) in Hs. apply in_map_iff in Hs as (s0 & <- & Hs). apply sound_drop. rewrite Forall_forall in Hl3. now apply Hl3. }
  intros fs Hfs. apply leaf_res. intros fs' E. match type of E with (if ?b then _ else _) = _ => destruct b; [discriminate|] end. injection E as <-. exact Hfs.
Qed.

Lemma run_sound f r s : finishes n the_run f -> w_parse w = Parsed a -> r < n -> In s (concat (map snd (f r))) -> sound r s.
Proof.
  intros H Ea Hr.
  destruct (head _ _ _ _ _ _ _ _ _ _ _ _ _ _ _ _ _ _ _ _ _ _ _ _ _ _ _ w n Hn sky f H) as (a' & st & q & ms & Ea' & Hms & Ht).
  assert (a' = a) as -> by congruence. unfold the_tail in Ht.
  assert (forall r, r < n -> Forall (Forall (fun _ : ModelCatalog.row => True)) (q r)) as Hq by (intros; apply Forall_forall; intros; now apply Forall_forall).
  eapply bind_inv in Ht; [|exact Hn|apply (select_together dla_flux ev nsqrt smooth junk dwave w n Hn (fun _ _ => True) (fun _ _ => True)); [easy|exact Hq]].
  destruct Ht as (l & _ & Hsel & Ht).
  assert (forall r, r < n -> Forall (sound r) (l r)) as Hl.
  { unfold select_spectra in Hsel. eapply bind_inv in Hsel; [|exact Hn|].
    2: { apply (read_together nsqrt smooth junk dwave w n Hn (fun _ _ => True) (fun _ _ => True)); [easy|exact Hq]. }
    destruct Hsel as (rd & _ & Hrd & Hsel).
    assert (forall r, r < n -> Forall (asks (map TARGETID (concat (q r))) (fun _ p q => q = p) r) (rd r)) as H0.
    { refine (leaf_finishes n _ rd (fun r x => Forall (asks (map TARGETID (concat (q r))) (fun _ p q => q = p) r) x) _ Hrd). intros r' _.
      unfold read_spectra. apply (leaf_bind (Forall (asks (map TARGETID (concat (q r'))) (fun _ p q => q = p) r'))); [|intros x E y; exact E].
      apply leaf_res. intros x E. exact (okall_use _ _ _ (Hread _ r' (q r')) E). }
    eapply bind_inv in Hsel; [|exact Hn|].
    2: { apply (calibrate_together ev w n Hn (fun _ _ => True)). intros r' Hr'. now apply Forall_forall. }
    destruct Hsel as (cal & _ & Hcal & Hsel). pose proof (calibrate_comes _ rd cal H0 Hcal) as H1.
    refine (leaf_finishes n _ l (fun r x => Forall (sound r) x) _ Hsel). intros r' Hr'. apply leaf_res. intros l2 E.
    refine (okall_use (Forall (sound r')) _ _ _ E). rewrite (Hms r' Hr'). eapply okall_bind2; [apply masks_sound; exact (H1 r' Hr')|]. intros l3 H3. now apply snr_cut_sub, short_sub. }
  revert s. refine (leaf_finishes n _ f (fun r fs => forall s, In s (concat (map snd fs)) -> sound r s) _ Ht r Hr). intros r' Hr'. apply (rest_sound (st r') r' (ms r') (l r')), (Hl r' Hr').
Qed.
End Run.
