(** The pixels of the delta files of a run (C71). *)
From Coq Require Import ZArith String List Bool Arith Lia Qcanon Permutation.
From Verif Require Import Num NpList NpListFacts Exn Dict Mpi ModelMpiUtils ModelSpectrum ModelBlinding ModelMasks ModelContinuum ModelStack ModelSubsample ModelVarFit ModelFitter ModelFitArgs ModelCatalog ModelIO ModelDelta ModelPipeline
  SpecMpi SpecFinal SpecSpectrum SpecMasks SpecCatalog SpecPipeline SpecSelect SpecPixels
  ProofMpi ProofMpi2 ProofLock ProofSafe ProofCatalog ProofCat ProofMasks3 ProofIO2 ProofPipeline ProofPipeline2 ProofAttributes ProofRanks ProofRanks4 ProofRanks5 ProofPixels1 ProofPixels2 ProofPixels3 ProofPixels4 ProofPixels5 ProofPixels7.
Import ListNotations.
Local Open Scope nat_scope.

Lemma leaf_lift {W V A} (inj : W -> V) (prj : V -> W) (P : A -> Prop) (p : prog W A) : leaf P p -> leaf P (lift inj prj p).
Proof. induction p; cbn; auto. Qed.

(** masked pixels have no weight; each arm once; on one grid if the arms will be coadded *)
Definition MN (a : runargs) (dw : Qc) (D : catrow -> Qc -> Prop) (s : spec) : Prop :=
  M D s /\ NoDup (map fst (fw (s_f s))) /\ (r_coadd a = After -> gridded dw (fw (s_f s))).
Lemma MN_fw a dw D s s' : M D s' -> fw (s_f s') = fw (s_f s) -> MN a dw D s -> MN a dw D s'.
Proof. intros H E (_ & N & G). split; [exact H|]. rewrite E. now split. Qed.
Lemma MN_keeps a dw D s r : okall (M D) r -> wkeeps s r -> MN a dw D s -> okall (MN a dw D) r.
Proof. unfold wkeeps. destruct r as [s'|]; [|easy]. cbn. intros H K. apply MN_fw; [exact H|]. unfold wkey in K. now injection K as _ ->. Qed.
Lemma MN_drop a dw D dw' x y z s : MN a dw D s -> MN a dw D (drop_short_arms dw' x y z s).
Proof.
  intros (H & N & G). split; [now apply M_drop|]. clear H. revert N G.
  unfold drop_short_arms. match goal with |- context [fold_left _ ?l s] => generalize l end. intro l.
  revert s. induction l as [|arm l IH]; intros s N G; [now split|]. cbn [fold_left]. apply IH; cbn; unfold dpop.
  - now apply ProofCatalog.NoDup_map_filter.
  - intro E. now apply gridded_sub, G.
Qed.
Lemma ready_MN a dw D s : ready s -> (r_coadd a = After -> gridded dw (fw (s_f s))) -> M D s -> MN a dw D s.
Proof. intros ((_ & N & _) & _) G H. now split. Qed.

Section Select.
Variable profile : Qc -> Qc -> Qc -> Qc.
Notation pf := (fun x z h => Fin (profile x z h)).
Variable ev : interp -> Qc -> num.
Variable nsqrt : num -> num.
Variable smooth : list num -> Qc -> list num.
Variable junk : nat -> num.
Variable dwave : Qc.
Variable w : world.
Variable a : runargs.
Variable row_of : catrow -> ModelCatalog.row.
Hypothesis Hlen : forall iv sig, length (smooth iv sig) = length iv.
Hypothesis Hdw : (0 < dwave)%Qc.
Hypothesis Hids : forall c, TARGETID (row_of c) = c_targetid c.
Hypothesis Hreq : reads_requested row_of w.

Definition asked (ids : list Z) (s : spec) : Prop := ready s /\ In (c_targetid (s_cat s)) ids /\ (r_coadd a = After -> gridded dwave (fw (s_f s))).
Lemma asked_keeps ids s r : okall ready r -> wkeeps s r -> asked ids s -> okall (asked ids) r.
Proof. unfold wkeeps, asked. destruct r as [s'|]; [|easy]. cbn. intros H K (_ & Hi). split; [exact H|]. unfold wkey in K. injection K as -> ->. exact Hi. Qed.
Lemma asked_read again e c rank queue : (r_coadd a = After -> c = After) ->
  (forall b cat m s, w_reader w again rank b cat = Some m -> In s m -> SpecSelect.fresh s /\ unread s /\ (r_coadd a = After -> one_grid dwave s)) ->
  okall (Forall (asked (map TARGETID (concat queue)))) (read_queue nsqrt smooth junk dwave w again a e c rank queue).
Proof.
  intros Hc R. unfold read_queue.
  set (U := fun s => unfitted s /\ In (c_targetid (s_cat s)) (map TARGETID (concat queue)) /\ (r_coadd a = After -> gridded dwave (fw (s_f s)))).
  apply okall_bind2 with (Forall (Forall U)).
  - apply (okall_rseq (fun cat => In cat queue) (Forall U)); [|now apply Forall_forall]. intros cat Hcat.
    unfold the_file. destruct (w_reader w again rank (is_before e) cat) as [m|] eqn:E; [|exact I]. cbn [of_option rbind].
    eapply okall_rmap2; [apply (okall_rseq (fun s => In s m) U)|].
    + intros s Hs. destruct (cut_forest nsqrt a s) as [s1|] eqn:Es; [|exact I]. cbn [okall]. destruct (R _ _ _ _ E Hs) as (F & (Z & V & Sc) & Gr).
      destruct (ready_cut nsqrt a s s1 F Z V Sc Es) as (U1 & C1). split; [exact U1|]. split; [|intro Q; exact (cut_gridded nsqrt a dwave s s1 F (Gr Q) Es)]. rewrite C1, <- Hids. apply in_map.
      apply in_concat. exists cat. split; [exact Hcat|]. exact (Hreq _ _ _ _ _ _ E Hs).
    + now apply Forall_forall.
    + intros l1 H1. apply Forall_forall. intros s Hs. apply filter_In in Hs as [Hs _]. rewrite Forall_forall in H1. now apply H1.
  - intros ll H. apply Forall_concat in H. destruct (is_before c) eqn:Eb.
    + refine (okall_rseq U _ _ _ _ H). intros s (U1 & U2 & _). pose proof (unfitted_coadd nsqrt smooth junk dwave (fun _ => n0) (fun _ => n1) s Hlen Hdw U1) as K.
      destruct (coadd_arms_forest _ _ _ _ _ _ s) as [s'|]; [|exact I]. destruct K as (K1 & K2). split; [exact K1|]. split; [now rewrite K2|]. intro Q. rewrite (Hc Q) in Eb. discriminate.
    + cbn [okall]. refine (Forall_impl _ _ H). intros s ((U1 & _) & U2 & U3). split; [exact U1|]. now split.
Qed.
Lemma asked_calibrate ids again rank l : Forall (asked ids) l -> leaf (Forall (asked ids)) (calibrate ev w again a rank l).
Proof.
  intro Hl. unfold calibrate. apply (leaf_bind (Forall (asked ids))).
  - destruct (r_noise a); [|exact Hl]. apply leaf_bind_any. intro i. apply leaf_res. intros l1 E.
    refine (okall_use _ _ _ (okall_rseq (asked ids) (asked ids) _ _ _ Hl) E). intros s Hs. exact (asked_keeps ids s _ (ready_eta _ s (proj1 Hs)) (eta_w _ s) Hs).
  - intros l1 H1. destruct (r_flux a); [|exact H1]. apply leaf_bind_any. intro i. apply leaf_res. intros l2 E.
    refine (okall_use _ _ _ (okall_rseq (asked ids) (asked ids) _ _ _ H1) E). intros s Hs. exact (asked_keeps ids s _ (ready_flux _ s (proj1 Hs)) (flux_w _ s) Hs).
Qed.
Lemma masks_fw fl ms s : wkeeps s (for_each ms (mask_apply fl) s).
Proof.
  unfold wkeeps. apply (okall_for_each (fun s' => wkey s' = wkey s)); [|reflexivity]. intros m s1 H1. pose proof (mask_w fl m s1) as K. unfold wkeeps in K.
  destruct (mask_apply fl m s1); [|exact I]. cbn in *. congruence.
Qed.
Lemma masks_M r ids l : Forall (asked ids) l -> okall (Forall (MN a dwave (masked_in_run profile w a r))) (apply_masks pf dwave (masks_at w a r ids) l).
Proof.
  intro Hl. unfold apply_masks. pose proof (masks_at_M profile w a r ids) as K. destruct (masks_at w a r ids) as [|m ms] eqn:E.
  - cbn [okall]. refine (Forall_impl _ _ Hl). intros s (H1 & H2 & H3). specialize (K s H1 H2). cbn in K. now apply ready_MN.
  - refine (okall_rseq (asked ids) _ _ _ _ Hl). intros s (H1 & H2 & H3). unfold apply_masks_one. specialize (K s H1 H2).
    pose proof (masks_fw pf (m :: ms) s) as KF. unfold wkeeps in KF. destruct (for_each (m :: ms) (mask_apply pf) s) as [s1|]; [|exact I]. cbn [rmap okall] in *. destruct K as (K0 & K1).
    apply MN_drop, ready_MN; [exact K0| |exact K1]. unfold wkey in KF. injection KF as _ ->. exact H3.
Qed.
Lemma M_select again e c rank queue : (r_coadd a = After -> c = After) ->
  (forall b cat m s, w_reader w again rank b cat = Some m -> In s m -> SpecSelect.fresh s /\ unread s /\ (r_coadd a = After -> one_grid dwave s)) ->
  leaf (Forall (MN a dwave (masked_in_run profile w a rank)))
    (select_spectra pf ev nsqrt smooth junk dwave w again a e c rank (masks_at w a rank (map TARGETID (concat queue))) queue).
Proof.
  intros Hc R. unfold select_spectra, read_spectra. set (ids := map TARGETID (concat queue)). apply (leaf_bind (Forall (asked ids))).
  - apply (leaf_bind (Forall (asked ids))); [|intros l H x; exact H]. apply leaf_res. intros l E. exact (okall_use _ _ _ (asked_read again e c rank queue Hc R) E).
  - intros l H. apply (leaf_bind (Forall (asked ids))); [now apply asked_calibrate|]. intros l1 H1. apply leaf_res. intros l2 E.
    refine (okall_use (Forall (MN a dwave (masked_in_run profile w a rank))) _ _ _ E). eapply okall_bind2; [apply masks_M; exact H1|]. intros l3 H3. now apply snr_cut_sub, short_sub.
Qed.
End Select.

Section Run.
Variable ang2pix : Z -> num -> num -> Z.
Variable dla_flux : Qc -> Qc -> Qc -> num.
Variable row_of : catrow -> ModelCatalog.row.
Variable logic : runargs -> bool.
Variable argsort : list Z -> list nat.
Variable hpix_of : spec -> Z.
Variable g : runargs -> config.
Variable ev : interp -> Qc -> num.
Variable ev_stack : stacker -> Qc -> num.
Variable slope : Qc -> num.
Variable minimizer : interp -> interp -> interp -> interp -> spec -> num -> option minres.
Variable input_cont : spec -> option (Qc -> num).
Variable true_cont : spec -> Qc -> num.
Variable nsqrt : num -> num.
Variable uspline : list Qc -> list num -> list num -> option (list num).
Variable xs : list Qc.
Variable quad : list Qc -> Qc.
Variable min_num_pix min_num_qso : nat.
Variable cholesky : list (list Qc) -> bool.
Variable curve_fit : list Qc -> list Qc -> list num -> errors -> option (list num * list num).
Variable vspline : list Qc -> list num -> list num -> option (list num).
Variable write_ok : string -> bool.
Variable iter_suffix : nat -> string.
Variable smooth : list num -> Qc -> list num.
Variable junk : nat -> num.
Variable dwave : Qc.
Variable w : world.
Variable n : nat.
Hypothesis Hn : 1 <= n.
Hypothesis sky : sky_alike w n.
Hypothesis Ha : argsort_ok argsort.

Notation the_run := (the_run ang2pix dla_flux row_of logic argsort hpix_of g ev ev_stack slope minimizer input_cont true_cont
  nsqrt uspline xs quad min_num_pix min_num_qso cholesky curve_fit vspline write_ok iter_suffix smooth junk dwave w n).

Definition the_tail (a : runargs) (st : statics) (rank : nat) (queue : list (list ModelCatalog.row)) (maskers : list masker) : prog pval (@saved spec) :=
  pbind (select_spectra dla_flux ev nsqrt smooth junk dwave w false a (r_exposures a) (r_coadd a) rank maskers queue) (fun l =>
  pbind (lift PFit pfit_of (continuum_fitting (g a) ev ev_stack slope minimizer input_cont true_cont nsqrt uspline xs quad
           min_num_pix min_num_qso cholesky curve_fit vspline write_ok iter_suffix smooth junk dwave rank (fit_options w a)
           (map (fun s => (s, [[n1; n0]; [n0; n1]])) (if qltb 0 (r_scale a) then map (set_smooth_forestivar smooth dwave (r_scale a)) l else l)))) (fun r =>
  let '(t, l2, log) := r in
  pbind (if is_after (r_exposures a) then exposures_after dla_flux row_of ev nsqrt smooth junk dwave w a rank maskers l2 else Ret l2) (fun l3 =>
  pbind (of_res (save_deltas hpix_of s_valid argsort (map (drop_short_arms dwave (r_fw1 a) (r_fw2 a) (r_skip a)) l3) (negb (r_outdir a)) (r_byhpx a) (Some (Z.of_nat rank))
                   (match st_blinding st with Some _ => true | None => false end))) (fun files =>
  of_res (if r_outdir a && negb (w_save w rank) then Err (OtherExn "OSError") else Ok files))))).

Lemma head f : finishes n the_run f -> exists a st q ms, w_parse w = Parsed a /\
  (forall r, r < n -> ms r = masks_at w a r (map TARGETID (concat (q r)))) /\
  finishes n (fun r => the_tail a (st r) r (q r) (ms r)) f.
Proof.
  intros H. unfold ProofPipeline2.the_run, run_all in H.
  apply (bind_inv n _ (fun y => exists a, parse_result w = Ok a /\ logic a = true /\ forall r, r < n -> y r = a)) in H as (a0 & (a & Ea & _ & Ha0) & _ & H); [|exact Hn|].
  2: { apply together_lift; [reflexivity|]. apply parse_together; [exact Hn|]. intro m. unfold parse_result. destruct (w_parse w); discriminate. }
  unfold parse_result in Ea. destruct (w_parse w) as [a'| |] eqn:Ew; try discriminate. injection Ea as ->.
  eapply finishes_ext in H. 2: { intros r Hr. rewrite (Ha0 r Hr). reflexivity. }
  apply finishes_res in H as (u & _ & H); [|exact Hn].
  destruct (z_limits (r_w1 a) (r_w2 a) (r_fw1 a) (r_fw2 a) (r_skip a)) as [zmin zmax] eqn:Ez.
  eapply bind_inv in H; [|exact Hn|apply together_lift; [reflexivity|]; apply queue_together; [exact Hn|]].
  2: { unfold the_file. destruct (w_catalog w); discriminate. }
  destruct H as (q & _ & _ & H).
  eapply bind_inv in H; [|exact Hn|apply together_lift; [reflexivity|]; apply blinding_together; exact Hn].
  destruct H as (st & _ & _ & H).
  eapply bind_inv in H; [|exact Hn|apply masks_at_read; [exact Hn|intro Es; exact (sky a Ew Es)]].
  destruct H as (ms & Hms & _ & H).
  exists a, st, q, ms. split; [reflexivity|]. split; [exact Hms|exact H].
Qed.
Lemma save_sub l e h r b fs s : save_deltas hpix_of s_valid argsort l e h (Some r) b = Ok fs -> In s (concat (map snd fs)) -> In s l.
Proof.
  destruct e; [intro E; injection E as <-; intros []|]. destruct b.
  2: { destruct (save_unblinded_refuses hpix_of s_valid argsort Ha l h (Some r)) as (m & K). congruence. }
  intro E. assert (Permutation (concat (map snd fs)) (filter s_valid l)) as P.
  { destruct h.
    - destruct (save_by_hpx_spec hpix_of s_valid argsort Ha l (Some r)) as (fs' & E' & P & _). assert (fs' = fs) as -> by congruence. exact P.
    - rewrite save_by_rank_spec in E. injection E as <-. cbn. now rewrite app_nil_r. }
  intro Hs. apply (Permutation_in s P) in Hs. now apply filter_In in Hs.
Qed.

(** what holds for the selected spectra, is kept by all steps of the fit and by the
    exposures, holds for the spectra that are saved *)
Lemma tail_I (I : spec -> Prop) a st rank queue ms :
  (forall s s', ckey s' = ckey s -> I s -> I s') -> (forall x y s, I s -> okall I (set_forest_weight x y s)) ->
  (forall e s, I s -> okall I (noise_eta e s)) -> (forall e v s, I s -> okall I (noise_additive e v s)) ->
  (forall x s, I s -> I (set_smooth_forestivar smooth dwave x s)) ->
  (r_coadd a = After -> forall x y s, I s -> okall I (coadd_arms_forest nsqrt smooth junk dwave x y s)) ->
  (forall x y z s, I s -> I (drop_short_arms dwave x y z s)) ->
  leaf (Forall I) (select_spectra dla_flux ev nsqrt smooth junk dwave w false a (r_exposures a) (r_coadd a) rank ms queue) ->
  (r_exposures a = After -> forall l, leaf (Forall I) (exposures_after dla_flux row_of ev nsqrt smooth junk dwave w a rank ms l)) ->
  leaf (fun fs => forall s, In s (concat (map snd fs)) -> I s) (the_tail a st rank queue ms).
Proof.
  intros H1 H2 H3 H4 H5 H6 H7 Hsel Hexp. unfold the_tail. apply (leaf_bind (Forall I)); [exact Hsel|]. intros l Hl.
  apply (leaf_bind (fun r => Forall I (snd (fst r)))).
  { apply leaf_lift. apply (fitting_I I H1 H2 nsqrt smooth junk dwave (fun s => H5 (s_sscale s) s)); [intros _; exact H3|intros _; exact H4|..].
    - intro E. apply H6. unfold fit_options in E. cbn [o_coadd_after] in E. now destruct (r_coadd a).
    - apply Forall_map. unfold IX. cbn [fst]. destruct (qltb 0 (r_scale a)); [|exact Hl]. apply Forall_map. refine (Forall_impl _ _ Hl). intros s Hs. now apply H5. }
  intros [[t l2] log] Hl2. cbn [fst snd] in Hl2. apply (leaf_bind (Forall I)).
  { destruct (r_exposures a); cbn [is_after]; try exact Hl2. now apply Hexp. }
  intros l3 Hl3. apply (leaf_bind (fun fs => forall s, In s (concat (map snd fs)) -> I s)).
  { apply leaf_res. intros fs E s Hs. apply (save_sub _ _ _ _ _ _ _ E) in Hs. apply in_map_iff in Hs as (s0 & <- & Hs). apply H7. rewrite Forall_forall in Hl3. now apply Hl3. }
  intros fs Hfs. apply leaf_res. intros fs' E. destruct (_ && _); [discriminate|]. injection E as <-. exact Hfs.
Qed.

Lemma run_window f a r s : finishes n the_run f -> w_parse w = Parsed a ->
  (forall again r b cat m s, w_reader w again r b cat = Some m -> In s m -> SpecSelect.fresh s) ->
  r < n -> In s (concat (map snd (f r))) -> W a s.
Proof.
  intros H Ea R Hr. destruct (head f H) as (a' & st & q & ms & Ea' & _ & Ht). assert (a' = a) as -> by congruence. revert s.
  refine (leaf_finishes n _ f (fun _ fs => forall s, In s (concat (map snd fs)) -> W a s) _ Ht r Hr). clear r Hr. intros r Hr.
  apply tail_I.
  - intros s s' K Hs. apply (W_key a s); [|exact Hs]. unfold ckey in K. unfold wkey. now injection K as -> -> _.
  - intros x y s Hs. exact (W_keeps a s _ (weight_w x y s) Hs).
  - intros e s Hs. exact (W_keeps a s _ (eta_w e s) Hs).
  - intros e v s Hs. exact (W_keeps a s _ (additive_w e v s) Hs).
  - intros x s Hs. refine (W_key a s _ _ Hs). apply smooth_w.
  - intros _ x y s Hs. now apply W_coadd.
  - intros x y z s Hs. now apply W_drop.
  - apply W_select. intros. now eapply R; eauto.
  - intros _ l. apply W_exposures. intros. now eapply R; eauto.
Qed.
End Run.

Lemma run_masked profile ang2pix row_of logic argsort hpix_of g ev ev_stack slope minimizer input_cont true_cont
    nsqrt uspline xs quad min_num_pix min_num_qso cholesky curve_fit vspline write_ok iter_suffix smooth junk dwave w n f a r s :
  1 <= n -> sky_alike w n -> argsort_ok argsort ->
  (forall iv sig, length (smooth iv sig) = length iv) ->
  (forall iv sig k u v, nth_error iv k = Some u -> spent u -> nth_error (smooth iv sig) k = Some v -> spent v) ->
  (0 < dwave)%Qc -> (forall c, TARGETID (row_of c) = c_targetid c) -> reads_requested row_of w ->
  finishes n (the_run ang2pix (fun x z h => Fin (profile x z h)) row_of logic argsort hpix_of g ev ev_stack slope minimizer input_cont true_cont
      nsqrt uspline xs quad min_num_pix min_num_qso cholesky curve_fit vspline write_ok iter_suffix smooth junk dwave w n) f -> w_parse w = Parsed a ->
  r_exposures a <> After ->
  (forall r b cat m s, w_reader w false r b cat = Some m -> In s m -> SpecSelect.fresh s /\ unread s /\ (r_coadd a = After -> one_grid dwave s)) ->
  r < n -> In s (concat (map snd (f r))) -> MN a dwave (masked_in_run profile w a r) s.
Proof.
  intros Hn Sk Ha Hl Hs Hd Hi Hq H Ea He R Hr.
  destruct (head _ _ _ _ _ _ _ _ _ _ _ _ _ _ _ _ _ _ _ _ _ _ _ _ _ _ _ w n Hn Sk f H) as (a' & st & q & ms & Ea' & Hms & Ht).
  assert (a' = a) as -> by congruence. revert s.
  refine (leaf_finishes n _ f (fun r fs => forall s, In s (concat (map snd fs)) -> MN a dwave (masked_in_run profile w a r) s) _ Ht r Hr). clear r Hr. intros r Hr.
  apply tail_I; [exact Ha|..].
  - intros s s' K Hs1. apply (MN_fw a dwave _ s); [exact (M_set _ s s' K (proj1 Hs1))| |exact Hs1]. unfold ckey in K. now injection K as _ -> _.
  - intros x y s Hs1. exact (MN_keeps a dwave _ s _ (M_weight _ x y s (proj1 Hs1)) (weight_w x y s) Hs1).
  - intros e s Hs1. exact (MN_keeps a dwave _ s _ (M_eta _ e s (proj1 Hs1)) (eta_w e s) Hs1).
  - intros e v s Hs1. exact (MN_keeps a dwave _ s _ (M_additive _ e v s (proj1 Hs1)) (additive_w e v s) Hs1).
  - intros x s Hs1. apply (MN_fw a dwave _ s); [apply M_smooth; [exact Hs|exact Hl|exact (proj1 Hs1)]| |exact Hs1]. pose proof (smooth_w smooth dwave x s) as K. unfold wkey in K. now injection K as _ ->.
  - intros C x y s (Hs1 & Hs2 & Hs3). pose proof (MG_coadd (masked_in_run profile w a r) nsqrt smooth junk Hs Hl dwave Hd x y s (conj Hs1 (conj Hs2 (Hs3 C)))) as K.
    destruct (coadd_arms_forest nsqrt smooth junk dwave x y s); [|exact I]. destruct K as (K1 & K2 & K3). split; [exact K1|]. now split.
  - intros. now apply MN_drop.
  - rewrite (Hms r Hr). apply M_select with row_of; auto. intros b cat m s E Hin. exact (R _ _ _ _ _ E Hin).
  - intro C. contradiction.
Qed.

(** the HDUs of a written spectrum *)
Lemma for_each_In {X Y} (body : X -> list Y -> res (list Y)) (P : Y -> Prop) l acc out :
  (forall x acc out, In x l -> body x acc = Ok out -> (forall y, In y acc -> P y) -> forall y, In y out -> P y) ->
  for_each l body acc = Ok out -> (forall y, In y acc -> P y) -> forall y, In y out -> P y.
Proof.
  revert acc. induction l as [|x l IH]; intros acc H E Hacc; cbn in E; [now injection E as <-|].
  apply rbind_Ok in E as (acc' & E1 & E2). apply (IH acc'); [|exact E2|].
  - intros x' a1 o1 Hx. apply H. now right.
  - apply (H x acc acc'); [now left|exact E1|exact Hacc].
Qed.
Lemma zip2_at {A B C} (f : A -> B -> C) x y z k v : zip2 f x y = Ok z -> nth_error z k = Some v -> exists u t, nth_error x k = Some u /\ nth_error y k = Some t /\ v = f u t.
Proof. intros E H. pose proof (zip2_nth f x y k v) as K. rewrite E in K. exact (K H). Qed.
Definition from_pixel (s : spec) (k : nat) (x : Qc) (d i wt : num) : Prop :=
  exists arm wv iv w0 c, In (arm, wv) (fw (s_f s)) /\ nth_error wv k = Some x /\ at_pix (fivar (s_f s)) arm k = Some iv /\ at_pix (fweight (s_f s)) arm k = Some w0 /\
    i = nmul iv (nsq c) /\ wt = nmul w0 (nsq c) /\ (i = n0 -> d = n0).
Lemma snd_combine {A B} (l : list A) (m : list B) : length l = length m -> map snd (combine l m) = m.
Proof. revert m. induction l as [|x l IH]; intros [|y m] E; try discriminate; [reflexivity|]. cbn. now rewrite IH by (now injection E). Qed.
Lemma hdu_pixels mr rd st s hs h k x d i wt : spec_write mr rd st s = Ok hs -> In h hs -> hdu_row h k x d i wt ->
  from_pixel s k x d i wt.
Proof.
  intros E Hh Hp. unfold spec_write in E. apply rbind_Ok in E as (msnr & _ & E). revert h Hh Hp.
  refine (for_each_In _ (fun h => hdu_row h k x d i wt -> from_pixel s k x d i wt) _ _ _ _ E _); [|intros y []].
  intros [arm wv] acc out Hin Eb Hacc h Hh Hp. cbn [fst snd] in Eb. apply rbind_Ok in Eb as (snr & _ & Eb). destruct (neqb snr n0); [injection Eb as <-; now apply (Hacc h)|].
  apply rbind_Ok in Eb as (h0 & E0 & Eb). injection Eb as <-. apply in_app_or in Hh as [Hh|Hh]; [now apply (Hacc h)|].
  destruct Hh as [-> | []]. unfold write_arm in E0. cbv zeta in E0.
  apply rbind_Ok in E0 as (cont & _ & E0). apply rbind_Ok in E0 as (flux & _ & E0). apply rbind_Ok in E0 as (iv & Ei & E0). apply rbind_Ok in E0 as (w0 & Ew & E0).
  apply rbind_Ok in E0 as (d0 & _ & E0). apply rbind_Ok in E0 as (iv' & Zi & E0). apply rbind_Ok in E0 as (wt' & Zw & E0). apply rbind_Ok in E0 as (d' & Zd & E0).
  apply rbind_Ok in E0 as (cols & Ec & E0). apply rbind_Ok in E0 as (tb & Et & E0). injection E0 as <-.
  unfold fits_table in Et. destruct (Nat.eqb_spec (length (st_colnames st)) (length cols)) as [L|L]; [|discriminate]. injection Et as <-.
  destruct Hp as (ws & ds & ivs & wts & rest & Em & N1 & N2 & N3 & N4). cbn [h_cols] in Em. rewrite snd_combine in Em by exact L.
  assert (exists rest', cols = CWave wv :: CNum d' :: CNum iv' :: CNum wt' :: rest') as (rest' & ->).
  { destruct (dtrue _); [|injection Ec as <-; eexists; reflexivity]. apply rbind_Ok in Ec as (? & _ & Ec). apply rbind_Ok in Ec as (? & _ & Ec). injection Ec as <-. eexists; reflexivity. }
  injection Em as <- <- <- <- _.
  destruct (zip2_at _ _ _ _ _ _ Zi N3) as (iv0 & c & A1 & A2 & A3). destruct (zip2_at _ _ _ _ _ _ Zw N4) as (w00 & c' & B1 & B2 & B3).
  assert (c' = c) as -> by congruence. destruct (zip2_at _ _ _ _ _ _ Zd N2) as (i0 & d00 & C1 & C2 & C3). assert (i0 = i) as -> by congruence.
  exists arm, wv, iv0, w00, c. split; [exact Hin|]. split; [exact N1|].
  unfold rget in Ei, Ew. unfold at_pix. destruct (dget arm (fivar (s_f s))); [|discriminate]. destruct (dget arm (fweight (s_f s))); [|discriminate].
  injection Ei as ->. injection Ew as ->. repeat (split; [assumption|]). intro Z. rewrite C3, Z. reflexivity.
Qed.
Lemma window_hdu a mr rd st s hs h k x d i wt : W a s -> spec_write mr rd st s = Ok hs -> In h hs -> hdu_row h k x d i wt -> in_window a (s_cat s) x.
Proof.
  intros H E Hh Hp. destruct (hdu_pixels _ _ _ _ _ _ _ _ _ _ _ E Hh Hp) as (arm & wv & iv & w0 & c & Hin & N & _).
  unfold W in H. rewrite Forall_forall in H. specialize (H _ Hin). cbn [snd] in H. rewrite Forall_forall in H. apply H. now apply nth_error_In in N.
Qed.
Lemma masked_hdu D mr rd st s hs h k x d i wt : M D s -> NoDup (map fst (fw (s_f s))) -> spec_write mr rd st s = Ok hs -> In h hs -> hdu_row h k x d i wt -> D (s_cat s) x ->
  spent i /\ spent wt /\ (i = n0 -> d = n0).
Proof.
  intros (H1 & _ & H3) Nd E Hh Hp Dx. destruct (hdu_pixels _ _ _ _ _ _ _ _ _ _ _ E Hh Hp) as (arm & wv & iv & w0 & c & Hin & N & E1 & E2 & -> & -> & Hz).
  assert (at_pix (fw (s_f s)) arm k = Some x) as Ex by (unfold at_pix; rewrite (In_pair_dget _ _ _ Nd Hin); exact N).
  split; [apply spent_mul; exact (H1 arm k x iv Ex Dx E1)|]. split; [apply spent_mul; exact (H3 arm k x w0 Ex Dx E2)|exact Hz].
Qed.
Lemma masked_hdu2 a dw D mr rd st s hs h k x d i wt : MN a dw D s -> spec_write mr rd st s = Ok hs -> In h hs -> hdu_row h k x d i wt -> D (s_cat s) x ->
  spent i /\ spent wt /\ (i = n0 -> d = n0).
Proof. intros (H & N & _). now apply masked_hdu. Qed.
