(** The pixels of the delta files of a run whose exposures are read after the fit (C71). *)
From Coq Require Import ZArith String List Bool Arith Lia Qcanon Permutation.
From Verif Require Import Num NpList NpListFacts Exn Dict Mpi ModelMpiUtils ModelSpectrum ModelBlinding ModelMasks ModelContinuum ModelStack ModelSubsample ModelVarFit ModelFitter ModelFitArgs ModelFitQueue ModelCatalog ModelIO ModelDelta ModelExposures ModelPipeline
  SpecMpi SpecFinal SpecSpectrum SpecMasks SpecCatalog SpecPipeline SpecSelect SpecPixels
  ProofMpi ProofMpi2 ProofLock ProofSafe ProofCatalog ProofCat ProofMasks3 ProofIO2 ProofPipeline ProofPipeline2 ProofAttributes ProofRanks ProofRanks4 ProofRanks5 ProofPixels1 ProofPixels2 ProofPixels3 ProofPixels4 ProofPixels5 ProofPixels7 ProofPixels6 ProofPixels8.
Import ListNotations.
Local Open Scope nat_scope.

Definition WN (D : catrow -> Qc -> Prop) (s : spec) : Prop := (weak D s /\ NoDup (dkeys (fw (s_f s)))) /\ shared (s_f s).
Lemma shared_drop dw x y z s : shared (s_f s) -> shared (s_f (drop_short_arms dw x y z s)).
Proof.
  unfold drop_short_arms. match goal with |- context [fold_left _ ?l s] => generalize l end. intro l.
  revert s. induction l as [|arm l IH]; intros s H; [exact H|]. cbn [fold_left]. apply IH. exact H.
Qed.
Lemma slice_shared arm i j s : shared (s_f s) -> okall (fun s' => shared (s_f s')) (spec_slice_z arm i j s).
Proof.
  intro H. unfold spec_slice_z. cbv zeta. apply okall_bind. intro wv. destruct (_ && _); [exact H|]. do 4 (apply okall_bind; intro). cbn [okall].
  match goal with |- context [match dget arm (fr ?f) with _ => _ end] => destruct (dget arm (fr f)) end; destruct (dget arm (s_cont _)); exact H.
Qed.
Lemma match_shared dw c s : shared (s_f s) -> okall (fun s' => shared (s_f s')) (match_exposure dw c s).
Proof.
  intro H. unfold match_exposure. apply okall_for_each; [|exact H]. intros [arm wv] s1 H1. unfold match_arm.
  destruct (dget _ _); [|exact I]. do 4 (apply okall_bind; intro).
  destruct (if (_ <? 0)%Z then _ else _) as [i1 j1]. destruct (if (_ <? 0)%Z then _ else _) as [i2 j2].
  eapply okall_bind2; [apply slice_shared; exact H1|]. intros s2 H2. do 2 (apply okall_bind; intro). cbn [okall].
  destruct (_ =? _); exact H2.
Qed.
Definition WF (D : catrow -> Qc -> Prop) (s : spec) : Prop := WN D s /\ forall arm, arm_fits (s_f s) arm.

Section Select.
Variable profile : Qc -> Qc -> Qc -> Qc.
Notation pf := (fun x z h => Fin (profile x z h)).
Variable ev : interp -> Qc -> num.
Variable nsqrt : num -> num.
Variable smooth : list num -> Qc -> list num.
Variable junk : nat -> num.
Variable dwave : Qc.
Variable w : world.
Variable a : runargs.
Variable row_of : catrow -> ModelCatalog.row.
Hypothesis Hlen : forall iv sig, length (smooth iv sig) = length iv.
Hypothesis Hdw : (0 < dwave)%Qc.
Hypothesis Hids : forall c, TARGETID (row_of c) = c_targetid c.
Hypothesis Hreq : reads_requested row_of w.
Variable rank : nat.
Hypothesis R : forall b cat m s, w_reader w true rank b cat = Some m -> In s m -> SpecSelect.fresh s /\ unread s.
Variable ids : list Z.

Definition known (s : spec) : Prop := ready s /\ In (c_targetid (s_cat s)) ids.
Lemma known_keeps s r : okall ready r -> wkeeps s r -> known s -> okall known r.
Proof. unfold wkeeps, known. destruct r as [s'|]; [|easy]. cbn. intros H K (_ & Hi). split; [exact H|]. unfold wkey in K. injection K as -> _. exact Hi. Qed.
Lemma known_read e c queue : Forall (Forall (fun x => In (TARGETID x) ids)) queue ->
  okall (Forall known) (read_queue nsqrt smooth junk dwave w true a e c rank queue).
Proof.
  intro Hq. unfold read_queue. set (U := fun s => unfitted s /\ In (c_targetid (s_cat s)) ids).
  apply okall_bind2 with (Forall (Forall U)).
  - apply (okall_rseq (fun cat => In cat queue) (Forall U)); [|now apply Forall_forall]. intros cat Hcat.
    unfold the_file. destruct (w_reader w true rank (is_before e) cat) as [m|] eqn:E; [|exact I]. cbn [of_option rbind].
    eapply okall_rmap2; [apply (okall_rseq (fun s => In s m) U)|].
    + intros s Hs. destruct (cut_forest nsqrt a s) as [s1|] eqn:Es; [|exact I]. cbn [okall]. destruct (R _ _ _ _ E Hs) as (F & (Z & V & Sc)).
      destruct (ready_cut nsqrt a s s1 F Z V Sc Es) as (U1 & C1). split; [exact U1|]. rewrite C1, <- Hids.
      rewrite Forall_forall in Hq. specialize (Hq _ Hcat). rewrite Forall_forall in Hq. apply Hq. exact (Hreq _ _ _ _ _ _ E Hs).
    + now apply Forall_forall.
    + intros l1 H1. apply Forall_forall. intros s Hs. apply filter_In in Hs as [Hs _]. rewrite Forall_forall in H1. now apply H1.
  - intros ll H. apply Forall_concat in H. destruct (is_before c) eqn:Eb.
    + refine (okall_rseq U _ _ _ _ H). intros s (U1 & U2). pose proof (unfitted_coadd nsqrt smooth junk dwave (fun _ => n0) (fun _ => n1) s Hlen Hdw U1) as K.
      destruct (coadd_arms_forest _ _ _ _ _ _ s) as [s'|]; [|exact I]. destruct K as (K1 & K2). split; [exact K1|]. now rewrite K2.
    + cbn [okall]. refine (Forall_impl _ _ H). intros s ((U1 & _) & U2). now split.
Qed.
Lemma known_calibrate l : Forall known l -> leaf (Forall known) (calibrate ev w true a rank l).
Proof.
  intro Hl. unfold calibrate. apply (leaf_bind (Forall known)).
  - destruct (r_noise a); [|exact Hl]. apply leaf_bind_any. intro i. apply leaf_res. intros l1 E.
    refine (okall_use _ _ _ (okall_rseq known known _ _ _ Hl) E). intros s Hs. exact (known_keeps s _ (ready_eta _ s (proj1 Hs)) (eta_w _ s) Hs).
  - intros l1 H1. destruct (r_flux a); [|exact H1]. apply leaf_bind_any. intro i. apply leaf_res. intros l2 E.
    refine (okall_use _ _ _ (okall_rseq known known _ _ _ H1) E). intros s Hs. exact (known_keeps s _ (ready_flux _ s (proj1 Hs)) (flux_w _ s) Hs).
Qed.
Notation Dr := (masked_in_run profile w a rank).
Lemma ready_WF s : ready s -> M Dr s -> WF Dr s.
Proof. intros ((A & N & _) & Sh & _) H. split; [split; [split; [now apply M_weak|exact N]|exact Sh]|now apply aligned_fits]. Qed.
Lemma known_masks l : Forall known l -> okall (Forall (WF Dr)) (apply_masks pf dwave (masks_at w a rank ids) l).
Proof.
  intro Hl. unfold apply_masks. pose proof (masks_at_M profile w a rank ids) as K. destruct (masks_at w a rank ids) as [|m ms] eqn:E.
  - cbn [okall]. refine (Forall_impl _ _ Hl). intros s (H1 & H2). specialize (K s H1 H2). cbn in K. now apply ready_WF.
  - refine (okall_rseq known _ _ _ _ Hl). intros s (H1 & H2). unfold apply_masks_one. specialize (K s H1 H2).
    destruct (for_each (m :: ms) (mask_apply pf) s) as [s1|]; [|exact I]. cbn [rmap okall] in *. destruct K as (K0 & K1).
    destruct (ready_WF _ K0 K1) as ((W1 & W3) & W2). split; [split; [now apply weak_drop|now apply shared_drop]|now apply fits_drop].
Qed.
Lemma exposures_WN l : Forall (fun s => In (c_targetid (s_cat s)) ids) l ->
  leaf (Forall (WN Dr)) (exposures_after pf row_of ev nsqrt smooth junk dwave w a rank (masks_at w a rank ids) l).
Proof.
  intro Hl. unfold exposures_after. apply leaf_bind_any. intros _. cbv zeta. apply (leaf_bind (Forall (WF Dr))).
  - unfold select_spectra, read_spectra. apply (leaf_bind (Forall known)).
    + apply (leaf_bind (Forall known)); [|intros l1 H x; exact H]. apply leaf_res. intros l1 E. refine (okall_use _ _ _ (known_read _ _ _ _) E).
      apply exposure_queue_rows. apply Forall_map. refine (Forall_impl _ _ Hl). intros s Hs. now rewrite Hids.
    + intros l1 H. apply (leaf_bind (Forall known)); [now apply known_calibrate|]. intros l2 H1. apply leaf_res. intros l3 E.
      refine (okall_use (Forall (WF Dr)) _ _ _ E). eapply okall_bind2; [apply known_masks; exact H1|]. intros l4 H4. now apply snr_cut_sub, short_sub.
  - intros e He. apply leaf_res. intros l2 E. refine (okall_use _ _ _ (okall_rseq (WF Dr) (WN Dr) _ _ _ He) E). intros s (((W1 & N1) & Sh) & F1).
    destruct (find _ _) as [c|]; [|exact I]. pose proof (match_weak _ dwave c s W1 F1 N1) as K1. pose proof (match_shared dwave c s Sh) as K2.
    destruct (match_exposure dwave c s); [|exact I]. split; [exact K1|exact K2].
Qed.
End Select.

(** the spectra of the first reading only give the quasars to be read again *)
Section Tail.
Variable profile : Qc -> Qc -> Qc -> Qc.
Notation pf := (fun x z h => Fin (profile x z h)).
Variable row_of : catrow -> ModelCatalog.row.
Variable argsort : list Z -> list nat.
Variable hpix_of : spec -> Z.
Variable g : runargs -> config.
Variable ev : interp -> Qc -> num.
Variable ev_stack : stacker -> Qc -> num.
Variable slope : Qc -> num.
Variable minimizer : interp -> interp -> interp -> interp -> spec -> num -> option minres.
Variable input_cont : spec -> option (Qc -> num).
Variable true_cont : spec -> Qc -> num.
Variable nsqrt : num -> num.
Variable uspline : list Qc -> list num -> list num -> option (list num).
Variable xs : list Qc.
Variable quad : list Qc -> Qc.
Variable min_num_pix min_num_qso : nat.
Variable cholesky : list (list Qc) -> bool.
Variable curve_fit : list Qc -> list Qc -> list num -> errors -> option (list num * list num).
Variable vspline : list Qc -> list num -> list num -> option (list num).
Variable write_ok : string -> bool.
Variable iter_suffix : nat -> string.
Variable smooth : list num -> Qc -> list num.
Variable junk : nat -> num.
Variable dwave : Qc.
Variable w : world.
Hypothesis Ha : argsort_ok argsort.
Hypothesis Hlen : forall iv sig, length (smooth iv sig) = length iv.
Hypothesis Hdw : (0 < dwave)%Qc.
Hypothesis Hids : forall c, TARGETID (row_of c) = c_targetid c.
Hypothesis Hreq : reads_requested row_of w.
Definition has_id (ids : list Z) (s : spec) : Prop := In (c_targetid (s_cat s)) ids.
Lemma has_keeps ids s r : keeps s r -> has_id ids s -> okall (has_id ids) r.
Proof. unfold keeps, skey, has_id. destruct r as [s'|]; [|easy]. cbn. intros [= -> _]. easy. Qed.

Lemma has_key ids s s' : skey s' = skey s -> has_id ids s -> has_id ids s'.
Proof. unfold skey, has_id. intros [= -> _]. easy. Qed.
Lemma has_rseq ids f l : (forall s, keeps s (f s)) -> Forall (has_id ids) l -> okall (Forall (has_id ids)) (rseq (map f l)).
Proof. intros H Hl. refine (okall_rseq (has_id ids) (has_id ids) f l _ Hl). intros s Hs. exact (has_keeps ids s _ (H s) Hs). Qed.
Lemma select_ids again a e c rank ms queue fl : 
  leaf (Forall (has_id (map TARGETID (concat queue)))) (select_spectra fl ev nsqrt smooth junk dwave w again a e c rank ms queue).
Proof.
  unfold select_spectra, read_spectra. set (ids := map TARGETID (concat queue)). apply (leaf_bind (Forall (has_id ids))).
  - apply (leaf_bind (Forall (has_id ids))); [|intros l H x; exact H]. apply leaf_res. intros l E. refine (okall_use _ _ _ _ E). unfold read_queue.
    apply okall_bind2 with (Forall (Forall (has_id ids))).
    + apply (okall_rseq (fun cat => In cat queue) (Forall (has_id ids))); [|now apply Forall_forall]. intros cat Hcat.
      unfold the_file. destruct (w_reader w again rank (is_before e) cat) as [m|] eqn:Em; [|exact I]. cbn [of_option rbind].
      eapply okall_rmap2; [apply (okall_rseq (fun s => In s m) (has_id ids))|].
      * intros s Hs. unfold cut_forest. eapply okall_rmap2; [apply (has_keeps ids s _ (region_cat nsqrt (r_w1 a) (r_w2 a) (r_fw1 a) (r_fw2 a) s))|].
        -- unfold has_id. rewrite <- Hids. apply in_map. apply in_concat. exists cat. split; [exact Hcat|]. exact (Hreq _ _ _ _ _ _ Em Hs).
        -- intros s1 H1. exact H1.
      * now apply Forall_forall.
      * intros l1 H1. apply Forall_forall. intros s Hs. apply filter_In in Hs as [Hs _]. rewrite Forall_forall in H1. now apply H1.
    + intros ll H. apply Forall_concat in H. destruct (is_before c); [|exact H]. apply has_rseq; [|exact H]. intro s. apply coadd_cat.
  - intros l Hl. apply (leaf_bind (Forall (has_id ids))).
    + unfold calibrate. apply (leaf_bind (Forall (has_id ids))).
      * destruct (r_noise a); [|exact Hl]. apply leaf_bind_any. intro i. apply leaf_res. intros l1 E.
        refine (okall_use _ _ _ (has_rseq ids _ _ _ Hl) E). intro s. apply eta_cat.
      * intros l1 H1. destruct (r_flux a); [|exact H1]. apply leaf_bind_any. intro i. apply leaf_res. intros l2 E.
        refine (okall_use _ _ _ (has_rseq ids _ _ _ H1) E). intro s. apply flux_cat.
    + intros l1 H1. apply leaf_res. intros l2 E. refine (okall_use (Forall (has_id ids)) _ _ _ E). eapply okall_bind2 with (P := Forall (has_id ids)).
      * unfold apply_masks. destruct ms as [|m ms]; [exact H1|]. apply has_rseq; [|exact H1]. intro s. apply masks_cat.
      * intros l3 H3. now apply snr_cut_sub, short_sub.
Qed.
Lemma tail_WN a st rank queue : r_exposures a = After ->
  (forall b cat m s, w_reader w true rank b cat = Some m -> In s m -> SpecSelect.fresh s /\ unread s) ->
  leaf (fun fs => forall s, In s (concat (map snd fs)) -> WN (masked_in_run profile w a rank) s)
    (the_tail pf row_of argsort hpix_of g ev ev_stack slope minimizer input_cont true_cont
       nsqrt uspline xs quad min_num_pix min_num_qso cholesky curve_fit vspline write_ok iter_suffix smooth junk dwave w a st rank queue (masks_at w a rank (map TARGETID (concat queue)))).
Proof.
  intros He R. unfold the_tail. set (ids := map TARGETID (concat queue)). apply (leaf_bind (Forall (has_id ids))).
  - apply select_ids.
  - intros l Hl. apply (leaf_bind (fun r => Forall (has_id ids) (snd (fst r)))).
    { apply leaf_lift. apply (fitting_I (has_id ids)).
      - intros s s' K Hs. unfold has_id in *. unfold ckey in K. injection K as -> _ _. exact Hs.
      - intros x y s Hs. exact (has_keeps ids s _ (weight_cat x y s) Hs).
      - intros s Hs. exact (has_key ids s _ (smooth_cat smooth dwave (s_sscale s) s) Hs).
      - intros _ e s Hs. exact (has_keeps ids s _ (eta_cat e s) Hs).
      - intros _ e v s Hs. exact (has_keeps ids s _ (additive_cat e v s) Hs).
      - intros _ x y s Hs. exact (has_keeps ids s _ (coadd_cat nsqrt smooth junk dwave x y s) Hs).
      - apply Forall_map. unfold IX. cbn [fst]. destruct (qltb 0 (r_scale a)); [|exact Hl]. apply Forall_map. refine (Forall_impl _ _ Hl). intros s Hs. exact (has_key ids s _ (smooth_cat smooth dwave _ s) Hs). }
    intros [[t l2] log] Hl2. cbn [fst snd] in Hl2. apply (leaf_bind (Forall (WN (masked_in_run profile w a rank)))).
    { rewrite He. cbn [is_after]. now apply exposures_WN. }
    intros l3 Hl3. apply (leaf_bind (fun fs => forall s, In s (concat (map snd fs)) -> WN (masked_in_run profile w a rank) s)).
    { apply leaf_res. intros fs E s Hs. apply (save_sub _ _ Ha _ _ _ _ _ _ _ E) in Hs. apply in_map_iff in Hs as (s0 & <- & Hs). rewrite Forall_forall in Hl3. destruct (Hl3 _ Hs) as (K1 & K2). split; [now apply weak_drop|now apply shared_drop]. }
    intros fs Hfs. apply leaf_res. intros fs' E. destruct (_ && _); [discriminate|]. injection E as <-. exact Hfs.
Qed.
End Tail.

Lemma run_exposures profile ang2pix row_of logic argsort hpix_of g ev ev_stack slope minimizer input_cont true_cont
    nsqrt uspline xs quad min_num_pix min_num_qso cholesky curve_fit vspline write_ok iter_suffix smooth junk dwave w n f a r s :
  1 <= n -> sky_alike w n -> argsort_ok argsort ->
  (forall iv sig, length (smooth iv sig) = length iv) ->
  (0 < dwave)%Qc -> (forall c, TARGETID (row_of c) = c_targetid c) -> reads_requested row_of w ->
  finishes n (the_run ang2pix (fun x z h => Fin (profile x z h)) row_of logic argsort hpix_of g ev ev_stack slope minimizer input_cont true_cont
      nsqrt uspline xs quad min_num_pix min_num_qso cholesky curve_fit vspline write_ok iter_suffix smooth junk dwave w n) f -> w_parse w = Parsed a ->
  r_exposures a = After ->
  (forall r b cat m s, w_reader w true r b cat = Some m -> In s m -> SpecSelect.fresh s /\ unread s) ->
  r < n -> In s (concat (map snd (f r))) -> WN (masked_in_run profile w a r) s.
Proof.
  intros Hn Sk Ha Hl Hd Hi Hq H Ea He R Hr.
  destruct (head _ _ _ _ _ _ _ _ _ _ _ _ _ _ _ _ _ _ _ _ _ _ _ _ _ _ _ w n Hn Sk f H) as (a' & st & q & ms & Ea' & Hms & Ht).
  assert (a' = a) as -> by congruence. revert s.
  refine (leaf_finishes n _ f (fun r fs => forall s, In s (concat (map snd fs)) -> WN (masked_in_run profile w a r) s) _ Ht r Hr). clear r Hr. intros r Hr.
  rewrite (Hms r Hr). apply tail_WN; auto. intros b cat m s E Hin. exact (R _ _ _ _ _ E Hin).
Qed.

(** an array that does not fit the continuum cannot be written *)
Definition from_fitting (s : spec) (k : nat) (x : Qc) (d i wt : num) : Prop :=
  exists arm wv fl ivs wts iv w0 c, In (arm, wv) (fw (s_f s)) /\ nth_error wv k = Some x /\ dget arm (ff (s_f s)) = Some fl /\
    dget arm (fivar (s_f s)) = Some ivs /\ dget arm (fweight (s_f s)) = Some wts /\ length ivs = length fl /\ length wts = length fl /\
    nth_error ivs k = Some iv /\ nth_error wts k = Some w0 /\ i = nmul iv (nsq c) /\ wt = nmul w0 (nsq c) /\ (i = n0 -> d = n0).
Lemma zip2_len {A B C} (f : A -> B -> C) x y z : zip2 f x y = Ok z -> length x = length y.
Proof. unfold zip2. destruct (Nat.eqb_spec (length x) (length y)); [easy|discriminate]. Qed.
Lemma hdu_fitting mr rd st s hs h k x d i wt : spec_write mr rd st s = Ok hs -> In h hs -> hdu_row h k x d i wt ->
  from_fitting s k x d i wt.
Proof.
  intros E Hh Hp. unfold spec_write in E. apply rbind_Ok in E as (msnr & _ & E). revert h Hh Hp.
  refine (for_each_In _ (fun h => hdu_row h k x d i wt -> from_fitting s k x d i wt) _ _ _ _ E _); [|intros y []].
  intros [arm wv] acc out Hin Eb Hacc h Hh Hp. cbn [fst snd] in Eb. apply rbind_Ok in Eb as (snr & _ & Eb). destruct (neqb snr n0); [injection Eb as <-; now apply (Hacc h)|].
  apply rbind_Ok in Eb as (h0 & E0 & Eb). injection Eb as <-. apply in_app_or in Hh as [Hh|Hh]; [now apply (Hacc h)|].
  destruct Hh as [-> | []]. unfold write_arm in E0. cbv zeta in E0.
  apply rbind_Ok in E0 as (cont & _ & E0). apply rbind_Ok in E0 as (flux & Ef & E0). apply rbind_Ok in E0 as (iv & Ei & E0). apply rbind_Ok in E0 as (w0 & Ew & E0).
  apply rbind_Ok in E0 as (d0 & Zf & E0). apply rbind_Ok in E0 as (iv' & Zi & E0). apply rbind_Ok in E0 as (wt' & Zw & E0). apply rbind_Ok in E0 as (d' & Zd & E0).
  apply rbind_Ok in E0 as (cols & Ec & E0). apply rbind_Ok in E0 as (tb & Et & E0). injection E0 as <-.
  unfold fits_table in Et. destruct (Nat.eqb_spec (length (st_colnames st)) (length cols)) as [L|L]; [|discriminate]. injection Et as <-.
  destruct Hp as (ws & ds & ivs & wts & rest & Em & N1 & N2 & N3 & N4). cbn [h_cols] in Em. rewrite snd_combine in Em by exact L.
  assert (exists rest', cols = CWave wv :: CNum d' :: CNum iv' :: CNum wt' :: rest') as (rest' & ->).
  { destruct (dtrue _); [|injection Ec as <-; eexists; reflexivity]. apply rbind_Ok in Ec as (? & _ & Ec). apply rbind_Ok in Ec as (? & _ & Ec). injection Ec as <-. eexists; reflexivity. }
  injection Em as <- <- <- <- _.
  pose proof (zip2_len _ _ _ _ Zf) as L1. pose proof (zip2_len _ _ _ _ Zi) as L2. pose proof (zip2_len _ _ _ _ Zw) as L3.
  destruct (zip2_at _ _ _ _ _ _ Zi N3) as (iv0 & c & A1 & A2 & A3). destruct (zip2_at _ _ _ _ _ _ Zw N4) as (w00 & c' & B1 & B2 & B3).
  assert (c' = c) as -> by congruence. destruct (zip2_at _ _ _ _ _ _ Zd N2) as (i0 & d00 & C1 & C2 & C3). assert (i0 = i) as -> by congruence.
  exists arm, wv, flux, iv, w0, iv0, w00, c. split; [exact Hin|]. split; [exact N1|].
  unfold rget in Ei, Ew, Ef. destruct (dget arm (fivar (s_f s))); [|discriminate]. destruct (dget arm (fweight (s_f s))); [|discriminate]. destruct (dget arm (ff (s_f s))); [|discriminate].
  injection Ei as ->. injection Ew as ->. injection Ef as ->. do 3 (split; [reflexivity|]). split; [congruence|]. split; [congruence|]. repeat (split; [assumption|]). intro Z. rewrite C3, Z. reflexivity.
Qed.
Lemma exposures_hdu D mr rd st s hs h k x d i wt : WN D s -> spec_write mr rd st s = Ok hs -> In h hs -> hdu_row h k x d i wt -> D (s_cat s) x ->
  spent i /\ spent wt /\ (i = n0 -> d = n0).
Proof.
  intros ((H & Nd) & _) E Hh Hp Dx. destruct (hdu_fitting _ _ _ _ _ _ _ _ _ _ _ E Hh Hp) as (arm & wv & fl & ivs & wts & iv & w0 & c & Hin & N & Ef & Ei & Ew & Li & Lw & Ni & Nw & -> & -> & Hz).
  destruct (H arm wv (In_pair_dget _ _ _ Nd Hin)) as (H1 & H2 & H3). specialize (H1 fl Ef).
  split; [apply spent_mul; exact (H2 ivs Ei ltac:(congruence) k x iv N Dx Ni)|]. split; [apply spent_mul; exact (H3 wts Ew ltac:(congruence) k x w0 N Dx Nw)|exact Hz].
Qed.

(** the weight of an exposure is its inverse variance *)
Lemma exposures_weight D mr rd st s hs h k x d i wt : WN D s -> spec_write mr rd st s = Ok hs -> In h hs -> hdu_row h k x d i wt -> wt = i.
Proof.
  intros (_ & Sh) E Hh Hp. destruct (hdu_fitting _ _ _ _ _ _ _ _ _ _ _ E Hh Hp) as (arm & wv & fl & ivs & wts & iv & w0 & c & Hin & N & Ef & Ei & Ew & Li & Lw & Ni & Nw & -> & -> & Hz).
  destruct Sh as (_ & Rw). unfold fivar in Ei. unfold fweight in Ew. rewrite Rw in Ew. assert (wts = ivs) as -> by congruence. assert (w0 = iv) as -> by congruence. reflexivity.
Qed.
