(** C80: which pixels the signal-to-noise ratios of a run are about.  Vocabulary:
    SpecSnrCut.v, SpecSnr.v, SpecSelect.v. *)
From Coq Require Import QArith_base ZArith String List Bool Arith Lia Qcanon.
From Verif Require Import Num NpList Exn Dict Mpi ModelMpiUtils ModelSpectrum ModelMasks ModelContinuum ModelStack ModelSubsample
  ModelBlinding ModelVarFit ModelFitter ModelCatalog ModelFitArgs ModelIO ModelDelta ModelPipeline SpecMpi SpecFinal SpecCatalog SpecPipeline SpecSpectrum SpecSnr SpecSelect
  SpecRanks SpecSnrCut Examples1 PropSpectrum PropMasks PropWeights PropSnr PropFitter PropPipeline PropComplete ProofSnrCut ProofSnrCut2.
Import ListNotations.
Local Open Scope nat_scope.

(** Every spectrum in the delta files of a finished run (arms not coadded) carries
    the mean signal-to-noise ratios of the pixels of its forest as they were read,
    before calibration, masks, additive noise and the dropping of short arms (s1 is
    the forest of the spectrum s that was read); and it is with these that the
    minimum of --min-forestsnr has been compared. *)
Theorem C80_written ang2pix dla_flux row_of logic argsort hpix_of g ev ev_stack slope minimizer input_cont true_cont
    nsqrt uspline xs quad min_num_pix min_num_qso cholesky curve_fit vspline write_ok iter_suffix smooth junk dwave w n sq f a :
  1 <= n -> sky_alike w n -> argsort_ok argsort -> square_root nsqrt sq ->
  finishes n (fun r => run_all ang2pix dla_flux row_of logic argsort hpix_of g ev ev_stack slope minimizer input_cont true_cont
      nsqrt uspline xs quad min_num_pix min_num_qso cholesky curve_fit vspline write_ok iter_suffix smooth junk dwave w r n) f ->
  w_parse w = Parsed a -> r_outdir a = true -> r_exposures a <> After -> r_coadd a = Disable ->
  (forall r b cat m s, w_reader w false r b cat = Some m -> In s m -> readable s) ->
  forall r s', r < n -> In s' (concat (map snd (f r))) -> exists queue all s s1 m,
    read_from w false r (is_before (r_exposures a)) queue all /\ In s all /\ same_object s s' /\
    set_forest_region nsqrt (r_w1 a) (r_w2 a) (r_fw1 a) (r_fw2 a) s = Ok s1 /\ meansnr_of sq s' s1 /\
    get_effective_meansnr s1 = Ok m /\ nleb (r_minsnr a) m = true.
Proof. exact (fun Hn Hs Ha => written_thm ang2pix dla_flux row_of logic argsort hpix_of g ev ev_stack slope minimizer input_cont true_cont
    nsqrt uspline xs quad min_num_pix min_num_qso cholesky curve_fit vspline write_ok iter_suffix smooth junk dwave w n Hn Hs Ha sq f a). Qed.
Print Assumptions C80_written.

(** Without calibrations and masks the spectra that are selected for the fit carry
    the mean signal-to-noise ratios of their own pixels.  Missing for the full
    property: runs with calibrations or masks, where it fails (below). *)
Theorem C80_own_pixels_partial dla_flux ev nsqrt sq smooth junk dwave w n a maskers queue took :
  1 <= n -> square_root nsqrt sq ->
  finishes n (fun r => select_spectra dla_flux ev nsqrt smooth junk dwave w false a (r_exposures a) (r_coadd a) r (maskers r) (queue r)) took ->
  r_coadd a <> Before -> (forall r b cat m s, w_reader w false r b cat = Some m -> In s m -> readable s) ->
  r_noise a = false -> r_flux a = false -> (forall r, maskers r = []) ->
  forall r s, r < n -> In s (took r) -> meansnr_of sq s s.
Proof. exact (own_thm dla_flux ev nsqrt sq smooth junk dwave w n a maskers queue took). Qed.
Print Assumptions C80_own_pixels_partial.

(** Example: three quasars; the forest has the six pixels from 3600 to 3605 A with
    fluxes 9, 9, 9, 1, 1, 1 and inverse variance 1 (its own square root); the sky
    mask, if any, covers the first three. *)
Definition cut_args (sky : bool) : runargs :=
  mkRun true true false None true true (zq 3600) (zq 3640) (zq 1200) (zq 1202) (fq 1 4) n1 (Fin (zq 3)) 0 Disable Disable
    sky false false false false false false true.
Definition cut_spec (tid pix : Z) : spec :=
  let wv := [("b"%string, map zq [3599; 3600; 3601; 3602; 3603; 3604; 3605]%Z)] in
  mkSpec (mkCatrow tid pix (zq 2) None [] [] [] []) wv [("b"%string, ex_num [1; 9; 9; 9; 1; 1; 1]%Z)] (dmap (map (fun _ => n1)) wv)
    [] n1 None empty_forest 0 false [n0] n0 [].
Definition cut_world (sky : bool) : world :=
  mkWorld (Parsed (cut_args sky)) true (Some (mkcat cols_ex [run_row 5 8; run_row 4 7; run_row 3 8])) true
    (fun _ => Some [mkSky (zq 3600) (zq 3603) OBS]) (fun _ => None)
    (fun _ _ _ cat => Some (map (fun r => cut_spec (TARGETID r) (HPXPIXEL r)) cat)) (fun _ _ => None) (fun _ _ => None)
    None (Some ex_fid) None (fun _ => true) true (fun _ => true).
Definition cut_run (w : world) (r : nat) : prog pval (@saved spec) :=
  run_all pix_ex (fun _ _ _ => n1) run_row_of (fun _ => true) argsort_ex (fun s => c_hpix (s_cat s)) (fun _ => ex_g 2 false false false)
    ex_ev (fun _ _ => Fin (zq 2)) (fun _ => n0) (fun _ _ _ _ s _ => Some (mkMin true [Fin (zq 2)] [[n1]])) (fun _ => None) (fun _ _ => n1)
    ids (fun _ y _ => Some y) [0; 1]%Qc ex_simpson 0 0 (fun _ => true)
    (fun _ _ _ _ => Some ([Fin (fq 1 5)], [Fin (fq 1 5)])) (fun _ y _ => Some y)
    (fun _ => true) (fun _ => ""%string) (fun a _ => a) (fun _ => n0) 1%Qc w r 2.
Lemma cut_readable sky r b cat m s : w_reader (cut_world sky) false r b cat = Some m -> In s m -> readable s.
Proof.
  intros E Hs. cbn [w_reader cut_world] in E. injection E as <-. apply in_map_iff in Hs as (q & <- & _). split.
  - split; [reflexivity|]. split; [repeat constructor; intros []|]. split.
    + intro arm. unfold len_at. cbn. destruct (String.eqb arm "b"); easy.
    + intros arm wv. cbn. destruct (String.eqb arm "b"); [|discriminate]. intro H. injection H as <-. repeat constructor.
  - intros p Hp. vm_compute in Hp.
    repeat (destruct Hp as [<-|Hp]; [cbn; split; [eexists; reflexivity|eexists; split; [reflexivity|intro C; vm_compute in C; discriminate C]]|]). destruct Hp.
Qed.
Example C80_ex : let w := cut_world true in
  sky_alike w 2 /\ argsort_ok argsort_ex /\ square_root ids (fun q => q) /\ finishes 2 (cut_run w) (result2 (spmd 2 (cut_run w))) /\
  (forall r b cat m s, w_reader w false r b cat = Some m -> In s m -> readable s) /\
  names (spmd 2 (cut_run w)) = Some [Some [(8, [3; 5])]; Some [(7, [4])]]%Z.
Proof.
  cbv zeta. split; [easy|]. split; [exact argsort_ex_ok|]. split; [exact ids_root|]. split; [apply finished2_finishes; lazy; reflexivity|].
  split; [apply cut_readable|lazy; reflexivity].
Qed.

Definition cut_view (l : list (Z * list spec)) :=
  option_map (fun s => (option_map (map (fun x => (fst x, this (nval (snd x))))) (s_msnr s), dkeys (fivar (s_f s)), this (arm_snr (fun q => q) s "b")))
    (hd_error (concat (map snd l))).
Lemma cut_masked : finished2 (spmd 2 (cut_run (cut_world true))) = true /\
  cut_view (result2 (spmd 2 (cut_run (cut_world true))) 0) = Some (Some [("b"%string, 5%Q)], ["b"%string], 1%Q).
Proof. split; lazy; reflexivity. Qed.
Lemma cut_viewed l : cut_view l = Some (Some [("b"%string, 5%Q)], ["b"%string], 1%Q) ->
  exists s, In s (concat (map snd l)) /\ dkeys (fivar (s_f s)) = ["b"%string] /\ (arm_snr (fun q => q) s "b" < zq 3)%Qc /\ ~ meansnr_of (fun q => q) s s.
Proof.
  unfold cut_view. destruct (concat (map snd l)) as [|s l']; [discriminate|]. cbn [hd_error option_map]. remember (arm_snr (fun q => q) s "b") as x eqn:Ex. intro E. injection E as Em Ek Ea.
  exists s. rewrite <- Ex. split; [now left|]. split; [exact Ek|]. split; [unfold Qclt; rewrite Ea; reflexivity|].
  intros (m & Es & _ & H). rewrite Es in Em. cbn [option_map] in Em. injection Em as Em.
  destruct m as [|[k v] [|? ?]]; try discriminate Em. cbn [map fst snd] in Em. injection Em as -> Ev.
  destruct (H "b"%string (or_introl eq_refl)) as (_ & G). cbn [dget] in G. rewrite String.eqb_refl, <- Ex in G. injection G as ->. cbn [nval] in Ev. rewrite Ea in Ev. discriminate Ev.
Qed.
(** With a mask it fails.  In this run with --min-forestsnr 3 a spectrum is fitted and
    written whose unmasked pixels have the mean signal-to-noise 1, under a MEANSNR of 5:
    three pixels of high flux, masked as sky lines, still count. *)
Theorem C80_masked_refuted : exists w a f s, w_parse w = Parsed a /\ r_outdir a = true /\ r_exposures a <> After /\ r_coadd a = Disable /\
  sky_alike w 2 /\ (forall r b cat m s, w_reader w false r b cat = Some m -> In s m -> readable s) /\
  finishes 2 (cut_run w) f /\ In s (concat (map snd (f 0))) /\ dkeys (fivar (s_f s)) = ["b"%string] /\
  r_minsnr a = Fin (zq 3) /\ (arm_snr (fun q => q) s "b" < zq 3)%Qc /\ ~ meansnr_of (fun q => q) s s.
Proof.
  assert (sky_alike (cut_world true) 2) as Sk by easy.
  destruct cut_masked as (F & E). apply cut_viewed in E as (s & Hs & Hk & Ha & Hm). apply finished2_finishes in F.
  exists (cut_world true), (cut_args true), (result2 (spmd 2 (cut_run (cut_world true)))), s.
  split; [reflexivity|]. split; [reflexivity|]. split; [discriminate|]. split; [reflexivity|]. split; [exact Sk|].
  split; [apply cut_readable|]. split; [exact F|]. split; [exact Hs|]. split; [exact Hk|]. split; [reflexivity|]. split; [exact Ha|exact Hm].
Qed.
Print Assumptions C80_masked_refuted.

(** Without the mask the same spectrum is selected with the signal-to-noise of its pixels *)
Definition cut_select (sky : bool) (r : nat) : prog pval (list spec) :=
  select_spectra (fun _ _ _ => n1) ex_ev ids (fun a _ => a) (fun _ => n0) 1%Qc (cut_world sky) false (cut_args sky) Disable Disable r [] [[run_row 5 8]].
Example C80_own_pixels_ex : exists took, finishes 1 (cut_select false) took /\ map (fun s => c_targetid (s_cat s)) (took 0) = [5%Z] /\
  r_noise (cut_args false) = false /\ r_flux (cut_args false) = false /\ r_coadd (cut_args false) <> Before.
Proof.
  exists (fun _ => match spmd 1 (cut_select false) with Done [Finished l] => l | _ => [] end).
  split; [lazy; reflexivity|]. split; [lazy; reflexivity|]. split; [reflexivity|]. split; [reflexivity|discriminate].
Qed.
