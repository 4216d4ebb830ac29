(** C73: the weights in the delta files of a whole run. *)
From Coq Require Import QArith_base ZArith String List Bool Arith Lia Qcanon.
From Verif Require Import Num NpList Exn Dict Mpi ModelMpiUtils ModelSpectrum ModelMasks ModelContinuum ModelStack ModelSubsample
  ModelBlinding ModelVarFit ModelFitter ModelCatalog ModelFitArgs ModelIO ModelDelta ModelPipeline SpecMpi SpecFinal SpecCatalog SpecPipeline SpecSpectrum SpecMasks SpecSelect
  SpecPixels Examples1 PropFitter PropPipeline PropRanks PropComplete PropPixels PropSource ProofRunWeights2.
Import ListNotations.
Local Open Scope nat_scope.

(** A finished run without smoothing and without exposures after the fit, which either
    does not rescale the spectra after the last fit or computes the weights again: there
    is one var_lss and one eta for all quasars of all ranks such that every row with
    positive IVAR has WEIGHT = 1 / (eta / IVAR + var_lss) at its wavelength: for all
    rows where eta and var_lss are sensible, and for all rows with a finite WEIGHT
    other than zero.  (For runs that rescale afterwards see C48.) *)
Theorem C73_one_formula ang2pix dla_flux row_of logic argsort hpix_of g ev ev_stack slope minimizer input_cont true_cont
    nsqrt uspline xs quad min_num_pix min_num_qso cholesky curve_fit vspline write_ok iter_suffix smooth junk dwave w n f a :
  1 <= n -> sky_alike w n -> argsort_ok argsort ->
  finishes n (fun r => run_all ang2pix dla_flux row_of logic argsort hpix_of g ev ev_stack slope minimizer input_cont true_cont
      nsqrt uspline xs quad min_num_pix min_num_qso cholesky curve_fit vspline write_ok iter_suffix smooth junk dwave w r n) f ->
  w_parse w = Parsed a -> r_exposures a <> After -> n_iterations (g a) <> 0 -> (r_scale a <= 0)%Qc ->
  (forall r b cat m s, w_reader w false r b cat = Some m -> In s m -> fresh s /\ unread s) ->
  r_noise a && r_additive a = true \/ r_coadd a = After \/ (g_norm (g a) = false /\ g_etacal (g a) = false) ->
  exists varlss eta : Qc -> num, forall mean_resolution ra_dec st r s hdus h k x delta ivar weight,
    r < n -> In s (concat (map snd (f r))) -> spec_write mean_resolution ra_dec st s = Ok hdus -> In h hdus ->
    hdu_row h k x delta (Fin ivar) weight -> (0 < ivar)%Qc ->
    (forall e v, eta x = Fin e -> varlss x = Fin v -> (0 < e)%Qc -> (0 <= v)%Qc -> weight = Fin (/ (e * / ivar + v))%Qc) /\
    (forall q, weight = Fin q -> q <> 0%Qc -> exists e v, eta x = Fin e /\ varlss x = Fin v /\ q = (/ (e * / ivar + v))%Qc).
Proof.
  exact (fun Hn Hs Ha Hf Ea He Hi Hsc R HO =>
    match weights_thm ang2pix dla_flux row_of logic argsort hpix_of g ev ev_stack slope minimizer input_cont true_cont
    nsqrt uspline xs quad min_num_pix min_num_qso cholesky curve_fit vspline write_ok iter_suffix smooth junk dwave w n Hn Hs Ha a R f Hf Ea He Hi Hsc HO
    with ex_intro _ vl (ex_intro _ eta (conj _ K)) => ex_intro _ vl (ex_intro _ eta K) end).
Qed.
Print Assumptions C73_one_formula.

(** With a fiducial var_lss, no additive noise and no coadding after the fit, these are
    the var_lss of the file and eta = 1. *)
Theorem C73_fiducial ang2pix dla_flux row_of logic argsort hpix_of g ev ev_stack slope minimizer input_cont true_cont
    nsqrt uspline xs quad min_num_pix min_num_qso cholesky curve_fit vspline write_ok iter_suffix smooth junk dwave w n f a varlss :
  1 <= n -> sky_alike w n -> argsort_ok argsort ->
  finishes n (fun r => run_all ang2pix dla_flux row_of logic argsort hpix_of g ev ev_stack slope minimizer input_cont true_cont
      nsqrt uspline xs quad min_num_pix min_num_qso cholesky curve_fit vspline write_ok iter_suffix smooth junk dwave w r n) f ->
  w_parse w = Parsed a -> r_exposures a <> After -> n_iterations (g a) <> 0 -> (r_scale a <= 0)%Qc ->
  (forall r b cat m s, w_reader w false r b cat = Some m -> In s m -> fresh s /\ unread s) ->
  g_norm (g a) = false -> g_etacal (g a) = false ->
  r_varlss a = true -> r_noise a && r_additive a = false -> r_coadd a <> After ->
  w_varlss w = Some varlss -> (forall x, ev (ones_like varlss) x = n1) ->
  forall mean_resolution ra_dec st r s hdus h k x delta ivar weight,
    r < n -> In s (concat (map snd (f r))) -> spec_write mean_resolution ra_dec st s = Ok hdus -> In h hdus ->
    hdu_row h k x delta (Fin ivar) weight -> (0 < ivar)%Qc ->
    (forall v, ev varlss x = Fin v -> (0 <= v)%Qc -> weight = Fin (/ (/ ivar + v))%Qc) /\
    (forall q, weight = Fin q -> q <> 0%Qc -> exists v, ev varlss x = Fin v /\ q = (/ (/ ivar + v))%Qc).
Proof.
  exact (fun Hn Hs Ha Hf Ea He Hi Hsc R => fiducial_thm ang2pix dla_flux row_of logic argsort hpix_of g ev ev_stack slope minimizer input_cont true_cont
    nsqrt uspline xs quad min_num_pix min_num_qso cholesky curve_fit vspline write_ok iter_suffix smooth junk dwave w n Hn Hs Ha a R f varlss Hf Ea He Hi Hsc).
Qed.
Print Assumptions C73_fiducial.

(** The run of C72 has a fiducial var_lss of 1/10: IVAR 256 and WEIGHT 1280/133. *)
Example C73_ex :
  sky_alike src_world 2 /\ argsort_ok argsort_ex /\ finishes 2 (src_run src_world) (result2 (spmd 2 (src_run src_world))) /\
  w_parse src_world = Parsed src_args /\ r_exposures src_args <> After /\ n_iterations (ex_g 2 false false false) <> 0 /\ (r_scale src_args <= 0)%Qc /\
  (forall r b cat m s, w_reader src_world false r b cat = Some m -> In s m -> fresh s /\ unread s) /\
  g_norm (ex_g 2 false false false) = false /\ g_etacal (ex_g 2 false false false) = false /\
  r_varlss src_args = true /\ r_noise src_args && r_additive src_args = false /\ r_coadd src_args <> After /\
  w_varlss src_world = Some ex_fid /\ (forall x, ex_ev (ones_like ex_fid) x = n1) /\
  src_table (result2 (spmd 2 (src_run src_world)) 0) = Some src_rows /\
  ex_ev ex_fid (zq 3600) = Fin (fq 1 10) /\ (/ (/ zq 256 + fq 1 10) = fq 1280 133)%Qc /\ (/ (/ fq 5184 25 + fq 1 10) = fq 25920 2717)%Qc.
Proof.
  destruct src_finishes as (F & _ & T). split; [intros a Ea _ r Hr; split; discriminate|]. split; [exact argsort_ex_ok|]. split; [exact (finished2_finishes _ F)|].
  split; [reflexivity|]. split; [discriminate|]. split; [discriminate|]. split; [apply Qcle_refl|]. split; [exact src_fresh|].
  do 4 (split; [reflexivity|]). split; [discriminate|]. split; [reflexivity|]. split; [reflexivity|]. split; [exact T|]. split; [reflexivity|].
  split; apply Qc_is_canon; reflexivity.
Qed.
(** Weights that are computed again, with var_lss = 1/5 from the fit, after the arms
    were coadded: IVAR 4 and WEIGHT 20/9. *)
Example C73_after_ex :
  sky_alike (px_world After) 2 /\ finishes 2 (px_run (px_world After)) (result2 (spmd 2 (px_run (px_world After)))) /\
  w_parse (px_world After) = Parsed (px_args After) /\ r_exposures (px_args After) <> After /\ (r_scale (px_args After) <= 0)%Qc /\
  (forall r b cat m s, w_reader (px_world After) false r b cat = Some m -> In s m -> fresh s /\ unread s) /\
  r_coadd (px_args After) = After /\ px_table (result2 (spmd 2 (px_run (px_world After))) 0) = Some (px_rows After) /\
  (/ (1 * / zq 4 + fq 1 5) = fq 20 9)%Qc.
Proof.
  destruct (px_finishes After (or_intror eq_refl)) as (F & _ & T). split; [intros a Ea _ r Hr; split; discriminate|]. split; [exact (finished2_finishes _ F)|].
  split; [reflexivity|]. split; [discriminate|]. split; [apply Qcle_refl|]. split; [|split; [reflexivity|split; [exact T|apply Qc_is_canon; reflexivity]]].
  intros r b cat m s E Hs. destruct (px_fresh After false r b cat m s E Hs) as (F1 & U & _). now split.
Qed.
