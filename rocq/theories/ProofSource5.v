(** ... and both together in a whole run (C72). *)
From Coq Require Import ZArith String List Bool Arith Lia Qcanon.
From Verif Require Import Num NpList NpListFacts Exn Dict Mpi ModelMpiUtils ModelSpectrum ModelBlinding ModelMasks ModelContinuum ModelStack ModelSubsample ModelVarFit ModelFitter ModelFitArgs ModelCatalog ModelIO ModelDelta ModelPipeline
  SpecMpi SpecFinal SpecSpectrum SpecMasks SpecCatalog SpecPipeline SpecSelect SpecPixels SpecSource
  ProofMpi ProofMpi2 ProofLock ProofSafe ProofFitter ProofCatalog ProofCat ProofSpectrum1 ProofMasks ProofMasks2 ProofMasks3 ProofIO2 ProofPipeline ProofPipeline2 ProofAttributes ProofRanks ProofRanks4 ProofRanks5
  ProofPixels1 ProofPixels2 ProofPixels3 ProofPixels4 ProofPixels5 ProofPixels6 ProofSource1 ProofSource2 ProofSource3 ProofSource4.
Import ListNotations.
Local Open Scope nat_scope.

Section Both.
Variable profile : Qc -> Qc -> Qc -> Qc.
Variable ang2pix : Z -> num -> num -> Z.
Notation dla_flux := (fun x z h => Fin (profile x z h)).
Variable row_of : catrow -> ModelCatalog.row.
Variable logic : runargs -> bool.
Variable argsort : list Z -> list nat.
Variable hpix_of : spec -> Z.
Variable g : runargs -> config.
Variable ev : interp -> Qc -> num.
Variable ev_stack : stacker -> Qc -> num.
Variable slope : Qc -> num.
Variable minimizer : interp -> interp -> interp -> interp -> spec -> num -> option minres.
Variable input_cont : spec -> option (Qc -> num).
Variable true_cont : spec -> Qc -> num.
Variable nsqrt : num -> num.
Variable uspline : list Qc -> list num -> list num -> option (list num).
Variable xs : list Qc.
Variable quad : list Qc -> Qc.
Variable min_num_pix min_num_qso : nat.
Variable cholesky : list (list Qc) -> bool.
Variable curve_fit : list Qc -> list Qc -> list num -> errors -> option (list num * list num).
Variable vspline : list Qc -> list num -> list num -> option (list num).
Variable write_ok : string -> bool.
Variable iter_suffix : nat -> string.
Variable smooth : list num -> Qc -> list num.
Variable junk : nat -> num.
Variable dwave : Qc.
Variable w : world.
Variable n : nat.
Hypothesis Hn : 1 <= n.
Hypothesis sky : sky_alike w n.
Hypothesis Ha : argsort_ok argsort.

Notation the_run := (the_run ang2pix dla_flux row_of logic argsort hpix_of g ev ev_stack slope minimizer input_cont true_cont
  nsqrt uspline xs quad min_num_pix min_num_qso cholesky curve_fit vspline write_ok iter_suffix smooth junk dwave w n).


Variable a : runargs.
Variable mean_resolution : spec -> string -> res num.
Variable ra_dec : catrow -> Qc * Qc.
Variable st : statics.
Variable f : nat -> @saved spec.
Notation quiet := (g_etacal (g a) = false /\ r_noise a && r_additive a = false).
Lemma values_thm : (forall c, TARGETID (row_of c) = c_targetid c) -> reads_requested row_of w ->
  (forall r b cat m s, w_reader w false r b cat = Some m -> In s m -> SpecSelect.fresh s /\ unread s) ->
  r_coadd a = Disable -> r_exposures a <> After -> finishes n the_run f -> w_parse w = Parsed a -> forall r s hdus h,
  r < n -> In s (concat (map snd (f r))) -> spec_write mean_resolution ra_dec st s = Ok hdus -> In h hdus ->
  h_targetid h = c_targetid (s_cat s) /\
  exists b cat m s0 px, w_reader w false r b cat = Some m /\ In s0 m /\ s_cat s0 = s_cat s /\ forest_pixels a s0 (h_arm h) = Some px /\
    table_of profile ev w a (masked_in_run profile w a r) quiet (s_cat s) px h.
Proof.
  intros Hi Hq R Hc He Hf Ea r s hdus h Hr Hin Ew Hh. refine (hdu_table profile ev w a (fun s0 arm px => forest_pixels a s0 arm = Some px) quiet r mean_resolution ra_dec st s hdus h _ Ew Hh).
  refine (run_sound profile ang2pix row_of logic argsort hpix_of g ev ev_stack slope minimizer input_cont true_cont
    nsqrt uspline xs quad min_num_pix min_num_qso cholesky curve_fit vspline write_ok iter_suffix smooth junk dwave w n Hn sky Ha a (fun s0 arm px => forest_pixels a s0 arm = Some px) _ He _ f r s Hf Ea Hr Hin); [now rewrite Hc|].
  intros e rank queue. rewrite Hc. exact (read_comes row_of nsqrt smooth junk dwave w Hi Hq a R e rank queue).
Qed.
Lemma coadded_thm : (forall c, TARGETID (row_of c) = c_targetid c) -> reads_requested row_of w ->
  (forall iv sig, length (smooth iv sig) = length iv) -> (0 < dwave)%Qc ->
  (forall r b cat m s, w_reader w false r b cat = Some m -> In s m -> SpecSelect.fresh s /\ unread s /\ clean dwave s) ->
  r_coadd a = Before -> r_exposures a <> After -> finishes n the_run f -> w_parse w = Parsed a -> forall r s hdus h,
  r < n -> In s (concat (map snd (f r))) -> spec_write mean_resolution ra_dec st s = Ok hdus -> In h hdus ->
  h_targetid h = c_targetid (s_cat s) /\
  exists b cat m s0 px, w_reader w false r b cat = Some m /\ In s0 m /\ s_cat s0 = s_cat s /\ coadd_src dwave a s0 (h_arm h) px /\
    table_of profile ev w a (masked_in_run profile w a r) quiet (s_cat s) px h.
Proof.
  intros Hi Hq Hl Hd R Hc He Hf Ea r s hdus h Hr Hin Ew Hh. refine (hdu_table profile ev w a (coadd_src dwave a) quiet r mean_resolution ra_dec st s hdus h _ Ew Hh).
  refine (run_sound profile ang2pix row_of logic argsort hpix_of g ev ev_stack slope minimizer input_cont true_cont
    nsqrt uspline xs quad min_num_pix min_num_qso cholesky curve_fit vspline write_ok iter_suffix smooth junk dwave w n Hn sky Ha a (coadd_src dwave a) _ He _ f r s Hf Ea Hr Hin); [now rewrite Hc|].
  intros e rank queue. rewrite Hc. exact (read_coadded row_of nsqrt smooth junk dwave w Hl Hd Hi Hq a R e rank queue).
Qed.
End Both.
