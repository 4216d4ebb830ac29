(** C70: every spectrum that takes part is accounted for. *)
From Coq Require Import QArith_base ZArith String List Bool Arith Lia Qcanon Permutation.
From Verif Require Import Num NpList Exn Dict Mpi ModelMpiUtils ModelSpectrum ModelMasks ModelContinuum ModelStack ModelSubsample
  ModelBlinding ModelVarFit ModelFitter ModelCatalog ModelFitArgs ModelIO ModelDelta ModelPipeline SpecMpi SpecFinal SpecCatalog SpecPipeline SpecSpectrum SpecDrop SpecSelect
  SpecRanks SpecComplete Examples1 PropFitter PropPipeline PropRanks ProofComplete.
Import ListNotations.
Local Open Scope nat_scope.

(** In a finished run with an output directory, stage by stage.  Every quasar of
    the catalog is in the queue of one rank, once.  Each rank keeps, of all spectra
    that it reads, exactly those with a forest and a high enough RSNR; of these,
    after calibration and masks, exactly those with enough good pixels and
    signal-to-noise; all of these are fitted, and are what the chi2 catalog lists
    (C61); and the delta files of the rank hold exactly the ones with a valid
    continuum, each once. *)
Theorem C70_accounted ang2pix dla_flux row_of logic argsort hpix_of g ev ev_stack slope minimizer input_cont true_cont
    nsqrt uspline xs quad min_num_pix min_num_qso cholesky curve_fit vspline write_ok iter_suffix smooth junk dwave w n f a :
  1 <= n -> sky_alike w n -> argsort_ok argsort ->
  finishes n (fun r => run_all ang2pix dla_flux row_of logic argsort hpix_of g ev ev_stack slope minimizer input_cont true_cont
      nsqrt uspline xs quad min_num_pix min_num_qso cholesky curve_fit vspline write_ok iter_suffix smooth junk dwave w r n) f ->
  w_parse w = Parsed a -> r_outdir a = true -> r_exposures a <> After ->
  (forall r b cat m s, w_reader w false r b cat = Some m -> In s m -> fresh s) ->
  exists cat queue maskers all kept calibrated masked took start mt fit,
    read_quasar_catalog ang2pix (the_file (w_catalog w)) (r_mock a) (r_tile a) (r_surveys a)
      (Fin (fst (z_limits (r_w1 a) (r_w2 a) (r_fw1 a) (r_fw2 a) (r_skip a))))
      (Fin (snd (z_limits (r_w1 a) (r_w2 a) (r_fw1 a) (r_fw2 a) (r_skip a)))) = Ok cat /\
    Permutation (gathered n (fun r => concat (queue r))) cat /\
    finishes n (fun r => read_masks w a r (queue r)) maskers /\ finishes n (fun r => calibrate ev w false a r (kept r)) calibrated /\
    finishes n (fun r => fitter_init (g a) r (fit_options w a)) mt /\
    finishes n (fun r => iterate (g a) ev ev_stack (ev (fst (mt r))) slope (minimizer (fst (mt r))) input_cont true_cont nsqrt uspline xs quad
           min_num_pix min_num_qso cholesky curve_fit vspline write_ok iter_suffix r (snd (mt r)) (start r)) fit /\
    forall r, r < n ->
      read_from w false r (is_before (r_exposures a)) (queue r) (all r) /\
      Forall2 same_object (filter (selected a) (all r)) (kept r) /\
      apply_masks dla_flux dwave (maskers r) (calibrated r) = Ok (masked r) /\ Forall2 same_object (kept r) (masked r) /\
      sublist_of (enough dwave a) (masked r) (took r) /\
      Forall2 (fun s sx => fst sx = if qltb 0 (r_scale a) then set_smooth_forestivar smooth dwave (r_scale a) s else s) (took r) (start r) /\
      Forall2 same_object (took r) (map fst (snd (fst (fit r)))) /\
      exists out, Permutation (concat (map snd (f r))) out /\
        Forall2 same_object (filter s_valid (map fst (snd (fst (fit r))))) out /\ Forall (fun s => s_valid s = true) out.
Proof. exact (fun Hn Hs Ha => complete ang2pix dla_flux row_of logic argsort hpix_of g ev ev_stack slope minimizer input_cont true_cont
    nsqrt uspline xs quad min_num_pix min_num_qso cholesky curve_fit vspline write_ok iter_suffix smooth junk dwave w n Hn Hs Ha f a). Qed.
Print Assumptions C70_accounted.

(** Three quasars, one with too low RSNR and one with a continuum that is not valid. *)
Definition co_args (skip : Qc) : runargs :=
  mkRun true true false None true true (zq 3600) (zq 3640) (zq 1200) (zq 1202) skip n1 n0 0 Disable Disable
    false false false false false false false true.
Definition co_spec (tid pix : Z) (rsnr : num) (arms : list (string * list Z)) : spec :=
  let wv := map (fun p : string * list Z => (fst p, map zq (snd p))) arms in
  mkSpec (mkCatrow tid pix (zq 2) None [] [] [] []) wv (dmap (map (fun _ => n1)) wv) (dmap (map (fun _ => n1)) wv)
    [] rsnr None empty_forest 0 false [n0] n0 [].
Definition co_world (skip : Qc) (arms : list (string * list Z)) : world :=
  mkWorld (Parsed (co_args skip)) true (Some (mkcat cols_ex [run_row 5 8; run_row 4 7; run_row 3 8])) true (fun _ => None) (fun _ => None)
    (fun _ _ _ cat => Some (map (fun r => co_spec (TARGETID r) (HPXPIXEL r) (if Z.eqb (TARGETID r) 4 then n0 else n1) arms) cat)) (fun _ _ => None) (fun _ _ => None)
    None (Some ex_fid) None (fun _ => true) true (fun _ => true).
Definition co_run (w : world) (r : nat) : prog pval (@saved spec) :=
  run_all pix_ex (fun _ _ _ => n1) run_row_of (fun _ => true) argsort_ex (fun s => c_hpix (s_cat s)) (fun _ => ex_g 2 false false false)
    ex_ev (fun _ _ => Fin (zq 2)) (fun _ => n0)
    (fun _ _ _ _ s _ => Some (mkMin (negb (Z.eqb (c_targetid (s_cat s)) 3)) [Fin (zq 2)] [[n1]])) (fun _ => None) (fun _ _ => n1)
    (fun _ => Fin (fq 1 100)) (fun _ y _ => Some y) [0; 1]%Qc ex_simpson 0 0 (fun _ => true)
    (fun _ _ _ _ => Some ([Fin (fq 1 5)], [Fin (fq 1 5)])) (fun _ y _ => Some y)
    (fun _ => true) (fun _ => ""%string) (fun a _ => a) (fun _ => n0) 1%Qc w r 2.
Definition one_arm : list (string * list Z) := [("b"%string, [3599; 3600; 3601; 3602; 3603; 3604; 3605])]%Z.
Definition two_arms : list (string * list Z) := [("b"%string, [3600; 3601; 3602]); ("r"%string, [3603; 3604; 3605])]%Z.
Lemma co_fresh skip arms r b cat m s : arms = one_arm \/ arms = two_arms ->
  w_reader (co_world skip arms) false r b cat = Some m -> In s m -> fresh s.
Proof.
  intros A E Hs. cbn [w_reader co_world] in E. injection E as <-. apply in_map_iff in Hs as (q & <- & _). destruct A as [-> | ->].
  - split; [reflexivity|]. split; [repeat constructor; intros []|]. split.
    + intro arm. unfold len_at. cbn. destruct (String.eqb arm "b"); easy.
    + intros arm wv. cbn. destruct (String.eqb arm "b"); [|discriminate]. intro H. injection H as <-. repeat constructor.
  - split; [reflexivity|]. split; [repeat constructor; cbn; intuition discriminate|]. split.
    + intro arm. unfold len_at. cbn. destruct (String.eqb arm "b"); [easy|]. destruct (String.eqb arm "r"); easy.
    + intros arm wv. cbn. destruct (String.eqb arm "b"); [intro H; injection H as <-; repeat constructor|].
      destruct (String.eqb arm "r"); [|discriminate]. intro H. injection H as <-. repeat constructor.
Qed.
Example C70_ex : let w := co_world (fq 1 2) one_arm in
  sky_alike w 2 /\ argsort_ok argsort_ex /\ finishes 2 (co_run w) (result2 (spmd 2 (co_run w))) /\
  (forall r b cat m s, w_reader w false r b cat = Some m -> In s m -> fresh s) /\
  names (spmd 2 (co_run w)) = Some [Some [(8, [5])]; Some []]%Z.
Proof.
  cbv zeta. split; [easy|]. split; [exact argsort_ex_ok|]. split; [apply finished2_finishes; lazy; reflexivity|].
  split; [intros r b cat m s; apply co_fresh; now left|lazy; reflexivity].
Qed.

Definition first_saved (l : list (Z * list spec)) : option (bool * dict (list Qc) * bool) :=
  option_map (fun s => (s_valid s, fw (s_f s), match s_msnr s with Some _ => true | None => false end)) (hd_error (concat (map snd l))).
Lemma first_without_arms l : first_saved l = Some (true, [], true) ->
  exists s, In s (concat (map snd l)) /\ s_valid s = true /\ forall mean_resolution ra_dec st, spec_write mean_resolution ra_dec st s = Ok [].
Proof.
  unfold first_saved. destruct (concat (map snd l)) as [|s l']; [discriminate|]. cbn [hd_error option_map]. intro E. injection E as Ev Ew Em.
  exists s. split; [now left|]. split; [exact Ev|].
  intros mr rd st. unfold spec_write. destruct (s_msnr s) as [m|]; [|discriminate]. cbn [of_option rbind]. now rewrite Ew.
Qed.
Lemma two_arms_run : finished2 (spmd 2 (co_run (co_world (fq 1 2) two_arms))) = true /\ first_saved (result2 (spmd 2 (co_run (co_world (fq 1 2) two_arms))) 0) = Some (true, [], true).
Proof. split; lazy; reflexivity. Qed.

(** A listed spectrum may be written without any HDU.  Before the fit the good pixels
    of all arms together are counted; after the fit every arm is dropped that has too
    few of its own (qsonic_fit.py 497), down to the last one.  Here each of the two
    arms has 3 of the 6 pixels of the forest, skip is 1/2, and the quasar is in the
    list of spectra to save but its file has no HDU for it. *)
Theorem C70_no_arm_left_refuted : exists w a f s, w_parse w = Parsed a /\ r_exposures a <> After /\ r_outdir a = true /\
  sky_alike w 2 /\ (forall r b cat m s, w_reader w false r b cat = Some m -> In s m -> fresh s) /\
  finishes 2 (co_run w) f /\ In s (concat (map snd (f 0))) /\ s_valid s = true /\
  forall mean_resolution ra_dec st, spec_write mean_resolution ra_dec st s = Ok [].
Proof.
  destruct two_arms_run as (F & E). apply first_without_arms in E as (s & Hs & Hv & Hw). apply finished2_finishes in F.
  exists (co_world (fq 1 2) two_arms), (co_args (fq 1 2)), (result2 (spmd 2 (co_run (co_world (fq 1 2) two_arms)))), s.
  split; [reflexivity|]. split; [discriminate|]. split; [reflexivity|]. split; [intros a0 Ea; injection Ea as <-; discriminate|].
  split; [intros r b cat m s0; apply co_fresh; right; reflexivity|]. split; [exact F|]. split; [exact Hs|]. split; [exact Hv|exact Hw].
Qed.
Print Assumptions C70_no_arm_left_refuted.

(** With one arm (coadded arms), an arm that was long enough before the fit is not
    dropped after it. *)
Theorem C70_one_arm_partial dwave a s arm iv :
  proper s -> fivar (s_f s) = [(arm, iv)] -> (0 <= r_skip a * forest_pixels s dwave (r_fw1 a) (r_fw2 a))%Qc ->
  enough dwave a s -> r_skip a <> 0%Qc -> arm_state (drop_short_arms dwave (r_fw1 a) (r_fw2 a) (r_skip a) s) arm = arm_state s arm.
Proof. exact (one_arm_kept dwave a s arm iv). Qed.
Print Assumptions C70_one_arm_partial.
Example C70_one_arm_ex :
  let s := mkSpec (s_cat (co_spec 5 8 n1 one_arm)) [] [] [] [] n1 (Some [("b"%string, n1)])
     (mkForest [("b"%string, map zq [3600; 3601; 3602; 3603]%Z)] [("b"%string, [n1; n1; n1; n1])] []
     [[("b"%string, [n1; n1; n1; n1])]; [("b"%string, [n1; n1; n1; n1])]; [("b"%string, [n1; n1; n1; n1])]] 0 1 2) 0 false [n0] n0 [] in
  proper s /\ fivar (s_f s) = [("b"%string, [n1; n1; n1; n1])] /\ enough 1%Qc (co_args (fq 1 2)) s.
Proof.
  cbv zeta. split.
  - split; [intro arm; unfold len_at; cbn; destruct (String.eqb arm "b"); easy|]. split; [repeat constructor; intros []|].
    split; [intros arm wv; cbn; destruct (String.eqb arm "b"); [intro H; injection H as <-; repeat constructor|discriminate]|]. cbn. lia.
  - split; [reflexivity|]. split; [right; reflexivity|]. eexists. split; [reflexivity|reflexivity].
Qed.
