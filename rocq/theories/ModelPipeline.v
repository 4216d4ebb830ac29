(** Model of mpi_run_all of py/qsonic/scripts/qsonic_fit.py, the whole qsonic-fit
    program of one rank, built from the models of its parts. *)
From Coq Require Import ZArith String List Bool Arith Qcanon.
From Verif Require Import Num NpList Exn Dict Mpi ModelMpiUtils ModelSpectrum ModelMasks ModelBlinding
  ModelContinuum ModelStack ModelSubsample ModelVarFit ModelFitter ModelExposures ModelFitArgs ModelCatalog ModelFitQueue ModelIO.
Import ListNotations.
Local Open Scope nat_scope.

(** --coadd-arms and --exposures *)
Inductive when := Before | After | Disable.
Definition is_before w := match w with Before => true | _ => false end.
Definition is_after w := match w with After => true | _ => false end.

(** The options that mpi_run_all and the functions of scripts/qsonic_fit.py look
    at (those of the continuum fitter are in [config]); a bool for a path is
    whether it is given.  wave1 ... skip are finite (argparse also accepts "nan"). *)
Record runargs := mkRun {
  r_outdir : bool; r_mock : bool; r_tile : bool; r_surveys : option (list Z); r_skip_resomat : bool; r_byhpx : bool;
  r_w1 : Qc; r_w2 : Qc; r_fw1 : Qc; r_fw2 : Qc; r_skip : Qc; r_minrsnr : num; r_minsnr : num; r_scale : Qc;
  r_coadd : when; r_exposures : when;
  r_sky : bool; r_bal : bool; r_dla : bool; r_noise : bool; r_flux : bool; r_additive : bool;
  r_meanflux : bool; r_varlss : bool }.

(** What the outside world answers: parse_args on rank 0 (Ok; SystemExit; any
    other exception), makedirs, the catalog file, whether its columns include the
    BAL columns, and the files a rank reads.  None: the access raises.  The
    first argument of w_reader, w_noise and w_flux is true in the second pass of
    mpi_read_exposures_after. *)
Inductive parsed := Parsed (a : runargs) | ParseExit | ParseCrash.
Record world := mkWorld {
  w_parse : parsed; w_makedirs : bool; w_catalog : option catalog; w_balcols : bool;
  w_sky : nat -> option (list skyrow); w_dla : nat -> option (list dla);
  w_reader : bool -> nat -> bool -> list row -> option (list spec);   (* pass, rank, exposures, catalog *)
  w_noise : bool -> nat -> option (interp * interp);                  (* pass, rank: (eta, var_lss) *)
  w_flux : bool -> nat -> option interp;
  w_meanflux : option interp; w_varlss : option interp; w_additive : option interp;
  w_rows : list specx -> bool; w_chi2 : bool;                         (* save_contchi2_catalog *)
  w_save : nat -> bool }.                                             (* writing the delta files *)

(** Everything that is communicated *)
Inductive pval :=
| PArgs (a : option runargs) | PQueue (q : qval) | PNight (z : Z) | PFit (v : fval) | PCount (n : nat)
| PSky (m : option (list skyrow)) | PDla (d : option (list dla)) | PNoise (i : option (interp * interp)) | PInterp (i : option interp).
Definition pargs_of v := match v with PArgs a => a | _ => None end.
Definition pqueue_of v := match v with PQueue q => q | _ => VStatus false end.
Definition pnight_of v := match v with PNight z => z | _ => 0%Z end.
Definition pfit_of v := match v with PFit x => x | _ => FUnit end.
Definition pcount_of v := match v with PCount n => n | _ => 0 end.
Definition psky_of v := match v with PSky d => d | _ => None end.
Definition pdla_of v := match v with PDla d => d | _ => None end.
Definition pnoise_of v := match v with PNoise d => d | _ => None end.
Definition pinterp_of v := match v with PInterp d => d | _ => None end.
Definition pcount_sum (a b : pval) : pval := PCount (pcount_of a + pcount_of b).
Definition the_file {A} (o : option A) : res A := of_option "file" o.

Section Pipeline.
Variable ang2pix : Z -> num -> num -> Z.
Variable dla_flux : Qc -> Qc -> Qc -> num.
Variable row_of : catrow -> row.                     (* the catalog row behind spec.catrow *)
Variable logic : runargs -> bool.                    (* args_logic_fnc_qsonic_fit *)
Variable argsort : list Z -> list nat.
Variable hpix_of : spec -> Z.                        (* spec.hpix *)
Variable g : runargs -> config.
Variable ev : interp -> Qc -> num.
Variable ev_stack : stacker -> Qc -> num.
Variable slope : Qc -> num.
Variable minimizer : interp -> interp -> interp -> interp -> spec -> num -> option minres.
Variable input_cont : spec -> option (Qc -> num).
Variable true_cont : spec -> Qc -> num.
Variable nsqrt : num -> num.
Variable uspline : list Qc -> list num -> list num -> option (list num).
Variable xs : list Qc.
Variable quad : list Qc -> Qc.
Variables (min_num_pix min_num_qso : nat) (cholesky : list (list Qc) -> bool)
  (curve_fit : list Qc -> list Qc -> list num -> errors -> option (list num * list num))
  (vspline : list Qc -> list num -> list num -> option (list num)).
Variable write_ok : string -> bool.
Variable iter_suffix : nat -> string.
Variable smooth : arr -> Qc -> arr.
Variable junk : nat -> num.
Variable dwave : Qc.                                 (* Spectrum._dwave: the same on all ranks *)
Variable w : world.

(** ** Reading *)
(** lines 134-137: set_forest_region and remove_nonforest_pixels *)
Definition cut_forest (a : runargs) (s : spec) : res spec :=
  rmap remove_nonforest_pixels (set_forest_region nsqrt (r_w1 a) (r_w2 a) (r_fw1 a) (r_fw2 a) s).
(** 139-142: spectra without forest or with a low rsnr are left out *)
Definition kept (a : runargs) (s : spec) : bool := dtrue (fw (s_f s)) && nleb (r_minrsnr a) (s_rsnr s).
(** 130-145; args.exposures and args.coadd_arms are changed by
    mpi_read_exposures_after (402-404) and are arguments here *)
Definition read_queue (again : bool) (a : runargs) (exposures coadd : when) (rank : nat) (queue : list (list row)) : res (list spec) :=
  rbind (rseq (map (fun cat =>
           rbind (the_file (w_reader w again rank (is_before exposures) cat)) (fun l =>
           rmap (filter (kept a)) (rseq (map (cut_forest a) l)))) queue)) (fun ll =>
  if is_before coadd
  then rseq (map (coadd_arms_forest nsqrt smooth junk dwave (fun _ => n0) (fun _ => n1)) (concat ll))
  else Ok (concat ll)).
(** 98-151 mpi_read_spectra_local_queue.  comm.reduce, whose result is only used in
    a log message, is modelled as an allreduce: all ranks wait. *)
Definition read_spectra (again : bool) (a : runargs) (exposures coadd : when) (rank : nat) (queue : list (list row)) : prog pval (list spec) :=
  pbind (of_res (read_queue again a exposures coadd rank queue)) (fun l =>
  Allreduce pcount_sum (PCount (length l)) (fun _ => Ret l)).

(** 154-166 mpi_noise_flux_calibrate, add_varlss=False *)
Definition calibrate (again : bool) (a : runargs) (rank : nat) (l : list spec) : prog pval (list spec) :=
  pbind (if r_noise a
         then pbind (lift PNoise pnoise_of (mpi_fnc_bcast true rank "Error loading NoiseCalibrator from file" (the_file (w_noise w again rank))))
                    (fun i => of_res (noise_calibrate (ev (fst i)) None l))
         else Ret l) (fun l1 =>
  if r_flux a
  then pbind (lift PInterp pinterp_of (mpi_fnc_bcast true rank "Error loading FluxCalibrator from file" (the_file (w_flux w again rank))))
             (fun i => of_res (rseq (map (flux_calibrate1 (ev i)) l1)))
  else Ret l1).

(** ** Masks *)
(** masks.py 143-155 BALMask.check_catalog(local_queue[0]): all queues are pieces
    of one array, so that the columns are the same *)
Definition bal_check (queue : list (list row)) : prog pval unit :=
  pbind (of_res (rfirst queue)) (fun _ =>
  of_res (if w_balcols w then Ok tt else Err (QsonicExn "Input catalog is missing BAL columns."))).
(** 207-208: np.concatenate of an empty list raises ValueError *)
Definition local_ids (queue : list (list row)) : res (list Z) :=
  rbind (rfirst queue) (fun _ => Ok (map TARGETID (concat queue))).
(** 169-220 mpi_read_masks.  SkyMask is constructed without comm and rank
    (defaults None and 0): every rank reads the file. *)
Definition read_masks (a : runargs) (rank : nat) (queue : list (list row)) : prog pval (list masker) :=
  pbind (if r_sky a
         then pbind (lift PSky psky_of (mpi_fnc_bcast false 0 "Error loading SkyMask from mask file" (the_file (w_sky w rank))))
                    (fun rows => Ret [MSky (skymask_init rows)])
         else Ret []) (fun m1 =>
  pbind (if r_bal a then pbind (bal_check queue) (fun _ => Ret [MBal]) else Ret []) (fun m2 =>
  pbind (if r_dla a
         then pbind (of_res (local_ids queue)) (fun ids =>
              pbind (lift PDla pdla_of (mpi_fnc_bcast true rank "Error loading DLAMask from file" (the_file (w_dla w rank))))
                    (fun cat => Ret [MDla (dlamask_init cat (Some ids) (fq 8 10))]))
         else Ret []) (fun m3 =>
  Ret (m1 ++ m2 ++ m3)))).

(** ** Selection *)
(** 308-310: minimum forest SNR *)
Definition snr_cut (minsnr : num) (l : list spec) : res (list spec) :=
  rmap (@concat spec) (rseq (map (fun s => rmap (fun m => if nleb minsnr m then [s] else []) (get_effective_meansnr s)) l)).
(** 267-312 mpi_read_calibrate_mask_select_spectra *)
Definition select_spectra (again : bool) (a : runargs) (exposures coadd : when) (rank : nat) (maskers : list masker)
  (queue : list (list row)) : prog pval (list spec) :=
  pbind (read_spectra again a exposures coadd rank queue) (fun l =>
  pbind (calibrate again a rank l) (fun l1 =>
  of_res (rbind (apply_masks dla_flux dwave maskers l1) (fun l2 =>
          snr_cut (r_minsnr a) (remove_short_spectra dwave (r_fw1 a) (r_fw2 a) (r_skip a) l2))))).

(** ** Exposures: 359-449 mpi_read_exposures_after.  np.hstack of an empty list
    raises ValueError. *)
Definition exposures_after (a : runargs) (rank : nat) (maskers : list masker) (l : list spec) : prog pval (list spec) :=
  pbind (of_res (rfirst l)) (fun _ =>
  let sorted := isort (fun s1 s2 => lexleb [HPXPIXEL; TARGETID] (row_of (s_cat s1)) (row_of (s_cat s2))) l in
  let queue := exposure_queue (map (fun s => row_of (s_cat s)) l) in
  pbind (select_spectra true a Before (match r_coadd a with Disable => Disable | _ => Before end) rank maskers queue) (fun e =>
  of_res (match_exposures dwave sorted e))).

(** ** 452-503 mpi_run_all.  The result is what save_deltas writes on this rank;
    the statics of Spectrum are as at import. *)
Definition fit_options (a : runargs) : fitopts :=
  mkOpts (if r_meanflux a then Some (w_meanflux w) else None) (if r_varlss a then Some (w_varlss w) else None)
    (if r_noise a && r_additive a then Some (w_additive w) else None) (is_after (r_coadd a)) (w_rows w) (w_chi2 w).
Definition parse_result : res runargs :=
  match w_parse w with Parsed a => Ok a | ParseExit => Err SysExit | ParseCrash => Err (OtherExn "parse_args") end.
Definition run_all (rank size : nat) : prog pval (@saved spec) :=
  pbind (lift PArgs pargs_of (mpi_parse rank parse_result (fun a => Ok (logic a)))) (fun a =>
  pbind (of_res (if Nat.eqb rank 0 && r_outdir a && negb (w_makedirs w) then Err (OtherExn "OSError") else Ok tt)) (fun _ =>
  let '(zmin, zmax) := z_limits (r_w1 a) (r_w2 a) (r_fw1 a) (r_fw2 a) (r_skip a) in
  pbind (lift PQueue pqueue_of (mpi_get_local_queue ang2pix (the_file (w_catalog w)) true rank size (r_mock a) (r_tile a)
                                  (r_surveys a) (Fin zmin) (Fin zmax))) (fun queue =>
  pbind (lift PNight pnight_of (blinding_prog (r_mock a) (r_skip_resomat a) (r_fw1 a) [map (map LASTNIGHT) queue] statics0 0)) (fun st =>
  pbind (read_masks a rank queue) (fun maskers =>
  pbind (select_spectra false a (r_exposures a) (r_coadd a) rank maskers queue) (fun l =>
  let l1 := if qltb 0 (r_scale a) then map (set_smooth_forestivar smooth dwave (r_scale a)) l else l in
  pbind (lift PFit pfit_of (continuum_fitting (g a) ev ev_stack slope minimizer input_cont true_cont nsqrt uspline xs quad
           min_num_pix min_num_qso cholesky curve_fit vspline write_ok iter_suffix smooth junk dwave rank (fit_options a)
           (map (fun s => (s, [[n1; n0]; [n0; n1]])) l1))) (fun r =>
  let '(t, l2, log) := r in
  pbind (if is_after (r_exposures a) then exposures_after a rank maskers l2 else Ret l2) (fun l3 =>
  let l4 := map (drop_short_arms dwave (r_fw1 a) (r_fw2 a) (r_skip a)) l3 in
  pbind (of_res (save_deltas hpix_of s_valid argsort l4 (negb (r_outdir a)) (r_byhpx a) (Some (Z.of_nat rank))
                   (match st_blinding st with Some _ => true | None => false end))) (fun files =>
  of_res (if r_outdir a && negb (w_save w rank) then Err (OtherExn "OSError") else Ok files)))))))))).
End Pipeline.
