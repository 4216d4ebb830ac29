(** Model of attributes.fits: ModelFitter.iterate (py/qsonic/picca_continuum.py 522-630) once more,
    now with what is written to the file.

    The program is that of ModelFitter.v with two more results: for each iteration the
    interpolators the continua were fitted with (mean continuum, var_lss, eta), and the
    extensions of the file in the order in which they were written.  ProofAttributes.v shows
    that it is ModelFitter.iterate if these are forgotten. *)
From Coq Require Import ZArith String List Bool Arith Qcanon DecimalString.
From Verif Require Import Num NpList Exn Dict Mpi ModelSpectrum ModelContinuum ModelStack ModelSubsample ModelVarFit ModelFitter.
Import ListNotations.
Local Open Scope nat_scope.

(** an extension: its name, its wavelength column and the other columns *)
Record ext := mkExt { x_name : string; x_wave : list Qc; x_cols : list (string * list num) }.
(** 1277-1283 FluxStacker.waveobs: equally spaced *)
Definition stack_wave (k : stacker) : list Qc := map (fun i => (k_w0 k + zq (Z.of_nat i) * k_dw k)%Qc) (seq 0 (k_n k)).
(** 606-630: what save writes *)
Definition save_exts (g : config) (suff : string) (t : fitter) : list ext :=
  [mkExt ("CONT" ++ suff) (g_rfwave g) [("mean_cont"%string, i_fp (t_cont t)); ("e_mean_cont"%string, i_ep (t_cont t))];
   mkExt ("STACKED_FLUX" ++ suff) (stack_wave (t_stack t)) [("stacked_flux"%string, k_fp (t_stack t))];
   mkExt ("STACKED_FLUX_RF" ++ suff) (g_rfwave g)
     [("stacked_flux_rf"%string, k_rfp (t_stack t)); ("e_stacked_flux_rf"%string, k_rep (t_stack t))]] ++
  match t_vfit t with
  | None => []
  | Some v => [mkExt ("VAR_FUNC" ++ suff) (v_wave v)
      [("var_lss"%string, i_fp (deref t (t_var t))); ("e_var_lss"%string, i_ep (deref t (t_var t)));
       ("eta"%string, i_fp (deref t (t_eta t))); ("e_eta"%string, i_ep (deref t (t_eta t)))]]
  end.
(** 554: f"-{it + 1}" for the iteration with number it + 1 *)
Definition iteration_suffix (it : nat) : string := "-" ++ NilEmpty.string_of_uint (Nat.to_uint it).

(** the state of the file and of the fits *)
Definition used := (interp * interp * interp)%type.
Definition attrs := (list used * list ext)%type.

Section Attributes.
Variable g : config.
Variable ev : interp -> Qc -> num.
Variable ev_stack : stacker -> Qc -> num.
Variable meanflux : Qc -> num.
Variable slope : Qc -> num.
Variable minimizer : interp -> interp -> interp -> spec -> num -> option minres.
Variable input_cont : spec -> option (Qc -> num).
Variable true_cont : spec -> Qc -> num.
Variable nsqrt : num -> num.
Variable uspline : list Qc -> list num -> list num -> option (list num).
Variable xs : list Qc.
Variable quad : list Qc -> Qc.
Variables (min_num_pix min_num_qso : nat) (cholesky : list (list Qc) -> bool)
  (curve_fit : list Qc -> list Qc -> list num -> errors -> option (list num * list num))
  (vspline : list Qc -> list num -> list num -> option (list num)).
Variable write_ok : string -> bool.

Notation fit_continua := (fit_continua g ev meanflux slope minimizer input_cont true_cont).
Notation update_mean_cont := (update_mean_cont g nsqrt uspline xs quad).
Notation update_var_lss_eta := (update_var_lss_eta g nsqrt min_num_pix min_num_qso cholesky curve_fit vspline).

(** mpi_utils.py 148-173 MPISaver: the file exists on rank 0, if an output directory is given *)
Definition write_a (rank : nat) (e : ext) (file : list ext) : res (list ext) :=
  rmap (fun _ => if Nat.eqb rank 0 && g_outdir g then file ++ [e] else file) (write_ext g write_ok rank (x_name e)).
Definition save_a (rank : nat) (suff : string) (t : fitter) (file : list ext) : res (list ext) :=
  for_each (save_exts g suff t) (write_a rank) file.

(** 553-570 *)
Fixpoint iterations_a (rank n it : nat) (t : fitter) (l : list specx) (log : list bool) (a : attrs)
  : prog fval (fitter * list specx * list bool * attrs) :=
  match n with
  | O => Ret (t, l, log, a)
  | S n' =>
      pbind (of_res (save_a rank (iteration_suffix it) t (snd a))) (fun file =>
      pbind (fit_continua t l) (fun l1 =>
      let u := fst a ++ [(t_cont t, deref t (t_mvar t), deref t (t_meta t))] in
      pbind (update_mean_cont l1 t) (fun tb =>
      pbind (match t_vfit (fst tb) with Some _ => update_var_lss_eta l1 (fst tb) | None => Ret (fst tb) end) (fun t2 =>
      let log' := log ++ [snd tb] in
      if snd tb then Ret (t2, l1, log', (u, file)) else iterations_a rank n' (S it) t2 l1 log' (u, file)))))
  end.
(** 522-582 iterate; of VAR_STATS only the name is kept (C56 is about its columns) *)
Definition iterate_a (rank : nat) (t : fitter) (l : list specx) : prog fval (fitter * list specx * list bool * attrs) :=
  pbind (of_res (rseq (map (init_one g input_cont) l))) (fun l0 =>
  pbind (iterations_a rank (n_iterations g) 1 t l0 [] ([], [])) (fun r =>
  let '(t1, l1, log, (u, file)) := r in
  pbind (of_res (normalize_flux g ev_stack t1 l1)) (fun l2 =>
  pbind (of_res (eta_calibrate g ev t1 l2)) (fun l3 =>
  pbind (of_res (save_a rank "" t1 file)) (fun file1 =>
  pbind (match t_vfit t1 with
         | Some _ => Ret (t1, file1)
         | None => pbind (fit_final_varlss g nsqrt uspline xs quad min_num_pix min_num_qso cholesky curve_fit vspline rank l3 t1) (fun t2 =>
                   pbind (of_res (save_a rank "-fit" t2 file1)) (fun file2 => Ret (t2, file2)))
         end) (fun tf =>
  pbind (of_res (rbind (write_vfit g write_ok rank (fst tf)) (fun _ =>
                 Ok (if Nat.eqb rank 0 && g_outdir g then snd tf ++ [mkExt "VAR_STATS" [] []] else snd tf)))) (fun file3 =>
  Ret (fst tf, l3, log, (u, file3))))))))).
End Attributes.

(** scripts/qsonic_fit.py 315-356 mpi_continuum_fitting: ModelFitter.continuum_fitting with [iterate_a] *)
Section FittingAttributes.
Variable g : config.
Variable ev : interp -> Qc -> num.
Variable ev_stack : stacker -> Qc -> num.
Variable slope : Qc -> num.
Variable minimizer : interp -> interp -> interp -> interp -> spec -> num -> option minres.
Variable input_cont : spec -> option (Qc -> num).
Variable true_cont : spec -> Qc -> num.
Variable nsqrt : num -> num.
Variable uspline : list Qc -> list num -> list num -> option (list num).
Variable xs : list Qc.
Variable quad : list Qc -> Qc.
Variables (min_num_pix min_num_qso : nat) (cholesky : list (list Qc) -> bool)
  (curve_fit : list Qc -> list Qc -> list num -> errors -> option (list num * list num))
  (vspline : list Qc -> list num -> list num -> option (list num)).
Variable write_ok : string -> bool.
Variable smooth : arr -> Qc -> arr.
Variable junk : nat -> num.
Variable dwave : Qc.
Definition continuum_fitting_a (rank : nat) (o : fitopts) (l : list specx) : prog fval (fitter * list spec * list bool * attrs) :=
  pbind (fitter_init g rank o) (fun mt =>
  pbind (iterate_a g ev ev_stack (ev (fst mt)) slope (minimizer (fst mt)) input_cont true_cont nsqrt uspline xs quad
           min_num_pix min_num_qso cholesky curve_fit vspline write_ok rank (snd mt) l) (fun r =>
  let '(t, l1, log, a) := r in
  let valid := valid_spectra (map fst l1) in
  pbind (match o_additive o with
         | Some file =>
             pbind (read_interp rank "Error loading NoiseCalibrator from file" file) (fun vl => of_res (add_noise ev smooth dwave vl t valid))
         | None => Ret valid
         end) (fun v1 =>
  pbind (if o_coadd_after o then of_res (coadd_after ev nsqrt smooth junk dwave t v1) else Ret v1) (fun v2 =>
  pbind (save_catalog g rank o l1) (fun _ =>
  Ret (t, v2, log, a)))))).
End FittingAttributes.
