(** Model of PiccaContinuumFitter (py/qsonic/picca_continuum.py 143-681) and of
    mpi_continuum_fitting (py/qsonic/scripts/qsonic_fit.py 315-356), as the
    program of one rank.

    The objects varlss_interp and eta_interp are shared with the continuum model
    and updated in place, and fit_final_varlss gives the fitter new ones: they
    are references to a heap.  The parts for one spectrum (ModelContinuum.v), the
    stacker (ModelStack.v) and the variance fitter (ModelVarFit.v) are the models
    of these files.  Local failures of external functions are [None] and become
    exceptions other than QsonicException.  Logging is not modelled. *)
From Coq Require Import ZArith String List Bool Arith Qcanon.
From Verif Require Import Num NpList Exn Dict Mpi ModelMpiUtils ModelSpectrum ModelMasks ModelContinuum
  ModelStack ModelSubsample ModelVarFit.
Import ListNotations.
Local Open Scope nat_scope.

Definition nabs (x : num) : num := if nltb x n0 then nneg x else x.
(** np.mean: nan for an empty array *)
Definition nmean (l : arr) : num := ndiv (nsum l) (Fin (zq (Z.of_nat (length l)))).

(** ** _project_normalize_meancont *)
(** scipy.special.legendre(n)(t), by Bonnet's recursion: (P_n, P_(n-1)) *)
Fixpoint legendre2 (n : nat) (t : Qc) : Qc * Qc :=
  match n with
  | O => (1, 0)%Qc
  | S m => let '(p, q) := legendre2 m t in
           (((zq (2 * Z.of_nat m + 1) * t * p - zq (Z.of_nat m) * q) / zq (Z.of_nat m + 1))%Qc, p)
  end.
Definition legendre (n : nat) (t : Qc) : Qc := fst (legendre2 n t).

Section Project.
(** x = np.log(rfwave / rfwave[0]) / _denom; [quad y] = CubicSpline(x, y,
    bc_type='natural').integrate(0, 1), which raises ValueError unless y is finite *)
Variable xs : list Qc.
Variable quad : list Qc -> Qc.
Definition integrate (y : arr) : res num :=
  if forallb nfinite y then Ok (Fin (quad (map nval y))) else Err (OtherExn "ValueError: finite").

(** 342-350: one order *)
Definition project_order (ci : nat) (v : arr) : res arr :=
  let leg := map (fun x => Fin (legendre ci ((1 + 1) * x - 1))) xs in
  rbind (zip2 nmul v leg) (fun vl =>
  rbind (integrate vl) (fun i =>
  let B := nmul (Fin (zq (2 * Z.of_nat ci + 1))) i in
  zip2 (fun a l => nsub a (nmul B l)) v leg)).
(** 321-357 _project_normalize_meancont: (new_meancont, mean) *)
Definition project_normalize (order : nat) (v : arr) : res (arr * num) :=
  rbind (for_each (seq 1 order) project_order v) (fun v1 =>
  rbind (integrate v1) (fun mean =>
  Ok (map (fun a => ndiv a mean) v1, mean))).
End Project.

(** ** State *)
(** FastLinear1DInterp / FastCubic1DInterp: xp0, dxp, fp, ep *)
Record interp := mkInt { i_linear : bool; i_x0 : Qc; i_dx : Qc; i_fp : arr; i_ep : arr }.
Definition i_reset (fp ep : arr) (i : interp) : interp := mkInt (i_linear i) (i_x0 i) (i_dx i) fp ep.
Inductive cmodel := Picca | Input | TrueCont.
(** options and constants *)
Record config := mkConf {
  g_model : cmodel; g_order : nat; g_niter : nat; g_fit_eta : bool; g_norm : bool; g_etacal : bool; g_outdir : bool;
  g_w1 : Qc; g_w2 : Qc; g_nw : nat; g_nv : nat; g_edges : list Qc; g_usecov : bool; g_size : nat;
  g_rfwave : list Qc; g_dwrf : Qc }.
(** 227-244: the true continuum is fitted once; no polynomials for true and input continua *)
Definition n_iterations (g : config) : nat := match g_model g with TrueCont => 1 | _ => g_niter g end.
Definition eff_order (g : config) : nat := match g_model g with Picca => g_order g | _ => 0 end.

(** meancont_interp, the heap of interpolators, the references varlss_interp and
    eta_interp of the fitter and of its model, varlss_fitter, flux_stacker *)
Record fitter := mkFitter {
  t_cont : interp; t_heap : list interp; t_var : nat; t_eta : nat; t_mvar : nat; t_meta : nat;
  t_vfit : option vfit; t_stack : stacker }.
Definition null_interp : interp := mkInt true 0 1 [] [].
Definition deref (t : fitter) (r : nat) : interp := nth r (t_heap t) null_interp.
Definition set_tcont c t := mkFitter c (t_heap t) (t_var t) (t_eta t) (t_mvar t) (t_meta t) (t_vfit t) (t_stack t).
Definition set_theap h t := mkFitter (t_cont t) h (t_var t) (t_eta t) (t_mvar t) (t_meta t) (t_vfit t) (t_stack t).
Definition set_tvfit v t := mkFitter (t_cont t) (t_heap t) (t_var t) (t_eta t) (t_mvar t) (t_meta t) v (t_stack t).
Definition set_tstack k t := mkFitter (t_cont t) (t_heap t) (t_var t) (t_eta t) (t_mvar t) (t_meta t) (t_vfit t) k.
Definition set_trefs v e t := mkFitter (t_cont t) (t_heap t) v e (t_mvar t) (t_meta t) (t_vfit t) (t_stack t).

(** Values exchanged between the ranks *)
Inductive fval := FNat (n : nat) | FArr (l : list num) | FVar (v : vval) | FInt (f : option interp) | FUnit.
Definition fnat_of (v : fval) : nat := match v with FNat n => n | _ => 0 end.
Definition farr_of (v : fval) : list num := match v with FArr l => l | _ => [] end.
Definition fvar_of (v : fval) : vval := match v with FVar x => x | _ => VInt [] end.
Definition fint_of (v : fval) : option interp := match v with FInt f => f | _ => None end.
Definition nat_sum (a b : fval) : fval := FNat (fnat_of a + fnat_of b).

(** a spectrum with cont_params['xcov'] *)
Definition specx := (spec * mat)%type.

(** the pixels must be finite for ModelVarFit.v (numpy would carry on with nan) *)
Definition finite_arr (a : arr) : res (list Qc) :=
  if forallb nfinite a then Ok (map nval a) else Err (OtherExn "not finite (not modelled)").

Section Fitter.
Variable g : config.
Variable ev : interp -> Qc -> num.                   (* interpolator call, one pixel *)
Variable ev_stack : stacker -> Qc -> num.            (* FluxStacker.__call__, one pixel *)
Variable meanflux : Qc -> num.
Variable slope : Qc -> num.
Variable minimizer : interp -> interp -> interp -> spec -> num -> option minres.
Variable input_cont : spec -> option (Qc -> num).
Variable true_cont : spec -> Qc -> num.
Variable nsqrt : num -> num.
Variable uspline : list Qc -> list num -> list num -> option (list num).  (* UnivariateSpline(x, y, w)(x) *)
Variable xs : list Qc.
Variable quad : list Qc -> Qc.
Variables (min_num_pix min_num_qso : nat) (cholesky : list (list Qc) -> bool)
  (curve_fit : list Qc -> list Qc -> list num -> errors -> option (list num * list num))
  (vspline : list Qc -> list num -> list num -> option (list num)).
Variable write_ok : string -> bool.                  (* MPISaver.write of an extension on rank 0 *)
Variable iter_suffix : nat -> string.                (* f"-{it + 1}" *)

Definition residual : bool := match g_model g with Picca => true | _ => false end.

(** 317: model.fit_continuum(spec) *)
Definition fit_one (t : fitter) (sx : specx) : res specx :=
  let '(s, xcov) := sx in
  match g_model g with
  | Picca =>
      picca_fit meanflux (ev (deref t (t_mvar t))) (ev (deref t (t_meta t))) (ev (t_cont t)) slope
        (fun s a0 => of_option "minimizer" (minimizer (t_cont t) (deref t (t_mvar t)) (deref t (t_meta t)) s a0)) s xcov
  | Input =>
      rmap (fun s' => (s', xcov))
        (input_fit meanflux (ev (deref t (t_mvar t))) (ev (deref t (t_meta t)))
           (match input_cont s with Some c => c | None => fun _ => NaN end) s)
  | TrueCont => rmap (fun s' => (s', xcov)) (true_fit meanflux (ev (deref t (t_mvar t))) (true_cont s) s)
  end.
Definition init_one (sx : specx) : res specx :=
  let s := fst sx in
  match g_model g with
  | Picca => picca_init (g_order g) s
  | Input => Ok (input_init (match input_cont s with Some _ => true | None => false end) s)
  | TrueCont => Ok (true_init s)
  end.

(** 284-319 fit_continua *)
Definition count_valid (b : bool) (l : list specx) : nat := count (fun sx : specx => Bool.eqb (s_valid (fst sx)) b) l.
Definition fit_continua (t : fitter) (l : list specx) : prog fval (list specx) :=
  pbind (of_res (rseq (map (fit_one t) l))) (fun l' =>
  Allreduce nat_sum (FNat (count_valid true l')) (fun nv =>
  Allreduce nat_sum (FNat (count_valid false l')) (fun _ =>
  if Nat.eqb (fnat_of nv) 0 then Raise (QsonicExn "Crucial error: No valid continuum fits!") else Ret l'))).

(** 390-416: the local part of update_mean_cont, after the stacker has been
    calculated: (meancont_interp, has_converged) *)
Definition fill (w : list bool) (m : num) (a : arr) : arr := map2 (fun (b : bool) x => if b then x else m) w a.
Definition has_converged (norm std : arr) : bool :=
  let chi2_change := ndiv (nsum (map2 (fun n s => nsq (ndiv n s)) norm std)) (Fin (zq (Z.of_nat (length (g_rfwave g))))) in
  let all_pt_test := forallb (fun p : num * num => nltb (nabs (fst p)) (nmul (nlit 33 100) (snd p))) (combine norm std) in
  nltb chi2_change (nlit 1 1000) || all_pt_test.
Definition new_meancont (k : stacker) (c : interp) : res (interp * bool) :=
  let w := map npos (k_rep k) in
  let norm_flux := fill w (nmean (compress w (k_rfp k))) (k_rfp k) in
  let std_flux := fill w (nmul (nlit 10 1) (nmean (compress w (k_rep k)))) (k_rep k) in
  rbind (of_option "UnivariateSpline" (uspline (g_rfwave g) norm_flux (map (fun e => ndiv n1 e) std_flux))) (fun sm =>
  rbind (if residual then zip2 nmul sm (i_fp c) else Ok sm) (fun new0 =>
  rbind (project_normalize xs quad (eff_order g) new0) (fun nm =>
  let '(new, mean) := nm in
  rbind (zip2 (fun a b => nsub (ndiv a b) n1) new (i_fp c)) (fun norm =>
  let std := map (fun e => ndiv e mean) std_flux in
  if negb (Nat.eqb (length norm) (length std)) then Err (OtherExn "ValueError: shapes")
  else Ok (i_reset new std c, has_converged norm std))))).
(** 359-427 update_mean_cont *)
Definition update_mean_cont (l : list specx) (t : fitter) : prog fval (fitter * bool) :=
  pbind (lift FArr farr_of (stack_all nsqrt residual (map fst l) (t_stack t))) (fun k =>
  pbind (of_res (new_meancont k (t_cont t))) (fun cb =>
  Ret (set_tcont (fst cb) (set_tstack k t), snd cb))).

(** 443-451: the arguments of varlss_fitter.add *)
Definition lss_items (l : list spec) : res (list (list Qc * list Qc * list Qc)) :=
  rmap (@concat _) (rseq (map (fun s =>
    rseq (map (fun aw : string * list Qc =>
      rbind (rget (fst aw) (s_cont s)) (fun cont =>
      rbind (rget (fst aw) (ff (s_f s))) (fun fl =>
      rbind (rget (fst aw) (fivar (s_f s))) (fun iv =>
      rbind (zip2 (fun f c => nsub (ndiv f c) n1) fl cont) (fun delta =>
      rbind (zip2 (fun i c => nmul i (nsq c)) iv cont) (fun ivar =>
      rbind (finite_arr delta) (fun d => rbind (finite_arr ivar) (fun v => Ok (snd aw, d, v))))))))) (fw (s_f s))))
    (valid_spectra l))).
(** 429-482 update_var_lss_eta *)
Definition guess (t : fitter) : res (list (list num)) :=
  if g_fit_eta g then zip2 (fun v e => [v; e]) (i_fp (deref t (t_var t))) (i_fp (deref t (t_eta t)))
  else Ok (map (fun v => [v]) (i_fp (deref t (t_var t)))).
Definition store_fit (y ep : list (list num)) (t : fitter) : fitter :=
  let t1 := set_theap (upd (t_var t) (i_reset (column 0 y) (column 0 ep)) (t_heap t)) t in
  if g_fit_eta g then set_theap (upd (t_eta t1) (i_reset (column 1 y) (column 1 ep)) (t_heap t1)) t1 else t1.
Definition update_var_lss_eta (l : list specx) (t : fitter) : prog fval fitter :=
  match t_vfit t with
  | None => Raise (OtherExn "AttributeError")
  | Some v0 =>
      pbind (of_res (rbind (lss_items (map fst l)) (fun items => vfit_add_all items (vfit_reset v0)))) (fun v =>
      pbind (of_res (guess t)) (fun p0 =>
      pbind (lift FVar fvar_of (vfit_fit min_num_pix min_num_qso nsqrt cholesky curve_fit vspline v
                                  (if g_fit_eta g then 2 else 1) p0 true)) (fun r =>
      let '(v', (y, ep)) := r in
      Ret (store_fit y ep (set_tvfit (Some v') t)))))
  end.

(** 484-501 _normalize_flux: cont[arm] *= flux_stacker(wave) for valid spectra *)
Definition scale_cont (k : stacker) (s : spec) : res spec :=
  rmap (fun c => set_cont c s)
  (for_each (fw (s_f s)) (fun aw (c : dict arr) =>
     rbind (rget (fst aw) c) (fun ca =>
     rbind (zip2 nmul ca (map (ev_stack k) (snd aw))) (fun ca' => Ok (dset (fst aw) ca' c)))) (s_cont s)).
Definition on_spec (f : spec -> res spec) (sx : specx) : res specx := rmap (fun s => (s, snd sx)) (f (fst sx)).
Definition on_valid (f : spec -> res spec) (sx : specx) : res specx :=
  if s_valid (fst sx) then on_spec f sx else Ok sx.
Definition normalize_flux (t : fitter) (l : list specx) : res (list specx) :=
  if g_norm g then rseq (map (on_valid (scale_cont (t_stack t))) l) else Ok l.
(** 503-520 _eta_calibate_ivar: forestivar[arm] /= eta(wave) for all spectra (in place, see noise_eta) *)
Definition eta_calibrate (t : fitter) (l : list specx) : res (list specx) :=
  if g_etacal g then rseq (map (on_spec (noise_eta (ev (deref t (t_eta t))))) l) else Ok l.

(** 596-630 save: extensions written on rank 0 only *)
Definition write_ext (rank : nat) (name : string) : res unit :=
  if Nat.eqb rank 0 && g_outdir g && negb (write_ok name) then Err (OtherExn "OSError") else Ok tt.
Definition save (rank : nat) (suff : string) (t : fitter) : res unit :=
  rbind (write_ext rank ("CONT" ++ suff)) (fun _ =>
  rbind (write_ext rank ("STACKED_FLUX" ++ suff)) (fun _ =>
  rbind (write_ext rank ("STACKED_FLUX_RF" ++ suff)) (fun _ =>
  match t_vfit t with None => Ok tt | Some _ => write_ext rank ("VAR_FUNC" ++ suff) end))).

(** 553-570: the iterations; the last component is what update_mean_cont returned in each of them *)
Fixpoint iterations (rank : nat) (n it : nat) (t : fitter) (l : list specx) (log : list bool)
  : prog fval (fitter * list specx * list bool) :=
  match n with
  | O => Ret (t, l, log)
  | S n' =>
      pbind (of_res (save rank (iter_suffix it) t)) (fun _ =>
      pbind (fit_continua t l) (fun l1 =>
      pbind (update_mean_cont l1 t) (fun tb =>
      pbind (match t_vfit (fst tb) with Some _ => update_var_lss_eta l1 (fst tb) | None => Ret (fst tb) end) (fun t2 =>
      let log' := log ++ [snd tb] in
      if snd tb then Ret (t2, l1, log') else iterations rank n' (S it) t2 l1 log'))))
  end.

(** 860-873 construct_interp; 584-594 fit_final_varlss *)
Definition construct_interp (y0 : Qc) (v : vfit) : res interp :=
  rmap (fun w0 => mkInt false w0 (v_dw v) (repeat (Fin y0) (v_nw v)) (repeat n0 (v_nw v))) (rfirst (v_wave v)).
Definition new_vfit (rank : nat) : vfit :=
  vfit_init (g_w1 g) (g_w2 g) (g_nw g) (g_nv g) (g_edges g) None (g_usecov g) rank (g_size g).
Definition fit_final_varlss (rank : nat) (l : list specx) (t : fitter) : prog fval fitter :=
  let v := new_vfit rank in
  pbind (of_res (construct_interp (fq 1 10) v)) (fun iv =>
  pbind (of_res (construct_interp 1 v)) (fun ie =>
  let n := length (t_heap t) in
  pbind (update_var_lss_eta l (set_trefs n (S n) (set_theap (t_heap t ++ [iv; ie]) (set_tvfit (Some v) t)))) (fun t1 =>
  pbind (update_mean_cont l t1) (fun tb => Ret (fst tb))))).

(** 1120-1161 VarLSSFitter.write: the statistics must have been calculated *)
Definition write_vfit (rank : nat) (t : fitter) : res unit :=
  match t_vfit t with
  | None => Err (OtherExn "AttributeError")
  | Some v => match s_mean (v_sub v) with
              | None => Err (OtherExn "TypeError")
              | Some _ => write_ext rank "VAR_STATS"
              end
  end.

(** 522-582 iterate *)
Definition iterate (rank : nat) (t : fitter) (l : list specx) : prog fval (fitter * list specx * list bool) :=
  pbind (of_res (rseq (map init_one l))) (fun l0 =>
  pbind (iterations rank (n_iterations g) 1 t l0 []) (fun r =>
  let '(t1, l1, log) := r in
  pbind (of_res (normalize_flux t1 l1)) (fun l2 =>
  pbind (of_res (eta_calibrate t1 l2)) (fun l3 =>
  pbind (of_res (save rank "" t1)) (fun _ =>
  pbind (match t_vfit t1 with
         | Some _ => Ret t1
         | None => pbind (fit_final_varlss rank l3 t1) (fun t2 => pbind (of_res (save rank "-fit" t2)) (fun _ => Ret t2))
         end) (fun t2 =>
  pbind (of_res (write_vfit rank t2)) (fun _ =>
  Ret (t2, l3, log)))))))).
End Fitter.

(** ** PiccaContinuumFitter.__init__ and mpi_continuum_fitting *)
(** fiducial_meanflux and fiducial_varlss (None: not given; else what reading
    the file gives on rank 0, None if it raises), the var_lss of noise_calibration
    if varlss_as_additive_noise (same), coadd_arms == "after"; whether the rows of
    the chi2 catalog can be filled and the file be written *)
Record fitopts := mkOpts {
  o_meanflux : option (option interp); o_varlss : option (option interp);
  o_additive : option (option interp); o_coadd_after : bool;
  o_rows : list specx -> bool; o_catalog : bool }.

(** 161-198 _get_fiducial_interp; calibration.py 60-106 *)
Definition read_interp (rank : nat) (msg : string) (file : option interp) : prog fval interp :=
  lift FInt fint_of (mpi_fnc_bcast true rank msg (of_option "file" file)).

(** 200-216 _set_meanflux_varlss_interps, 246-282 __init__ (the options are
    those of g; rfwave and dwrf are the bin centres and the bin width computed in
    262-267): meanflux_interp and the fitter *)
Definition ones_like (i : interp) : interp :=
  mkInt false (i_x0 i) (i_dx i) (map (fun _ => n1) (i_fp i)) (map (fun _ => n0) (i_fp i)).
Definition fitter_init (g : config) (rank : nat) (o : fitopts) : prog fval (interp * fitter) :=
  pbind (of_res (rfirst (g_rfwave g))) (fun rf0 =>
  let nb := length (g_rfwave g) in
  let cont := mkInt false rf0 (g_dwrf g) (repeat n1 nb) (repeat n0 nb) in
  pbind (of_res (stacker_init (g_w1 g) (g_w2 g) (zq 8) (g_rfwave g) (g_dwrf g))) (fun k =>
  pbind (match o_meanflux o with
         | Some file => read_interp rank "Failed to construct fiducial mean flux or varlss." file
         | None => Ret (mkInt true (g_w1 g) (g_w2 g - g_w1 g) (repeat n1 3) [])
         end) (fun mf =>
  pbind (match o_varlss o with
         | Some file => pbind (read_interp rank "Failed to construct fiducial mean flux or varlss." file)
                              (fun i => Ret (None, i))
         | None => let v := new_vfit g rank in
                   pbind (of_res (construct_interp (fq 1 10) v)) (fun i => Ret (Some v, i))
         end) (fun vi =>
  Ret (mf, mkFitter cont [snd vi; ones_like (snd vi)] 0 1 0 1 (fst vi) k))))).

Section Fitting.
Variable g : config.
Variable ev : interp -> Qc -> num.
Variable ev_stack : stacker -> Qc -> num.
Variable slope : Qc -> num.
Variable minimizer : interp -> interp -> interp -> interp -> spec -> num -> option minres.
Variable input_cont : spec -> option (Qc -> num).
Variable true_cont : spec -> Qc -> num.
Variable nsqrt : num -> num.
Variable uspline : list Qc -> list num -> list num -> option (list num).
Variable xs : list Qc.
Variable quad : list Qc -> Qc.
Variables (min_num_pix min_num_qso : nat) (cholesky : list (list Qc) -> bool)
  (curve_fit : list Qc -> list Qc -> list num -> errors -> option (list num * list num))
  (vspline : list Qc -> list num -> list num -> option (list num)).
Variable write_ok : string -> bool.
Variable iter_suffix : nat -> string.
Variable smooth : arr -> Qc -> arr.
Variable junk : nat -> num.
Variable dwave : Qc.

(** scripts/qsonic_fit.py 331-341: additive noise for the valid spectra, then smoothed ivar and weights *)
Definition add_noise (vl : interp) (t : fitter) (l : list spec) : res (list spec) :=
  rbind (noise_calibrate (fun _ => n1) (Some (ev vl)) l) (fun l1 =>
  rseq (map (fun s => set_forest_weight (ev (deref t (t_var t))) (ev (deref t (t_eta t)))
                        (set_smooth_forestivar smooth dwave (s_sscale s) s)) l1)).
(** 343-347 *)
Definition coadd_after (t : fitter) (l : list spec) : res (list spec) :=
  rseq (map (fun s => rbind (coadd_arms_forest nsqrt smooth junk dwave (ev (deref t (t_var t))) (ev (deref t (t_eta t))) s)
                            calc_continuum_chi2) l).
(** picca_continuum.py 632-681 save_contchi2_catalog: comm.gather is a
    collective; only rank 0 uses what it returns *)
Definition save_catalog (rank : nat) (o : fitopts) (l : list specx) : prog fval unit :=
  if g_outdir g then
    if o_rows o l
    then Allreduce (fun a _ => a) FUnit (fun _ =>
         if Nat.eqb rank 0 && negb (o_catalog o) then Raise (OtherExn "OSError") else Ret tt)
    else Raise (OtherExn "ValueError")
  else Ret tt.
(** scripts/qsonic_fit.py 315-356 mpi_continuum_fitting; l: the local spectra.
    (The catalog is filled with the spectra of before the last steps here; it
    is output only.) *)
Definition continuum_fitting (rank : nat) (o : fitopts) (l : list specx) : prog fval (fitter * list spec * list bool) :=
  pbind (fitter_init g rank o) (fun mt =>
  pbind (iterate g ev ev_stack (ev (fst mt)) slope (minimizer (fst mt)) input_cont true_cont nsqrt uspline xs quad
           min_num_pix min_num_qso cholesky curve_fit vspline write_ok iter_suffix rank (snd mt) l) (fun r =>
  let '(t, l1, log) := r in
  let valid := valid_spectra (map fst l1) in
  pbind (match o_additive o with
         | Some file =>
             pbind (read_interp rank "Error loading NoiseCalibrator from file" file) (fun vl => of_res (add_noise vl t valid))
         | None => Ret valid
         end) (fun v1 =>
  pbind (if o_coadd_after o then of_res (coadd_after t v1) else Ret v1) (fun v2 =>
  pbind (save_catalog rank o l1) (fun _ =>
  Ret (t, v2, log)))))).
End Fitting.
