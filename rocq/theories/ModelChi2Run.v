(** Model of mpi_continuum_fitting (py/qsonic/scripts/qsonic_fit.py 315-356) with the chi2
    catalog it writes (py/qsonic/picca_continuum.py 632-681).

    The program is that of ModelFitter.continuum_fitting, where the catalog is only an access
    that may fail; here it is that of ModelChi2.v. *)
From Coq Require Import ZArith String List Bool Arith Qcanon.
From Verif Require Import Num NpList Exn Dict Mpi ModelSpectrum ModelContinuum ModelStack ModelSubsample ModelVarFit ModelFitter ModelChi2.
Import ListNotations.
Local Open Scope nat_scope.

(** picca_continuum_model.py 270-271, input_continuum_model.py 224, true_continuum_model.py 65:
    cont_params['dof'], which is set by init_spectra and never again *)
Definition dof_of (g : config) (s : spec) : Z :=
  (Z.of_nat (get_real_size s) - match g_model g with Picca => Z.of_nat (g_order g) + 1 | _ => 0 end)%Z.

(** qsonic_fit.py 327: valid_spectra holds the objects of spectra_list, so what is done to them
    is seen in spectra_list.  l: spectra_list after iterate, v: valid_spectra at the end. *)
Fixpoint merge (l : list specx) (v : list spec) : list specx :=
  match l with
  | [] => []
  | (s, c) :: r =>
      if s_valid s then match v with [] => (s, c) :: merge r [] | s' :: v' => (s', c) :: merge r v' end
      else (s, c) :: merge r v
  end.
(** l0: spectra_list before the fit *)
Definition entries (g : config) (l0 l : list specx) (v : list spec) : list entry :=
  map2 (fun s0 sx : specx => mkEntry (fst sx) (snd sx) (dof_of g (fst s0))) l0 (merge l v).

(** values exchanged between the ranks: those of the fit and the parts of the catalog *)
Definition cval := (fval + list chi2row)%type.
Definition fval_of (v : cval) : fval := match v with inl x => x | inr _ => FUnit end.
Definition rows_of (v : cval) : list chi2row := match v with inl _ => [] | inr x => x end.

Section Fitting.
Variable g : config.
Variable ev : interp -> Qc -> num.
Variable ev_stack : stacker -> Qc -> num.
Variable slope : Qc -> num.
Variable minimizer : interp -> interp -> interp -> interp -> spec -> num -> option minres.
Variable input_cont : spec -> option (Qc -> num).
Variable true_cont : spec -> Qc -> num.
Variable nsqrt : num -> num.
Variable uspline : list Qc -> list num -> list num -> option (list num).
Variable xs : list Qc.
Variable quad : list Qc -> Qc.
Variables (min_num_pix min_num_qso : nat) (cholesky : list (list Qc) -> bool)
  (curve_fit : list Qc -> list Qc -> list num -> errors -> option (list num * list num))
  (vspline : list Qc -> list num -> list num -> option (list num)).
Variable write_ok : string -> bool.
Variable iter_suffix : nat -> string.
Variable smooth : arr -> Qc -> arr.
Variable junk : nat -> num.
Variable dwave : Qc.

(** 319-347: the fitter, all spectra after iterate, the valid spectra at the end, the log *)
Definition fit_steps (rank : nat) (o : fitopts) (l : list specx) : prog fval (fitter * list specx * list spec * list bool) :=
  pbind (fitter_init g rank o) (fun mt =>
  pbind (iterate g ev ev_stack (ev (fst mt)) slope (minimizer (fst mt)) input_cont true_cont nsqrt uspline xs quad
           min_num_pix min_num_qso cholesky curve_fit vspline write_ok iter_suffix rank (snd mt) l) (fun r =>
  let '(t, l1, log) := r in
  let valid := valid_spectra (map fst l1) in
  pbind (match o_additive o with
         | Some file =>
             pbind (read_interp rank "Error loading NoiseCalibrator from file" file) (fun vl => of_res (add_noise ev smooth dwave vl t valid))
         | None => Ret valid
         end) (fun v1 =>
  pbind (if o_coadd_after o then of_res (coadd_after ev nsqrt smooth junk dwave t v1) else Ret v1) (fun v2 =>
  Ret (t, l1, v2, log))))).

(** 315-356 mpi_continuum_fitting; 647: corder = cont_order + 1 parameters.  The result has
    the rows of the catalog, on rank 0 if there is an output directory. *)
Definition continuum_fitting_c (rank : nat) (o : fitopts) (l : list specx) : prog cval (fitter * list spec * list bool * option (list chi2row)) :=
  pbind (lift inl fval_of (fit_steps rank o l)) (fun x =>
  let '(t, l1, v, log) := x in
  pbind (lift inr rows_of (save_contchi2_catalog (g_outdir g) (o_catalog o) (S (eff_order g)) rank (entries g l l1 v))) (fun rows =>
  Ret (t, v, log, rows))).
End Fitting.
