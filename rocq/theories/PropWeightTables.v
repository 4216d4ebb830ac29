(** C74: the weights can be computed from attributes.fits. *)
From Coq Require Import QArith_base ZArith String List Bool Arith Lia Qcanon.
From Verif Require Import Num NpList Exn Dict Mpi ModelSpectrum ModelContinuum ModelStack ModelSubsample ModelVarFit ModelFitter ModelAttributes
  SpecSpectrum SpecFinal SpecAttributes PropFitter ProofWeightTables2.
Import ListNotations.
Local Open Scope nat_scope.

(** mpi_continuum_fitting with the file is the program of the other properties. *)
Theorem C74_same_program g ev ev_stack slope minimizer input_cont true_cont nsqrt uspline xs quad
    min_num_pix min_num_qso cholesky curve_fit vspline write_ok smooth junk dwave n o (l : nat -> list specx) :
  spmd n (fun r => continuum_fitting g ev ev_stack slope minimizer input_cont true_cont nsqrt uspline xs quad
      min_num_pix min_num_qso cholesky curve_fit vspline write_ok suffix_of smooth junk dwave r o (l r)) =
  forget (spmd n (fun r => continuum_fitting_a g ev ev_stack slope minimizer input_cont true_cont nsqrt uspline xs quad
      min_num_pix min_num_qso cholesky curve_fit vspline write_ok smooth junk dwave r o (l r))).
Proof. exact (same_fitting_thm g ev ev_stack slope minimizer input_cont true_cont nsqrt uspline xs quad
    min_num_pix min_num_qso cholesky curve_fit vspline write_ok smooth junk dwave n o l). Qed.
Print Assumptions C74_same_program.

(** Weights that are left from the last fits (fitted var_lss; no rescaling afterwards): the second to
    last extension VAR_FUNC of the file holds the tables of var_lss and eta on its wavelengths such that
    WEIGHT = 1/(eta/IVAR + var_lss) for the spectra of all ranks.  With the true continuum eta = 1. *)
Theorem C74_last_fits g ev ev_stack slope minimizer input_cont true_cont nsqrt uspline xs quad
    min_num_pix min_num_qso cholesky curve_fit vspline write_ok smooth junk dwave n o (l : nat -> list specx) f :
  1 <= n -> n_iterations g <> 0 -> g_outdir g = true ->
  (forall r, r < n -> Forall (fun sx => plain_forest (fst sx)) (l r)) ->
  o_varlss o = None -> o_additive o = None -> o_coadd_after o = false -> g_norm g = false -> g_etacal g = false ->
  finishes n (fun r => continuum_fitting_a g ev ev_stack slope minimizer input_cont true_cont nsqrt uspline xs quad
      min_num_pix min_num_qso cholesky curve_fit vspline write_ok smooth junk dwave r o (l r)) f ->
  exists x v e, nth_error (rev (exts_of "VAR_FUNC" (snd (snd (f 0))))) 1 = Some x /\ table_in x "var_lss" v /\ table_in x "eta" e /\
    let eta := match g_model g with TrueCont => fun _ => n1 | _ => ev e end in
    forall r s, r < n -> In s (snd (fst (fst (f r)))) -> (s_sscale s <= 0)%Qc -> file_weights (ev v) eta s /\ weights_explained (ev v) eta s.
Proof. exact (last_fits_thm g ev ev_stack slope minimizer input_cont true_cont nsqrt uspline xs quad
    min_num_pix min_num_qso cholesky curve_fit vspline write_ok smooth junk dwave n o l f). Qed.
Print Assumptions C74_last_fits.

(** Weights that are computed again after the fits (coadding "after", additive noise; also with a
    fiducial var_lss): it is the last extension VAR_FUNC. *)
Theorem C74_recomputed g ev ev_stack slope minimizer input_cont true_cont nsqrt uspline xs quad
    min_num_pix min_num_qso cholesky curve_fit vspline write_ok smooth junk dwave n o (l : nat -> list specx) f :
  1 <= n -> n_iterations g <> 0 -> g_outdir g = true ->
  (forall r, r < n -> Forall (fun sx => plain_forest (fst sx)) (l r)) ->
  o_additive o <> None \/ o_coadd_after o = true ->
  finishes n (fun r => continuum_fitting_a g ev ev_stack slope minimizer input_cont true_cont nsqrt uspline xs quad
      min_num_pix min_num_qso cholesky curve_fit vspline write_ok smooth junk dwave r o (l r)) f ->
  exists x v e, nth_error (rev (exts_of "VAR_FUNC" (snd (snd (f 0))))) 0 = Some x /\ table_in x "var_lss" v /\ table_in x "eta" e /\
    forall r s, r < n -> In s (snd (fst (fst (f r)))) -> (s_sscale s <= 0)%Qc -> file_weights (ev v) (ev e) s /\ weights_explained (ev v) (ev e) s.
Proof. exact (recomputed_thm g ev ev_stack slope minimizer input_cont true_cont nsqrt uspline xs quad
    min_num_pix min_num_qso cholesky curve_fit vspline write_ok smooth junk dwave n o l f). Qed.
Print Assumptions C74_recomputed.

(** Two ranks, one iteration; var_lss and eta go from 1/10 and 1 to 1/5 and 2.  The weight of a pixel with
    ivar 1 and continuum 2 is 1/(1 + 4/10) = 5/7 after the fits and 1/(2 + 4/5) = 5/14 with coadding "after". *)
Definition tab_g : config :=
  mkConf Picca 0 1 true false false true (zq 3600) (zq 3640) 1 5 (map zq [1; 2; 3; 4; 5; 6]%Z) false 2
    (centers (zq 1200) (zq 1202) 2) 1.
Definition tab_fitting (o : fitopts) (r : nat) : prog fval (fitter * list spec * list bool * attrs) :=
  continuum_fitting_a tab_g ex_ev (fun _ _ => Fin (zq 2)) (fun _ => n0)
    (fun _ _ _ _ _ _ => Some (mkMin true [Fin (zq 2)] [[n1]])) (fun _ => None) (fun _ _ => n1) (fun _ => Fin (fq 1 100))
    (fun _ y _ => Some y) [0; 1]%Qc ex_simpson 0 0 (fun _ => true) (fun _ _ _ _ => Some ([Fin (fq 1 5); Fin (zq 2)], [Fin (fq 1 5); Fin (zq 2)]))
    (fun _ y _ => Some y) (fun _ => true) (fun a _ => a) (fun _ => n0) 1%Qc r o [ex_specx].
Definition tab_run (o : fitopts) (r : nat) : fitter * list spec * list bool * attrs :=
  match spmd 2 (tab_fitting o) with
  | Done l => match nth r l (Failed SysExit) with Finished x => x | Failed _ => (ex_t0, [], [], ([], [])) end
  | _ => (ex_t0, [], [], ([], []))
  end.
Lemma tab_finishes o : match spmd 2 (tab_fitting o) with Done [Finished _; Finished _] => true | _ => false end = true -> finishes 2 (tab_fitting o) (tab_run o).
Proof. unfold finishes, tab_run. destruct (spmd 2 (tab_fitting o)) as [[|[x|e] [|[y|e'] [|? ?]]]| |]; try discriminate. reflexivity. Qed.
Definition tab_tables (x : fitter * list spec * list bool * attrs) :=
  map (fun e => (x_name e, map (fun w : Qc => this w) (x_wave e), option_map (map sh) (dget "var_lss" (x_cols e)), option_map (map sh) (dget "eta" (x_cols e))))
      (exts_of "VAR_FUNC" (snd (snd x))).
Definition tab_pix (x : fitter * list spec * list bool * attrs) arm := map (fun s => pix3 s arm 0) (snd (fst (fst x))).
Example C74_ex :
  finishes 2 (tab_fitting (ex_o None None false)) (tab_run (ex_o None None false)) /\
  tab_tables (tab_run (ex_o None None false) 0) =
    [("VAR_FUNC-1"%string, [3620 # 1]%Q, Some [Some (1 # 10)]%Q, Some [Some (1 # 1)]%Q);
     ("VAR_FUNC"%string, [3620 # 1]%Q, Some [Some (1 # 5)]%Q, Some [Some (2 # 1)]%Q)] /\
  tab_pix (tab_run (ex_o None None false) 1) "b" = [qs (1 # 1) (2 # 1) (5 # 7)] /\
  Forall (fun sx => plain_forest (fst sx)) [ex_specx].
Proof.
  split; [apply tab_finishes; lazy; reflexivity|]. split; [lazy; reflexivity|]. split; [lazy; reflexivity|]. constructor; [apply ex_plain|constructor].
Qed.
Example C74_recomputed_ex :
  finishes 2 (tab_fitting (ex_o None None true)) (tab_run (ex_o None None true)) /\
  option_map x_name (nth_error (rev (exts_of "VAR_FUNC" (snd (snd (tab_run (ex_o None None true) 0))))) 0) = Some "VAR_FUNC"%string /\
  tab_pix (tab_run (ex_o None None true) 1) "brz" = [qs (1 # 1) (2 # 1) (5 # 14)].
Proof. split; [apply tab_finishes; lazy; reflexivity|]. split; lazy; reflexivity. Qed.
(** with a fiducial var_lss of 1/10 the weights of the fits are computed again with the tables of VAR_FUNC-fit *)
Example C74_fiducial_ex :
  finishes 2 (tab_fitting (ex_o (Some (Some ex_fid)) None true)) (tab_run (ex_o (Some (Some ex_fid)) None true)) /\
  tab_tables (tab_run (ex_o (Some (Some ex_fid)) None true) 0) =
    [("VAR_FUNC-fit"%string, [3620 # 1]%Q, Some [Some (1 # 5)]%Q, Some [Some (2 # 1)]%Q)] /\
  tab_pix (tab_run (ex_o (Some (Some ex_fid)) None true) 1) "brz" = [qs (1 # 1) (2 # 1) (5 # 14)].
Proof. split; [apply tab_finishes; lazy; reflexivity|]. split; lazy; reflexivity. Qed.
