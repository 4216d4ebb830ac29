(** C68: attributes.fits records what went into each iteration. *)
From Coq Require Import QArith_base ZArith String List Bool Arith Lia Qcanon.
From Verif Require Import Num NpList Exn Dict Mpi ModelSpectrum ModelContinuum ModelStack ModelSubsample ModelVarFit ModelFitter ModelAttributes
  SpecFinal SpecAttributes PropFitter ProofAttributes.
Import ListNotations.
Local Open Scope nat_scope.

(** The program with the file and with the record of the tables given to the continuum fits is the
    program of the other properties. *)
Theorem C68_same_program g ev ev_stack meanflux slope minimizer input_cont true_cont nsqrt uspline xs quad
    min_num_pix min_num_qso cholesky curve_fit vspline write_ok n t (l : nat -> list specx) :
  spmd n (fun r => iterate g ev ev_stack meanflux slope minimizer input_cont true_cont nsqrt uspline xs quad
      min_num_pix min_num_qso cholesky curve_fit vspline write_ok suffix_of r (t r) (l r)) =
  forget (spmd n (fun r => iterate_a g ev ev_stack meanflux slope minimizer input_cont true_cont nsqrt uspline xs quad
      min_num_pix min_num_qso cholesky curve_fit vspline write_ok r (t r) (l r))).
Proof. exact (same_program_thm g ev ev_stack meanflux slope minimizer input_cont true_cont nsqrt uspline xs quad
    min_num_pix min_num_qso cholesky curve_fit vspline write_ok n t l). Qed.
Print Assumptions C68_same_program.
(** What is recorded determines the fits: the fit of a spectrum depends on the fitter through the mean
    continuum and the two variance functions only. *)
Theorem C68_fit_inputs g ev meanflux slope minimizer input_cont true_cont t t' sx :
  t_cont t = t_cont t' -> deref t (t_mvar t) = deref t' (t_mvar t') -> deref t (t_meta t) = deref t' (t_meta t') ->
  fit_one g ev meanflux slope minimizer input_cont true_cont t sx = fit_one g ev meanflux slope minimizer input_cont true_cont t' sx.
Proof. exact (fit_inputs_thm g ev meanflux slope minimizer input_cont true_cont t t' sx). Qed.
Print Assumptions C68_fit_inputs.

(** The extensions of the file, for all local spectra, options and results of the numerical routines:
    only rank 0 writes, only if there is an output directory; one set per iteration that was run,
    one without number, VAR_STATS. *)
Theorem C68_names g ev ev_stack meanflux slope minimizer input_cont true_cont nsqrt uspline xs quad
    min_num_pix min_num_qso cholesky curve_fit vspline write_ok n t (l : nat -> list specx) f fitting :
  (forall r, r < n -> shared (t r) /\ is_some (t_vfit (t r)) = fitting) ->
  finishes n (fun r => iterate_a g ev ev_stack meanflux slope minimizer input_cont true_cont nsqrt uspline xs quad
      min_num_pix min_num_qso cholesky curve_fit vspline write_ok r (t r) (l r)) f ->
  forall r, r < n -> let '(_, _, log, (_, file)) := f r in
    map x_name file = if Nat.eqb r 0 && g_outdir g then attribute_names fitting (length log) else [].
Proof. exact (names_thm g ev ev_stack meanflux slope minimizer input_cont true_cont nsqrt uspline xs quad
    min_num_pix min_num_qso cholesky curve_fit vspline write_ok n t l f fitting). Qed.
Print Assumptions C68_names.
Theorem C68_distinct fitting k : NoDup (attribute_names fitting k).
Proof. exact (distinct_thm fitting k). Qed.
Print Assumptions C68_distinct.

(** The extensions with number i + 1 hold the tables that the continuum fits of iteration i + 1 used. *)
Theorem C68_used g ev ev_stack meanflux slope minimizer input_cont true_cont nsqrt uspline xs quad
    min_num_pix min_num_qso cholesky curve_fit vspline write_ok n t (l : nat -> list specx) f fitting : 0 < n -> g_outdir g = true ->
  (forall r, r < n -> shared (t r) /\ is_some (t_vfit (t r)) = fitting) ->
  finishes n (fun r => iterate_a g ev ev_stack meanflux slope minimizer input_cont true_cont nsqrt uspline xs quad
      min_num_pix min_num_qso cholesky curve_fit vspline write_ok r (t r) (l r)) f ->
  let '(_, _, log, (u, file)) := f 0 in length u = length log /\
  forall i c v e, nth_error u i = Some (c, v, e) ->
    column_of file ("CONT" ++ suffix_of (S i)) "mean_cont" = Some (i_fp c) /\
    (fitting = true -> column_of file ("VAR_FUNC" ++ suffix_of (S i)) "var_lss" = Some (i_fp v) /\
                       column_of file ("VAR_FUNC" ++ suffix_of (S i)) "eta" = Some (i_fp e)).
Proof. exact (used_thm g ev ev_stack meanflux slope minimizer input_cont true_cont nsqrt uspline xs quad
    min_num_pix min_num_qso cholesky curve_fit vspline write_ok n t l f fitting). Qed.
Print Assumptions C68_used.
(** With fitted variance functions the second to last CONT and VAR_FUNC extensions are what went into the
    last fits (docs/howitworks.rst). *)
Theorem C68_second_to_last_partial g ev ev_stack meanflux slope minimizer input_cont true_cont nsqrt uspline xs quad
    min_num_pix min_num_qso cholesky curve_fit vspline write_ok n t (l : nat -> list specx) f : 0 < n -> g_outdir g = true ->
  (forall r, r < n -> shared (t r) /\ is_some (t_vfit (t r)) = true) ->
  finishes n (fun r => iterate_a g ev ev_stack meanflux slope minimizer input_cont true_cont nsqrt uspline xs quad
      min_num_pix min_num_qso cholesky curve_fit vspline write_ok r (t r) (l r)) f ->
  let '(_, _, _, (u, file)) := f 0 in
  forall c v e, nth_error (rev u) 0 = Some (c, v, e) ->
    (exists x, nth_error (rev (exts_of "CONT" file)) 1 = Some x /\ dget "mean_cont" (x_cols x) = Some (i_fp c)) /\
    (exists x, nth_error (rev (exts_of "VAR_FUNC" file)) 1 = Some x /\ dget "var_lss" (x_cols x) = Some (i_fp v) /\ dget "eta" (x_cols x) = Some (i_fp e)).
Proof. exact (second_thm g ev ev_stack meanflux slope minimizer input_cont true_cont nsqrt uspline xs quad
    min_num_pix min_num_qso cholesky curve_fit vspline write_ok n t l f). Qed.
Print Assumptions C68_second_to_last_partial.
(** The last set holds the tables of the fitter at the end. *)
Theorem C68_final g ev ev_stack meanflux slope minimizer input_cont true_cont nsqrt uspline xs quad
    min_num_pix min_num_qso cholesky curve_fit vspline write_ok n t (l : nat -> list specx) f fitting : 0 < n -> g_outdir g = true ->
  (forall r, r < n -> shared (t r) /\ is_some (t_vfit (t r)) = fitting) ->
  finishes n (fun r => iterate_a g ev ev_stack meanflux slope minimizer input_cont true_cont nsqrt uspline xs quad
      min_num_pix min_num_qso cholesky curve_fit vspline write_ok r (t r) (l r)) f ->
  let '(t', _, _, (_, file)) := f 0 in
  if fitting
  then column_of file "CONT" "mean_cont" = Some (i_fp (t_cont t')) /\ column_of file "STACKED_FLUX" "stacked_flux" = Some (k_fp (t_stack t')) /\
       column_of file "VAR_FUNC" "var_lss" = Some (i_fp (deref t' (t_var t'))) /\ column_of file "VAR_FUNC" "eta" = Some (i_fp (deref t' (t_eta t')))
  else column_of file "CONT-fit" "mean_cont" = Some (i_fp (t_cont t')) /\ column_of file "STACKED_FLUX-fit" "stacked_flux" = Some (k_fp (t_stack t')) /\
       column_of file "VAR_FUNC-fit" "var_lss" = Some (i_fp (deref t' (t_var t'))) /\ column_of file "VAR_FUNC-fit" "eta" = Some (i_fp (deref t' (t_eta t'))).
Proof. exact (final_thm g ev ev_stack meanflux slope minimizer input_cont true_cont nsqrt uspline xs quad
    min_num_pix min_num_qso cholesky curve_fit vspline write_ok n t l f fitting). Qed.
Print Assumptions C68_final.
(** With a fiducial var_lss there is no extension VAR_FUNC, the one --noise-calibration reads. *)
Theorem C68_no_var_func g ev ev_stack meanflux slope minimizer input_cont true_cont nsqrt uspline xs quad
    min_num_pix min_num_qso cholesky curve_fit vspline write_ok n t (l : nat -> list specx) f :
  (forall r, r < n -> shared (t r) /\ t_vfit (t r) = None) ->
  finishes n (fun r => iterate_a g ev ev_stack meanflux slope minimizer input_cont true_cont nsqrt uspline xs quad
      min_num_pix min_num_qso cholesky curve_fit vspline write_ok r (t r) (l r)) f ->
  forall r, r < n -> let '(_, _, _, (_, file)) := f r in forall col, column_of file "VAR_FUNC" col = None.
Proof. exact (no_var_func_thm g ev ev_stack meanflux slope minimizer input_cont true_cont nsqrt uspline xs quad
    min_num_pix min_num_qso cholesky curve_fit vspline write_ok n t l f). Qed.
Print Assumptions C68_no_var_func.

(** The fitter that PiccaContinuumFitter constructs: the continuum model sees the fitter's tables; the
    mean continuum is one, var_lss (without a fiducial) 0.1 and eta one in each bin. *)
Theorem C68_start g n o f : finishes n (fun r => fitter_init g r o) f -> forall r, r < n -> let t := snd (f r) in
  shared t /\ (t_vfit t = None <-> o_varlss o <> None) /\ i_fp (t_cont t) = repeat n1 (length (g_rfwave g)) /\
  (o_varlss o = None -> i_fp (deref t (t_var t)) = repeat (Fin (fq 1 10)) (g_nw g)) /\ (forall x, In x (i_fp (deref t (t_eta t))) -> x = n1).
Proof. exact (start_all g n o f). Qed.
Print Assumptions C68_start.

(** Two ranks, two iterations without convergence. *)
Definition ex_ga : config :=
  mkConf Picca 0 2 false false false true (zq 3600) (zq 3640) 1 5 (map zq [1; 2; 3; 4; 5; 6]%Z) false 2
    (centers (zq 1200) (zq 1202) 2) 1.
Definition ex_iterate_a (o : fitopts) (r : nat) : prog fval (fitter * list specx * list bool * attrs) :=
  pbind (fitter_init ex_ga r o) (fun mt =>
  iterate_a ex_ga ex_ev (fun _ _ => n1) (ex_ev (fst mt)) (fun _ => n0)
    (fun _ _ _ _ _ => Some (mkMin true [Fin (zq 2)] [[n1]])) (fun _ => None) (fun _ _ => n1) (fun _ => Fin (zq 1000))
    (fun _ y _ => Some y) [0; 1]%Qc ex_simpson 0 0 (fun _ => true) (fun _ _ _ _ => Some ([Fin (fq 1 5)], [n1])) (fun _ y _ => Some y)
    (fun _ => true) r (snd mt) [ex_specx]).
Definition ex_run (o : fitopts) (r : nat) : fitter * list specx * list bool * attrs :=
  match spmd 2 (ex_iterate_a o) with
  | Done l => match nth r l (Failed SysExit) with Finished x => x | Failed _ => (ex_t0, [], [], ([], [])) end
  | _ => (ex_t0, [], [], ([], []))
  end.
Definition both_finished_a (o : outcome (fitter * list specx * list bool * attrs)) : bool :=
  match o with Done [Finished _; Finished _] => true | _ => false end.
Lemma both_finishes_a o : both_finished_a (spmd 2 (ex_iterate_a o)) = true -> finishes 2 (ex_iterate_a o) (ex_run o).
Proof. unfold finishes, ex_run. destruct (spmd 2 (ex_iterate_a o)) as [[|[x|e] [|[y|e'] [|? ?]]]| |]; try discriminate. reflexivity. Qed.
Definition no_fid : fitopts := ex_o None None false.
Definition with_fid : fitopts := ex_o (Some (Some ex_fid)) None false.
(** the mean continua of the fits and of the CONT extensions *)
Definition conts_used (x : fitter * list specx * list bool * attrs) : list (list (option Q)) := map (fun u => map sh (i_fp (fst (fst u)))) (fst (snd x)).
Definition conts_file (x : fitter * list specx * list bool * attrs) : list (string * option (list (option Q))) :=
  map (fun e => (x_name e, option_map (map sh) (dget "mean_cont" (x_cols e)))) (exts_of "CONT" (snd (snd x))).
Example C68_ex :
  finishes 2 (ex_iterate_a no_fid) (ex_run no_fid) /\ snd (fst (ex_run no_fid 0)) = [false; false] /\
  map x_name (snd (snd (ex_run no_fid 0))) =
    ["CONT-1"; "STACKED_FLUX-1"; "STACKED_FLUX_RF-1"; "VAR_FUNC-1"; "CONT-2"; "STACKED_FLUX-2"; "STACKED_FLUX_RF-2"; "VAR_FUNC-2";
     "CONT"; "STACKED_FLUX"; "STACKED_FLUX_RF"; "VAR_FUNC"; "VAR_STATS"]%string /\
  snd (snd (ex_run no_fid 1)) = [] /\
  conts_used (ex_run no_fid 0) = [[Some (1 # 1); Some (1 # 1)]; [Some (3034 # 5245); Some (7456 # 5245)]]%Q /\
  firstn 2 (conts_file (ex_run no_fid 0)) =
    [("CONT-1"%string, Some [Some (1 # 1); Some (1 # 1)]%Q); ("CONT-2"%string, Some [Some (3034 # 5245); Some (7456 # 5245)]%Q)].
Proof. split; [apply both_finishes_a; lazy; reflexivity|]. repeat split; lazy; reflexivity. Qed.

Lemma fid_witness : exists f c v e x,
  finishes 2 (ex_iterate_a with_fid) f /\
  nth_error (rev (fst (snd (f 0)))) 0 = Some (c, v, e) /\ nth_error (rev (exts_of "CONT" (snd (snd (f 0))))) 1 = Some x /\
  dget "mean_cont" (x_cols x) <> Some (i_fp c).
Proof.
  exists (ex_run with_fid).
  destruct (nth_error (rev (fst (snd (ex_run with_fid 0)))) 0) as [[[c v] e]|] eqn:E.
  2: { exfalso. assert (K : match nth_error (rev (fst (snd (ex_run with_fid 0)))) 0 with None => false | Some _ => true end = true) by (lazy; reflexivity). rewrite E in K. discriminate K. }
  destruct (nth_error (rev (exts_of "CONT" (snd (snd (ex_run with_fid 0))))) 1) as [x|] eqn:X.
  2: { exfalso. assert (K : match nth_error (rev (exts_of "CONT" (snd (snd (ex_run with_fid 0))))) 1 with None => false | Some _ => true end = true) by (lazy; reflexivity).
       rewrite X in K. discriminate K. }
  exists c, v, e, x. split; [apply both_finishes_a; lazy; reflexivity|]. split; [reflexivity|]. split; [reflexivity|]. intro H.
  assert (K : option_map (fun u => map sh (i_fp (fst (fst u)))) (nth_error (rev (fst (snd (ex_run with_fid 0)))) 0) = Some [Some (3034 # 5245); Some (7456 # 5245)]%Q) by (lazy; reflexivity).
  assert (K' : option_map (fun x => option_map (@hd_error _) (option_map (map sh) (dget "mean_cont" (x_cols x)))) (nth_error (rev (exts_of "CONT" (snd (snd (ex_run with_fid 0))))) 1) =
    Some (Some (Some (Some (2022263769441437257658 # 6920987839850895961853)%Q)))) by (lazy; reflexivity).
  rewrite E in K. rewrite X in K'. cbn [option_map fst] in K, K'. rewrite H in K'. cbn [option_map] in K'.
  injection K as K. rewrite K in K'. discriminate K'.
Qed.
(** With a fiducial var_lss it is not: the sets end with one without number and one with the suffix -fit. *)
Theorem C68_second_to_last_refuted : exists f c v e x,
  finishes 2 (ex_iterate_a with_fid) f /\
  nth_error (rev (fst (snd (f 0)))) 0 = Some (c, v, e) /\ nth_error (rev (exts_of "CONT" (snd (snd (f 0))))) 1 = Some x /\
  dget "mean_cont" (x_cols x) <> Some (i_fp c).
Proof. exact fid_witness. Qed.
Print Assumptions C68_second_to_last_refuted.
