(** C76: the continuum can be computed from attributes.fits and the chi2 catalog. *)
From Coq Require Import QArith_base ZArith String List Bool Arith Lia Qcanon.
From Verif Require Import Num NpList Exn Dict Mpi ModelSpectrum ModelContinuum ModelStack ModelSubsample ModelVarFit ModelFitter ModelAttributes ModelChi2 ModelChi2Run
  SpecSpectrum SpecContinuum SpecFinal SpecAttributes SpecMpi SpecChi2Run SpecContTables PropFitter PropWeightTables PropChi2Run ProofContTables2.
Import ListNotations.
Local Open Scope nat_scope.

(** continuum_fitting_a and continuum_fitting_c are the same program (C74_same_program, C75_same_program) with the
    file attributes.fits and with the catalog.  For the quasars of all ranks whose deltas are written, the continuum is
    mean_cont of the extension CONT-k of the last iteration k, at the rest-frame wavelength, times the polynomial with
    the coefficients CONT_x of the row of the catalog, times the mean flux; with flux normalisation also times
    stacked_flux of the extension STACKED_FLUX. *)
Theorem C76_continuum g ev ev_stack slope minimizer input_cont true_cont nsqrt uspline xs quad
    min_num_pix min_num_qso cholesky curve_fit vspline write_ok smooth junk dwave n o (l : nat -> list specx) fa fc a b m :
  g_model g = Picca -> 1 <= n -> n_iterations g <> 0 -> g_outdir g = true ->
  (forall mf c v e s a0 x, minimizer mf c v e s a0 = Some x -> m_valid x = true -> length (m_x x) = S (g_order g)) ->
  g_rfwave g = centers a b m -> g_dwrf g = ((b - a) / zq (Z.of_nat m))%Qc ->
  (forall r, r < n -> Forall (fun sx => plain_forest (fst sx)) (l r)) -> o_coadd_after o = false ->
  finishes n (fun r => continuum_fitting_a g ev ev_stack slope minimizer input_cont true_cont nsqrt uspline xs quad
      min_num_pix min_num_qso cholesky curve_fit vspline write_ok smooth junk dwave r
      (mkOpts (o_meanflux o) (o_varlss o) (o_additive o) (o_coadd_after o) (fun _ => true) true) (l r)) fa ->
  finishes n (fun r => continuum_fitting_c g ev ev_stack slope minimizer input_cont true_cont nsqrt uspline xs quad
      min_num_pix min_num_qso cholesky curve_fit vspline write_ok suffix_of smooth junk dwave r o (l r)) fc ->
  exists c mf k xc xk rows, let '(_, _, log, (_, file)) := fa 0 in
    extension file ("CONT" ++ suffix_of (length log)) = Some xc /\ table_in xc "mean_cont" c /\
    extension file "STACKED_FLUX" = Some xk /\ stacked_in xk k /\ mean_flux_of o mf /\
    snd (fc 0) = Some (concat (map rows (seq 0 n))) /\
    forall r, r < n -> snd (fst (fst (fc r))) = snd (fst (fst (fa r))) /\
      Forall2 (fun s row => about r s row /\ continuum_from (ev c) slope (ev mf) (if g_norm g then ev_stack k else fun _ => n1) row s)
        (snd (fst (fst (fc r)))) (filter r_valid (rows r)).
Proof.
  exact (fun Hm Hn Hi HW Hl HR HD HP HO Ha Hc =>
    continuum_run_thm g ev ev_stack slope minimizer input_cont true_cont nsqrt uspline xs quad
      min_num_pix min_num_qso cholesky curve_fit vspline write_ok smooth junk dwave Hl Hm n o l fa fc a b m Hn Hi HW HR HD HP HO Ha Hc).
Qed.
Print Assumptions C76_continuum.

(** ** an example: two ranks, two iterations, polynomials of order one, flux and noise calibration *)
Definition con_g : config :=
  mkConf Picca 1 2 true true true true (zq 3600) (zq 3640) 1 5 (map zq [1; 2; 3; 4; 5; 6]%Z) false 2
    (centers (zq 1200) (zq 1202) 2) 1.
Definition con_stack (k : stacker) (_ : Qc) : num := nth 0 (k_fp k) NaN.
Definition con_o : fitopts := ex_o None None false.
Definition con_a (r : nat) : prog fval (fitter * list spec * list bool * attrs) :=
  continuum_fitting_a con_g ex_ev con_stack (fun _ => Fin (fq 3 4))
    (fun _ _ _ _ _ _ => Some (mkMin true [Fin (zq 2); n1] [[n1; n0]; [n0; n1]])) (fun _ => None) (fun _ _ => n1) (fun _ => NaN)
    (fun _ _ _ => Some [n1; Fin (fq 9 10)]) [0; 1]%Qc ex_simpson 0 0 (fun _ => true) (fun _ _ _ _ => Some ([Fin (fq 1 5); Fin (zq 2)], [Fin (fq 1 5); Fin (zq 2)]))
    (fun _ y _ => Some y) (fun _ => true) (fun a _ => a) (fun _ => n0) 1%Qc r con_o [cat_specx].
Definition con_c (r : nat) : prog cval (fitter * list spec * list bool * option (list chi2row)) :=
  continuum_fitting_c con_g ex_ev con_stack (fun _ => Fin (fq 3 4))
    (fun _ _ _ _ _ _ => Some (mkMin true [Fin (zq 2); n1] [[n1; n0]; [n0; n1]])) (fun _ => None) (fun _ _ => n1) (fun _ => NaN)
    (fun _ _ _ => Some [n1; Fin (fq 9 10)]) [0; 1]%Qc ex_simpson 0 0 (fun _ => true) (fun _ _ _ _ => Some ([Fin (fq 1 5); Fin (zq 2)], [Fin (fq 1 5); Fin (zq 2)]))
    (fun _ y _ => Some y) (fun _ => true) suffix_of (fun a _ => a) (fun _ => n0) 1%Qc r con_o [cat_specx].
Definition con_run_a (r : nat) : fitter * list spec * list bool * attrs :=
  match spmd 2 con_a with
  | Done l => match nth r l (Failed SysExit) with Finished x => x | Failed _ => (ex_t0, [], [], ([], [])) end
  | _ => (ex_t0, [], [], ([], []))
  end.
Definition con_run_c (r : nat) : fitter * list spec * list bool * option (list chi2row) :=
  match spmd 2 con_c with
  | Done l => match nth r l (Failed SysExit) with Finished x => x | Failed _ => (ex_t0, [], [], None) end
  | _ => (ex_t0, [], [], None)
  end.
Lemma con_finishes_a : match spmd 2 con_a with Done [Finished _; Finished _] => true | _ => false end = true -> finishes 2 con_a con_run_a.
Proof. unfold finishes, con_run_a. destruct (spmd 2 con_a) as [[|[x|e] [|[y|e'] [|? ?]]]| |]; try discriminate. reflexivity. Qed.
Lemma con_finishes_c : match spmd 2 con_c with Done [Finished _; Finished _] => true | _ => false end = true -> finishes 2 con_c con_run_c.
Proof. unfold finishes, con_run_c. destruct (spmd 2 con_c) as [[|[x|e] [|[y|e'] [|? ?]]]| |]; try discriminate. reflexivity. Qed.
Definition con_tables (x : fitter * list spec * list bool * attrs) :=
  map (fun e => (x_name e, map (fun w : Qc => this w) (x_wave e), option_map (map sh) (dget "mean_cont" (x_cols e)))) (exts_of "CONT" (snd (snd x))).
(** the continuum is 17/19 (2 + (2 3/4 - 1)) 12646762862/6473615215 = 332809549/76160179: the table is that of CONT-2 *)
Example C76_ex :
  finishes 2 con_a con_run_a /\ finishes 2 con_c con_run_c /\
  con_tables (con_run_a 0) =
    [("CONT-1"%string, [2401 # 2; 2403 # 2]%Q, Some [Some (1 # 1); Some (1 # 1)]%Q);
     ("CONT-2"%string, [2401 # 2; 2403 # 2]%Q, Some [Some (17 # 19); Some (21 # 19)]%Q);
     ("CONT"%string, [2401 # 2; 2403 # 2]%Q, Some [Some (397 # 359); Some (321 # 359)]%Q)] /\
  snd (fst (con_run_a 0)) = [false; false] /\
  option_map (fun e => option_map (map sh) (dget "stacked_flux" (x_cols e))) (extension (snd (snd (con_run_a 0))) "STACKED_FLUX") =
    Some (Some [Some (12646762862 # 6473615215); Some (0 # 1); Some (0 # 1); Some (0 # 1); Some (0 # 1)]%Q) /\
  option_map (map (fun w => map sh (r_x w))) (snd (con_run_c 0)) = Some [[Some (2 # 1); Some (1 # 1)]; [Some (2 # 1); Some (1 # 1)]]%Q /\
  map (fun s => option_map sh (at_pix (s_cont s) "b" 0)) (snd (fst (fst (con_run_c 1)))) = [Some (Some (332809549 # 76160179))]%Q.
Proof.
  split; [apply con_finishes_a; lazy; reflexivity|]. split; [apply con_finishes_c; lazy; reflexivity|].
  split; [lazy; reflexivity|]. split; [lazy; reflexivity|]. split; [lazy; reflexivity|]. split; [lazy; reflexivity|]. lazy. reflexivity.
Qed.

Lemma con_values :
  match extension (snd (snd (con_run_a 0))) "CONT", extension (snd (snd (con_run_a 0))) "STACKED_FLUX", snd (fst (fst (con_run_a 0))) with
  | Some xc, Some xk, [s] =>
      option_map (map sh) (dget "mean_cont" (x_cols xc)) = Some [Some (397 # 359); Some (321 # 359)]%Q /\ x_wave xc = centers (zq 1200) (zq 1202) 2 /\
      option_map (map sh) (dget "stacked_flux" (x_cols xk)) = Some [Some (12646762862 # 6473615215); Some (0 # 1); Some (0 # 1); Some (0 # 1); Some (0 # 1)]%Q /\
      map sh (s_x s) = [Some (2 # 1); Some (1 # 1)]%Q /\ option_map this (at_pix (fw (s_f s)) "b" 0) = Some (3600 # 1)%Q /\
      option_map sh (at_pix (s_cont s) "b" 0) = Some (Some (332809549 # 76160179))%Q
  | _, _, _ => False
  end.
Proof. lazy. repeat split. Qed.

Lemma sh_list (l : list num) (q : list Qc) : map sh l = map (fun x : Qc => Some (this x)) q -> l = map Fin q.
Proof.
  revert q. induction l as [|x l IH]; intros [|y q] H; try discriminate; [reflexivity|]. cbn in H. injection H as H1 H2. cbn. rewrite (IH q H2). f_equal.
  destruct x as [p| | |]; try discriminate. cbn in H1. injection H1 as H1. f_equal. apply Qc_is_canon. now rewrite H1.
Qed.
Lemma final_table_witness : finishes 2 con_a con_run_a /\
  exists xc c xk s, extension (snd (snd (con_run_a 0))) "CONT" = Some xc /\ table_in xc "mean_cont" c /\
    extension (snd (snd (con_run_a 0))) "STACKED_FLUX" = Some xk /\ In s (snd (fst (fst (con_run_a 0)))) /\
    forall mf k row, mean_flux_of con_o mf -> stacked_in xk k -> about 0 s row -> r_x row = s_x s ->
      ~ continuum_from (ex_ev c) (fun _ => Fin (fq 3 4)) (ex_ev mf) (con_stack k) row s.
Proof.
  split; [apply C76_ex|]. pose proof con_values as H.
  destruct (extension (snd (snd (con_run_a 0))) "CONT") as [xc|]; [|easy]. destruct (extension (snd (snd (con_run_a 0))) "STACKED_FLUX") as [xk|]; [|easy].
  destruct (snd (fst (fst (con_run_a 0)))) as [|s [|]]; try easy. destruct H as (H1 & H2 & H3 & H4 & H5 & H6).
  destruct (dget "mean_cont" (x_cols xc)) as [fp|] eqn:D1; [|discriminate]. cbn [option_map] in H1. injection H1 as H1.
  exists xc, (mkInt false (zq 1200 + fq 1 2)%Qc 1 fp []), xk, s. split; [reflexivity|]. split.
  { split; [reflexivity|]. split; [exact D1|]. rewrite H2. cbn [centers length map seq i_x0 i_dx]. repeat (f_equal; [apply Qc_is_canon; lazy; reflexivity|]). reflexivity. }
  split; [reflexivity|]. split; [now left|]. intros mf k row Hm [Hk _] _ Hx C.
  destruct (at_pix (fw (s_f s)) "b" 0) as [w|] eqn:W; [|discriminate].
  assert (fp = map Fin [fq 397 359; fq 321 359]) as E1 by (apply sh_list; rewrite H1; reflexivity).
  assert (s_x s = map Fin [zq 2; 1%Qc]) as E4 by (apply sh_list; rewrite H4; reflexivity).
  destruct (dget "stacked_flux" (x_cols xk)) as [kf|]; [|discriminate]. cbn [option_map] in H3. injection H3 as H3. injection Hk as ->.
  assert (k_fp k = map Fin [fq 12646762862 6473615215; 0; 0; 0; 0]%Qc) as E3 by (apply sh_list; rewrite H3; reflexivity).
  destruct Hm as [_ Hm].
  pose proof (C "b"%string 0 w [zq 2; 1%Qc] (fq 397 359) (fq 3 4) 1%Qc (fq 12646762862 6473615215) W ltac:(congruence)
    ltac:(unfold ex_ev; cbn [i_fp]; rewrite E1; reflexivity) eq_refl ltac:(unfold ex_ev; rewrite Hm; reflexivity) ltac:(unfold con_stack; rewrite E3; reflexivity)) as K.
  rewrite K in H6. lazy in H6. discriminate H6.
Qed.

(** The extension CONT without a number is not the table of the continua: it is the mean continuum after the last
    update, with which nothing has been fitted. *)
Theorem C76_final_table_refuted : finishes 2 con_a con_run_a /\
  exists xc c xk s, extension (snd (snd (con_run_a 0))) "CONT" = Some xc /\ table_in xc "mean_cont" c /\
    extension (snd (snd (con_run_a 0))) "STACKED_FLUX" = Some xk /\ In s (snd (fst (fst (con_run_a 0)))) /\
    forall mf k row, mean_flux_of con_o mf -> stacked_in xk k -> about 0 s row -> r_x row = s_x s ->
      ~ continuum_from (ex_ev c) (fun _ => Fin (fq 3 4)) (ex_ev mf) (con_stack k) row s.
Proof. exact final_table_witness. Qed.
Print Assumptions C76_final_table_refuted.
