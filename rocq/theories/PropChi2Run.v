(** C75: the chi2 catalog of a run agrees with its delta files. *)
From Coq Require Import QArith_base ZArith String List Bool Arith Lia Qcanon.
From Verif Require Import Num NpList Exn Dict Mpi ModelSpectrum ModelContinuum ModelStack ModelSubsample ModelVarFit ModelFitter ModelDelta ModelChi2 ModelChi2Run
  SpecSpectrum SpecFinal SpecChi2Run PropFitter PropWeightTables ProofChi2Run3.
Import ListNotations.
Local Open Scope nat_scope.

(** mpi_continuum_fitting with the rows of the catalog: if it ends, the program of the other properties
    (all of whose catalog accesses succeed) ends with the same spectra and the same fitter. *)
Theorem C75_same_program g ev ev_stack slope minimizer input_cont true_cont nsqrt uspline xs quad
    min_num_pix min_num_qso cholesky curve_fit vspline write_ok iter_suffix smooth junk dwave n o (l : nat -> list specx) f : 1 <= n ->
  finishes n (fun r => continuum_fitting_c g ev ev_stack slope minimizer input_cont true_cont nsqrt uspline xs quad
      min_num_pix min_num_qso cholesky curve_fit vspline write_ok iter_suffix smooth junk dwave r o (l r)) f ->
  finishes n (fun r => continuum_fitting g ev ev_stack slope minimizer input_cont true_cont nsqrt uspline xs quad
      min_num_pix min_num_qso cholesky curve_fit vspline write_ok iter_suffix smooth junk dwave r
      (mkOpts (o_meanflux o) (o_varlss o) (o_additive o) (o_coadd_after o) (fun _ => true) true) (l r)) (fun r => fst (f r)).
Proof. exact (same_program_thm g ev ev_stack slope minimizer input_cont true_cont nsqrt uspline xs quad
    min_num_pix min_num_qso cholesky curve_fit vspline write_ok iter_suffix smooth junk dwave n o l f). Qed.
Print Assumptions C75_same_program.

(** One row for every quasar of every rank, in the order of the ranks and of their lists; CONT_dof is the number of
    unmasked pixels less the number of fitted parameters, and CONT_chi2 is -1 without a valid continuum.  The rows with
    a valid continuum are, in the same order, those of the spectra that are returned (whose deltas are written). *)
Theorem C75_catalog g ev ev_stack slope minimizer input_cont true_cont nsqrt uspline xs quad
    min_num_pix min_num_qso cholesky curve_fit vspline write_ok iter_suffix smooth junk dwave n o (l : nat -> list specx) f :
  1 <= n -> n_iterations g <> 0 -> g_outdir g = true ->
  finishes n (fun r => continuum_fitting_c g ev ev_stack slope minimizer input_cont true_cont nsqrt uspline xs quad
      min_num_pix min_num_qso cholesky curve_fit vspline write_ok iter_suffix smooth junk dwave r o (l r)) f ->
  exists rows, snd (f 0) = Some (concat (map rows (seq 0 n))) /\ (forall r, 0 < r < n -> snd (f r) = None) /\
    forall r, r < n ->
      Forall2 (fun sx row => about r (fst sx) row /\ (r_valid row = false -> r_chi2 row = Fin (- (1))) /\
        r_dof row = (Z.of_nat (unmasked (fst sx)) - match g_model g with Picca => Z.of_nat (g_order g) + 1 | _ => 0 end)%Z) (l r) (rows r) /\
      Forall2 (fun s row => about r s row /\ r_chi2 row = s_chi2 s) (snd (fst (fst (f r)))) (filter r_valid (rows r)).
Proof. exact (catalog_run_thm g ev ev_stack slope minimizer input_cont true_cont nsqrt uspline xs quad
    min_num_pix min_num_qso cholesky curve_fit vspline write_ok iter_suffix smooth junk dwave n o l f). Qed.
Print Assumptions C75_catalog.

(** CONT_chi2 is the sum of WEIGHT DELTA^2 over the rows of the HDUs of the quasar in the delta file: if the arms are
    coadded after the fit, or if nothing changes the continuum or the inverse variance after the fit (no additive noise,
    no flux and no noise calibration).  No smoothing of the inverse variance; all arms are written. *)
Theorem C75_chi2_partial g ev ev_stack slope minimizer input_cont true_cont nsqrt uspline xs quad
    min_num_pix min_num_qso cholesky curve_fit vspline write_ok iter_suffix smooth junk dwave mr rd st n o (l : nat -> list specx) f :
  1 <= n -> n_iterations g <> 0 -> g_outdir g = true ->
  (forall r, r < n -> Forall (fun sx => plain_forest (fst sx)) (l r)) ->
  o_coadd_after o = true \/ (o_additive o = None /\ g_norm g = false /\ g_etacal g = false) ->
  finishes n (fun r => continuum_fitting_c g ev ev_stack slope minimizer input_cont true_cont nsqrt uspline xs quad
      min_num_pix min_num_qso cholesky curve_fit vspline write_ok iter_suffix smooth junk dwave r o (l r)) f ->
  exists rows, snd (f 0) = Some (concat (map rows (seq 0 n))) /\
    forall r, r < n -> Forall2 (fun s row => about r s row /\
      forall hs tables q, (s_sscale s <= 0)%Qc -> zero_is_masked s ->
        spec_write mr rd st s = Ok hs -> length hs = length (fw (s_f s)) -> hs <> [] ->
        Forall2 (fun h t => delta_weight h (fst t) (snd t)) hs tables ->
        r_chi2 row = Fin q -> q = SpecChi2Run.total tables) (snd (fst (fst (f r)))) (filter r_valid (rows r)).
Proof. exact (chi2_run_thm g ev ev_stack slope minimizer input_cont true_cont nsqrt uspline xs quad
    min_num_pix min_num_qso cholesky curve_fit vspline write_ok iter_suffix smooth junk dwave mr rd st n o l f). Qed.
Print Assumptions C75_chi2_partial.

(** ** examples *)
(** two ranks with one quasar each *)
Definition cat_g (norm : bool) : config :=
  mkConf Picca 0 1 true norm false true (zq 3600) (zq 3640) 1 5 (map zq [1; 2; 3; 4; 5; 6]%Z) false 2
    (centers (zq 1200) (zq 1202) 2) 1.
Definition cat_specx : specx := (set_msnr [("b"%string, Fin (zq 3)); ("r"%string, Fin (zq 4))] (fst ex_specx), []).
Definition cat_fitting (norm : bool) (o : fitopts) (r : nat) : prog cval (fitter * list spec * list bool * option (list chi2row)) :=
  continuum_fitting_c (cat_g norm) ex_ev (fun _ _ => Fin (zq 2)) (fun _ => n0)
    (fun _ _ _ _ _ _ => Some (mkMin true [Fin (zq 2)] [[n1]])) (fun _ => None) (fun _ _ => n1) (fun _ => Fin (fq 1 100))
    (fun _ y _ => Some y) [0; 1]%Qc ex_simpson 0 0 (fun _ => true) (fun _ _ _ _ => Some ([Fin (fq 1 5); Fin (zq 2)], [Fin (fq 1 5); Fin (zq 2)]))
    (fun _ y _ => Some y) (fun _ => true) (fun _ => ""%string) (fun a _ => a) (fun _ => n0) 1%Qc r o [cat_specx].
Definition cat_run (norm : bool) (o : fitopts) (r : nat) : fitter * list spec * list bool * option (list chi2row) :=
  match spmd 2 (cat_fitting norm o) with
  | Done l => match nth r l (Failed SysExit) with Finished x => x | Failed _ => (ex_t0, [], [], None) end
  | _ => (ex_t0, [], [], None)
  end.
Lemma cat_finishes norm o : match spmd 2 (cat_fitting norm o) with Done [Finished _; Finished _] => true | _ => false end = true ->
  finishes 2 (cat_fitting norm o) (cat_run norm o).
Proof. unfold finishes, cat_run. destruct (spmd 2 (cat_fitting norm o)) as [[|[x|e] [|[y|e'] [|? ?]]]| |]; try discriminate. reflexivity. Qed.
Definition cat_rows (x : fitter * list spec * list bool * option (list chi2row)) :=
  option_map (map (fun w => (r_rank w, r_valid w, sh (r_chi2 w), r_dof w))) (snd x).
Definition cat_hdus (s : spec) : res (list hdu) := spec_write (fun _ _ => Ok n0) (fun _ => (0, 0)%Qc) statics0 s.
(** DELTA and WEIGHT as they are read from the HDUs *)
Definition unfin (x : num) : Qc := match x with Fin q => q | _ => 0%Qc end.
Definition fin (x : num) : bool := match x with Fin _ => true | _ => false end.
Definition dw (h : hdu) : list Qc * list Qc :=
  match map snd (h_cols h) with CWave _ :: CNum ds :: CNum _ :: CNum ws :: _ => (map unfin ds, map unfin ws) | _ => ([], []) end.
Definition dw_ok (h : hdu) : bool :=
  match map snd (h_cols h) with CWave _ :: CNum ds :: CNum _ :: CNum ws :: _ => forallb fin ds && forallb fin ws | _ => false end.
Lemma unfin_all v : forallb fin v = true -> map Fin (map unfin v) = v.
Proof. induction v as [|[q| | |] v IH]; cbn; try discriminate; [reflexivity|]. intro H. now rewrite IH. Qed.
Lemma dw_spec h : dw_ok h = true -> delta_weight h (fst (dw h)) (snd (dw h)).
Proof.
  unfold delta_weight, dw_ok, dw. destruct (map snd (h_cols h)) as [|[x| |] [|[|ds|] [|[|iv|] [|[|ws|] rest]]]]; try discriminate.
  intro H. apply andb_true_iff in H as [H1 H2]. cbn [fst snd]. rewrite !unfin_all by assumption. now exists x, iv, rest.
Qed.
Lemma dw_all hs : forallb dw_ok hs = true -> Forall2 (fun h t => delta_weight h (fst t) (snd t)) hs (map dw hs).
Proof. induction hs as [|h hs IH]; cbn; [constructor|]. intro H. apply andb_true_iff in H as [H1 H2]. constructor; [now apply dw_spec|auto]. Qed.
(** the catalog with the sums of WEIGHT DELTA^2 of the delta files *)
Definition cat_sums (x : fitter * list spec * list bool * option (list chi2row)) : list (option Q) :=
  map (fun s => match cat_hdus s with Ok hs => if forallb dw_ok hs then Some (this (SpecChi2Run.total (map dw hs))) else None | Err _ => None end) (snd (fst (fst x))).
Definition cat_count (x : fitter * list spec * list bool * option (list chi2row)) : list (nat * nat) :=
  map (fun s => (unmasked s, match cat_hdus s with Ok hs => length hs | Err _ => 0 end)) (snd (fst (fst x))).
Lemma cat_plain : plain_forest (fst cat_specx).
Proof. split; [cbn; repeat constructor; cbn; intuition discriminate|repeat split; cbn; lia]. Qed.
Lemma no_zero s : existsb (existsb (fun x => neqb x n0)) (map snd (s_cont s)) = false -> zero_is_masked s.
Proof.
  intros H arm k E. exfalso. unfold at_pix in E. destruct (dget arm (s_cont s)) as [v|] eqn:D; [|discriminate].
  apply nth_error_In in E. assert (In v (map snd (s_cont s))) as I.
  { clear - D. induction (s_cont s) as [|[a w] d IH]; [discriminate|]. cbn in D. destruct (String.eqb _ _); [injection D as <-; now left|right; auto]. }
  assert (existsb (existsb (fun x => neqb x n0)) (map snd (s_cont s)) = true) as C; [|congruence].
  apply existsb_exists. exists v. split; [exact I|]. apply existsb_exists. exists n0. split; [exact E|reflexivity].
Qed.
(** seven pixels, one of them masked, and one parameter: 5 degrees of freedom; two HDUs *)
Example C75_ex :
  finishes 2 (cat_fitting false (ex_o None None false)) (cat_run false (ex_o None None false)) /\ plain_forest (fst cat_specx) /\
  cat_rows (cat_run false (ex_o None None false) 0) = Some [(0, true, Some (35045 # 693)%Q, 5%Z); (1, true, Some (35045 # 693)%Q, 5%Z)] /\
  (forall r, r < 2 -> cat_sums (cat_run false (ex_o None None false) r) = [Some (35045 # 693)%Q] /\
     cat_count (cat_run false (ex_o None None false) r) = [(6, 2)] /\
     Forall zero_is_masked (snd (fst (fst (cat_run false (ex_o None None false) r))))).
Proof.
  split; [apply cat_finishes; lazy; reflexivity|]. split; [exact cat_plain|]. split; [lazy; reflexivity|].
  intros r Hr. destruct r as [|[|r]]; [| |lia]; (split; [lazy; reflexivity|]; split; [lazy; reflexivity|]);
    (apply Forall_forall; intros s Hs; apply no_zero; revert s Hs; apply Forall_forall; lazy; repeat constructor).
Qed.
Example C75_coadd_ex :
  finishes 2 (cat_fitting false (ex_o None None true)) (cat_run false (ex_o None None true)) /\
  cat_rows (cat_run false (ex_o None None true) 0) = Some [(0, true, Some (64205 # 2772)%Q, 5%Z); (1, true, Some (64205 # 2772)%Q, 5%Z)] /\
  cat_sums (cat_run false (ex_o None None true) 0) = [Some (64205 # 2772)%Q].
Proof. split; [apply cat_finishes; lazy; reflexivity|]. split; lazy; reflexivity. Qed.

(** ** what does not hold *)
(** [stale x]: a row of the catalog whose CONT_chi2 is not the sum of WEIGHT DELTA^2 of its quasar, on rank 0 *)
Definition stale (f : nat -> fitter * list spec * list bool * option (list chi2row)) : Prop :=
  exists all row s hs tables q, snd (f 0) = Some all /\ In row all /\ r_valid row = true /\ In s (snd (fst (fst (f 0)))) /\ about 0 s row /\
    zero_is_masked s /\ (s_sscale s <= 0)%Qc /\ cat_hdus s = Ok hs /\ length hs = length (fw (s_f s)) /\ hs <> [] /\
    Forall2 (fun h t => delta_weight h (fst t) (snd t)) hs tables /\ r_chi2 row = Fin q /\ q <> SpecChi2Run.total tables.
Definition stale_b (f : nat -> fitter * list spec * list bool * option (list chi2row)) : bool :=
  match snd (f 0), snd (fst (fst (f 0))) with
  | Some (row :: _), s :: _ =>
      match cat_hdus s, r_chi2 row with
      | Ok (h :: hs), Fin q =>
          r_valid row && Z.eqb (r_id row) (c_targetid (s_cat s)) && qeqb (r_z row) (c_z (s_cat s)) && Z.eqb (r_hpx row) (c_hpix (s_cat s)) && Nat.eqb (r_rank row) 0 &&
          negb (existsb (existsb (fun x => neqb x n0)) (map snd (s_cont s))) && qleb (s_sscale s) 0 && Nat.eqb (length (h :: hs)) (length (fw (s_f s))) &&
          forallb dw_ok (h :: hs) && negb (qeqb q (SpecChi2Run.total (map dw (h :: hs))))
      | _, _ => false
      end
  | _, _ => false
  end.
Lemma stale_spec f : stale_b f = true -> stale f.
Proof.
  unfold stale_b, stale. destruct (snd (f 0)) as [[|row all]|]; try discriminate. destruct (snd (fst (fst (f 0)))) as [|s l]; try discriminate.
  destruct (cat_hdus s) as [[|h hs]|] eqn:Eh; try discriminate. destruct (r_chi2 row) as [q| | |] eqn:Eq; try discriminate.
  intro H. do 9 apply andb_true_iff in H as [H ?].
  exists (row :: all), row, s, (h :: hs), (map dw (h :: hs)), q.
  split; [reflexivity|]. split; [now left|]. split; [assumption|]. split; [now left|].
  split. { repeat split; [now apply Z.eqb_eq|apply qeqb_true; assumption|now apply Z.eqb_eq|now apply Nat.eqb_eq]. }
  split. { apply no_zero. now apply negb_true_iff. }
  split. { apply qleb_true. assumption. }
  split; [exact Eh|]. split; [now apply Nat.eqb_eq|]. split; [discriminate|]. split; [now apply dw_all|]. split; [exact Eq|].
  intro E. match goal with H : negb (qeqb q _) = true |- _ => apply negb_true_iff in H; rewrite E, (proj2 (qeqb_true _ _) eq_refl) in H; discriminate H end.
Qed.
(** CONT_chi2 is not computed again when noise is added, or when the continuum is scaled by the normalisation of the flux,
    after the fit: then it is not that of the deltas. *)
Theorem C75_stale_refuted :
  (finishes 2 (cat_fitting false (ex_o None (Some (Some ex_fid)) false)) (cat_run false (ex_o None (Some (Some ex_fid)) false)) /\
   stale (cat_run false (ex_o None (Some (Some ex_fid)) false))) /\
  (finishes 2 (cat_fitting true (ex_o None None false)) (cat_run true (ex_o None None false)) /\
   stale (cat_run true (ex_o None None false))).
Proof.
  split; (split; [apply cat_finishes; lazy; reflexivity|apply stale_spec; lazy; reflexivity]).
Qed.
Print Assumptions C75_stale_refuted.
(** With coadding after the fit CONT_chi2 is that of the coadded pixels, but CONT_dof still counts the pixels of the arms:
    here 6 - 1, while CONT_chi2 is a sum over 5 unmasked pixels. *)
Theorem C75_dof_refuted :
  finishes 2 (cat_fitting false (ex_o None None true)) (cat_run false (ex_o None None true)) /\
  map unmasked (snd (fst (fst (cat_run false (ex_o None None true) 0)))) = [5] /\
  option_map (map r_dof) (snd (cat_run false (ex_o None None true) 0)) = Some [5; 5]%Z.
Proof. split; [apply cat_finishes; lazy; reflexivity|]. split; lazy; reflexivity. Qed.
Print Assumptions C75_dof_refuted.
