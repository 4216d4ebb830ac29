(** C69: the results do not depend on the number of MPI ranks. *)
From Coq Require Import QArith_base ZArith String List Bool Arith Lia Qcanon Permutation.
From Verif Require Import Num NpList Exn Dict Mpi ModelMpiUtils ModelSpectrum ModelMasks ModelContinuum ModelStack ModelSubsample
  ModelVarFit ModelFitter ModelCatalog ModelIO ModelPipeline SpecMpi SpecFinal SpecCatalog SpecPipeline SpecRanks Examples1 PropFitter
  PropPipeline ProofRanks3 ProofRanks6.
Import ListNotations.
Local Open Scope nat_scope.

(** With a fiducial var_lss: whatever the number of ranks and however the same
    spectra are distributed over them, two runs of the continuum fitting that
    both finish give the same spectra (continua, weights, everything), the same
    convergence history, mean continuum and stacked fluxes.  Missing: var_lss
    fitted in the run (below), and coadding "after" or additive noise, for which
    the weights are recomputed with a fitted var_lss (C47). *)
Theorem C69_fitting_partial g ev ev_stack slope minimizer input_cont true_cont nsqrt uspline xs quad
    min_num_pix min_num_qso cholesky curve_fit vspline write_ok iter_suffix smooth junk dwave n m o
    (l h : nat -> list specx) f e :
  1 <= n -> 1 <= m -> o_varlss o <> None -> o_additive o = None -> o_coadd_after o = false ->
  Permutation (gathered n l) (gathered m h) ->
  finishes n (fun r => continuum_fitting (on_ranks n g) ev ev_stack slope minimizer input_cont true_cont nsqrt uspline xs quad
      min_num_pix min_num_qso cholesky curve_fit vspline write_ok iter_suffix smooth junk dwave r o (l r)) f ->
  finishes m (fun r => continuum_fitting (on_ranks m g) ev ev_stack slope minimizer input_cont true_cont nsqrt uspline xs quad
      min_num_pix min_num_qso cholesky curve_fit vspline write_ok iter_suffix smooth junk dwave r o (h r)) e ->
  same_results n m f e.
Proof. exact (fun Hn Hm Ho O1 O2 P => all_ranks g ev ev_stack slope minimizer input_cont true_cont nsqrt uspline xs quad
    min_num_pix min_num_qso cholesky curve_fit vspline write_ok iter_suffix smooth junk dwave n m o l h f e Hn Hm Ho P O1 O2). Qed.
Print Assumptions C69_fitting_partial.

(** The same for all spectra at the end of iterate, also those without a valid
    continuum (which are in the chi2 catalog), with any options for what follows. *)
Theorem C69_iterate_partial g ev ev_stack slope minimizer input_cont true_cont nsqrt uspline xs quad
    min_num_pix min_num_qso cholesky curve_fit vspline write_ok iter_suffix n m o (l h : nat -> list specx) f e :
  1 <= n -> 1 <= m -> o_varlss o <> None -> Permutation (gathered n l) (gathered m h) ->
  finishes n (fun r => pbind (fitter_init (on_ranks n g) r o) (fun mt =>
      iterate (on_ranks n g) ev ev_stack (ev (fst mt)) slope (minimizer (fst mt)) input_cont true_cont nsqrt uspline xs quad
         min_num_pix min_num_qso cholesky curve_fit vspline write_ok iter_suffix r (snd mt) (l r))) f ->
  finishes m (fun r => pbind (fitter_init (on_ranks m g) r o) (fun mt =>
      iterate (on_ranks m g) ev ev_stack (ev (fst mt)) slope (minimizer (fst mt)) input_cont true_cont nsqrt uspline xs quad
         min_num_pix min_num_qso cholesky curve_fit vspline write_ok iter_suffix r (snd mt) (h r))) e ->
  same_results n m f e.
Proof. exact (all_ranks_iterate g ev ev_stack slope minimizer input_cont true_cont nsqrt uspline xs quad
    min_num_pix min_num_qso cholesky curve_fit vspline write_ok iter_suffix n m o l h f e). Qed.
Print Assumptions C69_iterate_partial.

(** Two different spectra on two ranks, the other way round on three (one of them
    idle), and on one: 2 iterations, continua that are not flat. *)
Definition rk_spec (id a b : Z) : specx :=
  (mkSpec (mkCatrow id 7 (zq 2) None [] [] [] []) [] [] [] [] n0 None
    (mkForest [("b"%string, map zq [3601; 3604]%Z)] [("b"%string, map (fun x => Fin (zq x)) [a; b]%Z)] []
       [[("b"%string, [Fin (fq 1 2); Fin (fq 1 2)])]] 0 0 0) 0 true [n1] n0 [], []).
Definition rk_run (n : nat) (l : nat -> list specx) (r : nat) : prog fval (fitter * list spec * list bool) :=
  continuum_fitting (on_ranks n (ex_g 2 false false false)) ex_ev (fun _ _ => n1) (fun _ => n0)
    (fun _ _ _ _ _ _ => Some (mkMin true [Fin (zq 2)] [[n1]])) (fun _ => None) (fun _ _ => n1) (fun _ => Fin (zq 1000))
    (fun _ y _ => Some y) [0; 1]%Qc ex_simpson 0 0 (fun _ => true) (fun _ _ _ _ => Some ([Fin (fq 1 5)], [n1])) (fun _ y _ => Some y)
    (fun _ => true) (fun _ => ""%string) (fun a _ => a) (fun _ => n0) 1%Qc r (ex_o (Some (Some ex_fid)) None false) (l r).
Definition rk_2 (r : nat) : list specx := match r with 0 => [rk_spec 1 2 3] | _ => [rk_spec 2 3 4] end.
Definition rk_3 (r : nat) : list specx := match r with 0 => [rk_spec 2 3 4] | 1 => [] | _ => [rk_spec 1 2 3] end.
Definition rk_1 (_ : nat) : list specx := [rk_spec 2 3 4; rk_spec 1 2 3].
Definition rk_show (o : outcome (fitter * list spec * list bool)) :=
  match o with
  | Done l => Some (map (fun e => match e with
      | Finished x => Some (snd x, map (fun s => (c_targetid (s_cat s), pix3 s "b" 1)) (snd (fst x)), map sh (i_fp (t_cont (fst (fst x)))))
      | Failed _ => None end) l)
  | _ => None end.
(** what the ranks return, if all of them finish *)
Definition results {A} (o : outcome A) : list A :=
  match o with Done l => flat_map (fun e => match e with Finished x => [x] | Failed _ => [] end) l | _ => [] end.
Definition all_finished {A} (n : nat) (o : outcome A) : bool :=
  match o with Done l => Nat.eqb (length l) n && forallb (fun e => match e with Finished _ => true | Failed _ => false end) l | _ => false end.
Lemma all_finished_finishes {V A} n (p : nat -> prog V A) d : all_finished n (spmd n p) = true -> finishes n p (fun r => nth r (results (spmd n p)) d).
Proof.
  unfold finishes, all_finished, results. destruct (spmd n p) as [l| |]; try discriminate. intro H. apply andb_prop in H as [L H].
  apply Nat.eqb_eq in L. subst n. f_equal. rewrite <- (map_map (fun r => nth r (flat_map (fun e => match e with Finished x => [x] | Failed _ => [] end) l) d) Finished).
  assert (length (flat_map (fun e : ending A => match e with Finished x => [x] | Failed _ => [] end) l) = length l /\
          map Finished (flat_map (fun e => match e with Finished x => [x] | Failed _ => [] end) l) = l) as [L E].
  { clear d. induction l as [|[x|x] l IH]; cbn in *; try easy. destruct (IH H) as [-> E]. split; [reflexivity|now rewrite E]. }
  rewrite <- E at 1. f_equal. rewrite <- L. set (y := flat_map _ l). clear. 
  induction y as [|x y IH]; [reflexivity|]. cbn [length seq map]. f_equal. rewrite <- seq_shift, map_map. exact IH.
Qed.
Example C69_ex :
  Permutation (gathered 2 rk_2) (gathered 3 rk_3) /\ Permutation (gathered 2 rk_2) (gathered 1 rk_1) /\
  (exists f, finishes 2 (rk_run 2 rk_2) f) /\ (exists f, finishes 3 (rk_run 3 rk_3) f) /\ (exists f, finishes 1 (rk_run 1 rk_1) f) /\
  rk_show (spmd 3 (rk_run 3 rk_3)) =
    let cont := [Some (125 # 234)%Q; Some (343 # 234)%Q] in let log := [false; false] in let px := qs (1 # 2) (5 # 3) (18 # 41) in
    Some [Some (log, [(2%Z, px)], cont); Some (log, [], cont); Some (log, [(1%Z, px)], cont)].
Proof.
  split; [constructor|]. split; [constructor|].
  split; [eexists; apply (all_finished_finishes 2 _ (ex_t0, [], [])); lazy; reflexivity|].
  split; [eexists; apply (all_finished_finishes 3 _ (ex_t0, [], [])); lazy; reflexivity|].
  split; [eexists; apply (all_finished_finishes 1 _ (ex_t0, [], [])); lazy; reflexivity|]. lazy. reflexivity.
Qed.

(** ** The whole run *)
(** qsonic-fit with a fiducial var_lss, run twice with n and with m ranks on the
    same files: if both runs finish, they have written the same spectra; with
    save_by_hpx, the same spectra to each file.  The files may hold them in another
    order.  (One file is written by one rank: C54; for tile-grouped data it may be
    several: C04_tile_queues_refuted.) *)
Theorem C69_run_partial ang2pix dla_flux row_of logic argsort hpix_of g ev ev_stack slope minimizer input_cont true_cont
    nsqrt uspline xs quad min_num_pix min_num_qso cholesky curve_fit vspline write_ok iter_suffix smooth junk dwave w n m a f e :
  1 <= n -> 1 <= m -> same_files w -> reads_requested row_of w -> (forall x, TARGETID (row_of x) = c_targetid x) -> argsort_ok argsort ->
  w_parse w = Parsed a -> r_varlss a = true -> r_noise a && r_additive a = false -> r_coadd a <> After -> r_exposures a <> After ->
  let run_on k r := run_all ang2pix dla_flux row_of logic argsort hpix_of (fun a => on_ranks k (g a)) ev ev_stack slope minimizer input_cont true_cont
      nsqrt uspline xs quad min_num_pix min_num_qso cholesky curve_fit vspline write_ok iter_suffix smooth junk dwave w r k in
  finishes n (run_on n) f -> finishes m (run_on m) e ->
  Permutation (concat (map snd (gathered n f))) (concat (map snd (gathered m e))) /\
  (r_byhpx a = true -> forall k, Permutation (in_file k (gathered n f)) (in_file k (gathered m e))).
Proof. exact (fun Hn Hm Hw Hr Hi Ha => run_ranks ang2pix dla_flux row_of logic argsort hpix_of g ev ev_stack slope minimizer input_cont true_cont
    nsqrt uspline xs quad min_num_pix min_num_qso cholesky curve_fit vspline write_ok iter_suffix smooth junk dwave w Hw Hr Hi Ha n m f e a Hn Hm). Qed.
Print Assumptions C69_run_partial.

(** Three quasars with different fluxes, two in one healpixel, on 1, 2 and 3 ranks
    (one of them idle). *)
Definition rr_args : runargs :=
  mkRun true true false None true true (zq 3600) (zq 3640) (zq 1200) (zq 1202) 0 n0 n0 0 Disable Disable
    false false false false false false false true.
Definition rr_spec (tid pix : Z) : spec :=
  let wv := map zq [3599; 3600; 3601; 3602; 3603; 3604; 3605]%Z in
  mkSpec (mkCatrow tid pix (zq 2) None [] [] [] []) [("b"%string, wv)] [("b"%string, map (fun x => Fin (zq tid)) wv)] [("b"%string, map (fun _ => n1) wv)]
    [] n1 None (mkForest [] [] [] [[]; []; []] 0 1 2) 0 false [n0] n0 [].
Definition rr_world : world :=
  mkWorld (Parsed rr_args) true (Some (mkcat cols_ex [run_row 5 8; run_row 4 7; run_row 3 8])) true (fun _ => None) (fun _ => None)
    (fun _ _ _ cat => Some (map (fun r => rr_spec (TARGETID r) (HPXPIXEL r)) (filter is_run_row cat))) (fun _ _ => None) (fun _ _ => None)
    None (Some ex_fid) None (fun _ => true) true (fun _ => true).
Definition rr_run (n r : nat) : prog pval (@saved spec) :=
  run_all pix_ex (fun _ _ _ => n1) run_row_of (fun _ => true) argsort_ex (fun s => c_hpix (s_cat s)) (fun _ => on_ranks n (ex_g 2 false false false))
    ex_ev (fun _ _ => Fin (zq 2)) (fun _ => n0) (fun _ _ _ _ _ _ => Some (mkMin true [Fin (zq 2)] [[n1]])) (fun _ => None) (fun _ _ => n1)
    (fun _ => Fin (fq 1 100)) (fun _ y _ => Some y) [0; 1]%Qc ex_simpson 0 0 (fun _ => true)
    (fun _ _ _ _ => Some ([Fin (fq 1 5)], [Fin (fq 1 5)])) (fun _ y _ => Some y)
    (fun _ => true) (fun _ => ""%string) (fun a _ => a) (fun _ => n0) 1%Qc rr_world r n.
Example C69_run_ex :
  same_files rr_world /\ reads_requested run_row_of rr_world /\ (forall x, TARGETID (run_row_of x) = c_targetid x) /\ argsort_ok argsort_ex /\
  (forall n, In n [1; 2; 3] -> exists f, finishes n (rr_run n) f) /\
  map (fun n => names (spmd n (rr_run n))) [1; 2; 3] = 
    [Some [Some [(7, [4]); (8, [3; 5])]]; Some [Some [(8, [3; 5])]; Some [(7, [4])]]; Some [Some [(8, [3; 5])]; Some [(7, [4])]; Some []]]%Z.
Proof.
  split; [easy|]. split.
  { intros again r e cat l s E Hs. cbn [w_reader rr_world] in E. injection E as <-.
    apply in_map_iff in Hs as (q & <- & Hq).
    refine (run_reader_rows false false (fun _ => None) again r e cat _ (run_spec (TARGETID q) (HPXPIXEL q)) eq_refl _).
    apply in_map_iff. now exists q. }
  split; [reflexivity|]. split; [exact argsort_ex_ok|]. split.
  - intros n [<-|[<-|[<-|[]]]]; eexists; apply (all_finished_finishes _ _ []); lazy; reflexivity.
  - lazy. reflexivity.
Qed.

(** ** A fitted var_lss *)
(** The variance statistics of VarLSSFitter: all ranks add the (wavelength,
    delta, ivar) of their spectra, then calculate_subsampler_stats is called. *)
Definition stats_run (nv : nat) (edges : list Qc) (n : nat) (arms : nat -> list (list Qc * list Qc * list Qc)) (r : nat) : prog vval vfit :=
  pbind (of_res (vfit_add_all (arms r) (vfit_init (zq 3600) (zq 3640) 1 nv edges None false r n))) calculate_stats.
(** Each rank starts with another subsample, so that which spectra share a
    subsample depends on the number of ranks.  The same four spectra on one and
    on two ranks: the same numbers of pixels, mean delta and variance, but other
    error bars of the variance, with which var_lss is fitted. *)
Definition rk_arm (d : Z) : list Qc * list Qc * list Qc := ([zq 3610], [zq d], [fq 3 2]).
Definition rk_arms (n r : nat) : list (list Qc * list Qc * list Qc) :=
  match n, r with
  | 1, 0 => [rk_arm 1; rk_arm 2; rk_arm 4; rk_arm (-2)%Z]
  | 2, 0 => [rk_arm 1; rk_arm 2; rk_arm 4]
  | 2, 1 => [rk_arm (-2)%Z]
  | _, _ => []
  end.
Definition rk_stats (n : nat) : nat -> prog vval vfit := stats_run 2 (map zq [1; 2; 3]%Z) n (rk_arms n).
Definition rk_v0 : vfit := vfit_init 0 0 0 0 [] None false 0 1.
Lemma map_this_inj (l l' : list Qc) : map this l = map this l' -> l = l'.
Proof.
  revert l'. induction l as [|x l IH]; intros [|y l']; cbn; try discriminate; [reflexivity|]. intros [= E H]. f_equal; [|now apply IH].
  apply Qc_is_canon. now rewrite E.
Qed.
Lemma hd_error_hd (l : list Qc) n : length l = S n -> hd_error l = Some (hd 0%Qc l).
Proof. destruct l; [discriminate|reflexivity]. Qed.
Theorem C69_error_bars_refuted : exists f e,
  Permutation (gathered 1 (rk_arms 1)) (gathered 2 (rk_arms 2)) /\ finishes 1 (rk_stats 1) f /\ finishes 2 (rk_stats 2) e /\
  (forall r, r < 2 -> num_pixels (e r) = num_pixels (f 0) /\ num_qso (e r) = num_qso (f 0) /\
     mean_delta (e r) = mean_delta (f 0) /\ var_delta (e r) = var_delta (f 0)) /\
  exists x y, hd_error (variance_var_delta (f 0)) = Some x /\ hd_error (variance_var_delta (e 0)) = Some y /\
     (zq 25 < x)%Qc /\ (y < zq 14)%Qc.
Proof.
  exists (fun r => nth r (results (spmd 1 (rk_stats 1))) rk_v0), (fun r => nth r (results (spmd 2 (rk_stats 2))) rk_v0).
  split; [apply Permutation_refl|]. split; [apply all_finished_finishes; lazy; reflexivity|].
  split; [apply all_finished_finishes; lazy; reflexivity|]. split.
  - intros r Hr. destruct r as [|[|r]]; [| |lia]; (split; [lazy; reflexivity|]; split; [lazy; reflexivity|]; split; apply map_this_inj; lazy; reflexivity).
  - exists (hd 0%Qc (variance_var_delta (nth 0 (results (spmd 1 (rk_stats 1))) rk_v0))),
      (hd 0%Qc (variance_var_delta (nth 0 (results (spmd 2 (rk_stats 2))) rk_v0))).
    split; [apply (hd_error_hd _ 1); lazy; reflexivity|]. split; [apply (hd_error_hd _ 1); lazy; reflexivity|].
    split; apply qltb_true; lazy; reflexivity.
Qed.
Print Assumptions C69_error_bars_refuted.
