(** C58: what the var_lss and eta tables of the continuum fitter are fitted to. *)
From Coq Require Import QArith_base ZArith String List Bool Arith Lia Qcanon.
From Verif Require Import Num NpList Exn Dict Mpi ModelMpiUtils ModelSpectrum ModelMasks ModelContinuum ModelStack ModelSubsample
  ModelVarFit ModelFitter SpecMpi SpecVarFit SpecFinal SpecUpdate PropMasks PropFitter ProofUpdate3.
Import ListNotations.
Local Open Scope nat_scope.

(** ** C58 *)
(** For all spectra on all ranks and all results of the external routines: when
    the ranks finish, the var_lss (and eta) tables that each of them holds are
    the fit (C43) to the variance bins of the pixels delta = flux / cont - 1,
    ivar cont^2 of the returned spectra of all ranks.  With a fiducial var_lss
    these are the tables of the last fit, for all the options of normalisation and
    calibration; without one, normalisation and eta calibration (which come after
    the fit) must be off, and there must be an iteration. *)
Theorem C58_tables g ev ev_stack slope minimizer input_cont true_cont nsqrt uspline xs quad
    min_num_pix min_num_qso cholesky curve_fit vspline write_ok iter_suffix smooth junk dwave n o (l : nat -> list specx) :
  1 <= n -> g_size g = n ->
  (g_w1 g < g_w2 g)%Qc -> 1 <= g_nw g -> 1 <= g_nv g -> good_edges (g_nv g) (g_edges g) ->
  (forall x y w r, vspline x y w = Some r -> length r = g_nw g) ->
  o_additive o = None -> o_coadd_after o = false ->
  (o_varlss o = None -> g_norm g = false /\ g_etacal g = false /\ n_iterations g <> 0) ->
  forall f, finishes n (fun r => continuum_fitting g ev ev_stack slope minimizer input_cont true_cont nsqrt uspline xs quad
      min_num_pix min_num_qso cholesky curve_fit vspline write_ok iter_suffix smooth junk dwave r o (l r)) f ->
  forall r, r < n ->
    fitted_tables g min_num_pix min_num_qso nsqrt cholesky curve_fit vspline n (fun q => snd (fst (f q))) (fst (fst (f r))).
Proof. exact (fitting_tables g ev ev_stack slope minimizer input_cont true_cont nsqrt uspline xs quad
    min_num_pix min_num_qso cholesky curve_fit vspline write_ok iter_suffix smooth junk dwave n o l). Qed.
Print Assumptions C58_tables.

(** two ranks with one spectrum each, with and without a fiducial var_lss *)
Definition ex_spline (x : list Qc) (y w : list num) : option (list num) := Some [nth 0 y NaN].
Definition ex_fitting2 (norm : bool) (o : fitopts) (r : nat) : prog fval (fitter * list spec * list bool) :=
  continuum_fitting (ex_g 1 true norm false) ex_ev (fun _ _ => Fin (zq 2)) (fun _ => n0)
    (fun _ _ _ _ _ _ => Some (mkMin true [Fin (zq 2)] [[n1]])) (fun _ => None) (fun _ _ => n1) (fun _ => Fin (fq 1 100))
    (fun _ y _ => Some y) [0; 1]%Qc ex_simpson 0 0 (fun _ => true) (fun _ _ _ _ => Some ([Fin (fq 1 5); Fin (zq 2)], [n1; n1])) ex_spline
    (fun _ => true) (fun _ => ""%string) (fun a _ => a) (fun _ => n0) 1%Qc r o [ex_specx].
Definition nth_result (r : nat) (o : outcome (fitter * list spec * list bool)) : fitter * list spec * list bool :=
  match o with Done l => match nth r l (Failed SysExit) with Finished x => x | Failed _ => (ex_t0, [], []) end | _ => (ex_t0, [], []) end.
Definition both_finished (o : outcome (fitter * list spec * list bool)) : bool :=
  match o with Done [Finished _; Finished _] => true | _ => false end.
Lemma both_finishes (p : nat -> prog fval (fitter * list spec * list bool)) : both_finished (spmd 2 p) = true ->
  finishes 2 p (fun r => nth_result r (spmd 2 p)).
Proof. unfold finishes. destruct (spmd 2 p) as [[|[x|e] [|[y|e'] [|? ?]]]| |]; try discriminate. reflexivity. Qed.
Definition table (o : outcome (fitter * list spec * list bool)) (r : nat) : nat * list (option Q) * list (option Q) :=
  let '(t, l, _) := nth_result r o in (length l, map sh (i_fp (deref t (t_var t))), map sh (i_fp (deref t (t_eta t)))).
Example C58_nonvacuous :
  finishes 2 (ex_fitting2 false (ex_o None None false)) (fun r => nth_result r (spmd 2 (ex_fitting2 false (ex_o None None false)))) /\
  table (spmd 2 (ex_fitting2 false (ex_o None None false))) 1 = (1, [Some (1 # 5)%Q], [Some (2 # 1)%Q]) /\
  finishes 2 (ex_fitting2 true (ex_o (Some (Some ex_fid)) None false))
    (fun r => nth_result r (spmd 2 (ex_fitting2 true (ex_o (Some (Some ex_fid)) None false)))) /\
  table (spmd 2 (ex_fitting2 true (ex_o (Some (Some ex_fid)) None false))) 1 = (1, [Some (1 # 5)%Q], [Some (2 # 1)%Q]) /\
  good_edges 5 (map zq [1; 2; 3; 4; 5; 6]%Z) /\
  (forall x y w r, ex_spline x y w = Some r -> length r = 1).
Proof.
  split; [apply both_finishes; lazy; reflexivity|]. split; [lazy; reflexivity|].
  split; [apply both_finishes; lazy; reflexivity|]. split; [lazy; reflexivity|]. split.
  - split; [reflexivity|]. split; [reflexivity|]. cbn. intros i j H.
    destruct i as [|[|[|[|[|[|?]]]]]]; destruct j as [|[|[|[|[|[|?]]]]]]; try lia; cbn; reflexivity.
  - unfold ex_spline. intros x y w r E. injection E as <-. reflexivity.
Qed.
