(** C14, C47, C48: PiccaContinuumFitter.iterate and mpi_continuum_fitting. *)
From Coq Require Import QArith_base ZArith String List Bool Arith Lia Qcanon.
From Verif Require Import Num NpList Exn Dict Mpi ModelMpiUtils ModelSpectrum ModelMasks ModelContinuum ModelStack ModelSubsample
  ModelVarFit ModelFitter ModelDelta SpecMpi SpecSpectrum SpecDelta SpecFinal PropMasks ProofFitter ProofFinal.
Import ListNotations.
Local Open Scope nat_scope.

(** ** C14 *)
(** For all local spectra on all ranks, all options and all results of the
    numerical routines: no rank is left waiting, and if the ranks finish, they
    have all seen the same sequence of reports of update_mean_cont: at most
    niterations of them, and "converged" only as the last one; fewer than
    niterations only if the last one is "converged". *)
Theorem C14_iterate g ev ev_stack slope minimizer input_cont true_cont nsqrt uspline xs quad
    min_num_pix min_num_qso cholesky curve_fit vspline write_ok iter_suffix n o (l : nat -> list specx) : 1 <= n ->
  together n (fun r => pbind (fitter_init g r o) (fun mt =>
      iterate g ev ev_stack (ev (fst mt)) slope (minimizer (fst mt)) input_cont true_cont nsqrt uspline xs quad
         min_num_pix min_num_qso cholesky curve_fit vspline write_ok iter_suffix r (snd mt) (l r)))
    (fun f => exists log, iteration_log (n_iterations g) log /\ forall r, r < n -> snd (f r) = log).
Proof. exact (iterate_all g ev ev_stack slope minimizer input_cont true_cont nsqrt uspline xs quad
    min_num_pix min_num_qso cholesky curve_fit vspline write_ok iter_suffix n o l). Qed.
Print Assumptions C14_iterate.

Definition ex_g (niter : nat) (eta norm etacal : bool) : config :=
  mkConf Picca 0 niter eta norm etacal false (zq 3600) (zq 3640) 1 5 (map zq [1; 2; 3; 4; 5; 6]%Z) false 2
    (centers (zq 1200) (zq 1202) 2) 1.
Definition ex_simpson (y : list Qc) : Qc := (qsum y / (1 + 1))%Qc.
Definition ex_ev (i : interp) (_ : Qc) : num := nth 0 (i_fp i) NaN.
Definition ex_specx : specx := (set_x [n1] (ex_forest (zq 2) 0 0), []).
Definition ex_iterate (niter : nat) (sq : num) (valid : bool) (o : fitopts) (r : nat) : prog fval (fitter * list specx * list bool) :=
  pbind (fitter_init (ex_g niter false false false) r o) (fun mt =>
  iterate (ex_g niter false false false) ex_ev (fun _ _ => n1) (ex_ev (fst mt)) (fun _ => n0)
    (fun _ _ _ _ _ => Some (mkMin valid [Fin (zq 2)] [[n1]])) (fun _ => None) (fun _ _ => n1) (fun _ => sq)
    (fun _ y _ => Some y) [0; 1]%Qc ex_simpson 0 0 (fun _ => true) (fun _ _ _ _ => Some ([Fin (fq 1 5)], [n1])) (fun _ y _ => Some y)
    (fun _ => true) (fun _ => ""%string) r (snd mt) [ex_specx]).
Definition ex_o (vl add : option (option interp)) (coadd : bool) : fitopts := mkOpts None vl add coadd (fun _ => true) true.
Definition logs (o : outcome (fitter * list specx * list bool)) :=
  match o with Done l => Some (map (fun e => match e with Finished x => Some (snd x) | Failed _ => None end) l) | _ => None end.
(** two ranks that converge at once, that never converge, that have no valid fit *)
Example C14_nonvacuous :
  logs (spmd 2 (ex_iterate 3 (Fin (fq 1 100)) true (ex_o None None false))) = Some [Some [true]; Some [true]] /\
  logs (spmd 2 (ex_iterate 2 (Fin (zq 1000)) true (ex_o None None false))) = Some [Some [false; false]; Some [false; false]] /\
  spmd 2 (ex_iterate 2 (Fin (zq 1000)) false (ex_o None None false)) =
    Done (repeat (Failed (QsonicExn "Crucial error: No valid continuum fits!"%string)) 2).
Proof. repeat split; lazy; reflexivity. Qed.

(** ** C47 *)
(** With a fiducial var_lss, and neither coadding "after" nor additive noise at
    the end: the weights are those of the fiducial var_lss, with the inverse
    variance and continuum (s0) of the last fit.  (eta is an interpolator of
    ones; TrueContinuumModel does not use it.)  Missing: coadding "after" and
    additive noise, for which it is false (below). *)
Theorem C47_fiducial_partial g ev ev_stack slope minimizer input_cont true_cont nsqrt uspline xs quad
    min_num_pix min_num_qso cholesky curve_fit vspline write_ok iter_suffix smooth junk dwave n o (l : nat -> list specx) f :
  1 <= n -> n_iterations g <> 0 ->
  (forall r, r < n -> Forall (fun sx => plain_forest (fst sx)) (l r)) ->
  o_varlss o <> None -> o_additive o = None -> o_coadd_after o = false ->
  finishes n (fun r => continuum_fitting g ev ev_stack slope minimizer input_cont true_cont nsqrt uspline xs quad
      min_num_pix min_num_qso cholesky curve_fit vspline write_ok iter_suffix smooth junk dwave r o (l r)) f ->
  exists i K, o_varlss o = Some (Some i) /\
    forall r s, r < n -> In s (snd (fst (f r))) ->
      exists s0, plain_forest s0 /\ rescaled (g_norm g) (g_etacal g) K (ev (ones_like i)) s0 s /\
        weighted (fivar_sm (s_f s0)) (s_cont s0) (ev i)
          (match g_model g with TrueCont => fun _ => n1 | _ => ev (ones_like i) end) s.
Proof. exact (fiducial_weights g ev ev_stack slope minimizer input_cont true_cont nsqrt uspline xs quad
    min_num_pix min_num_qso cholesky curve_fit vspline write_ok iter_suffix smooth junk dwave n o l f). Qed.
Print Assumptions C47_fiducial_partial.

(** With coadding "after" or additive noise the weights are recomputed with the
    interpolators that the fitter holds at the end ... *)
Theorem C47_recomputed g ev ev_stack slope minimizer input_cont true_cont nsqrt uspline xs quad
    min_num_pix min_num_qso cholesky curve_fit vspline write_ok iter_suffix smooth junk dwave n o (l : nat -> list specx) f :
  1 <= n -> n_iterations g <> 0 ->
  (forall r, r < n -> Forall (fun sx => plain_forest (fst sx)) (l r)) ->
  o_additive o <> None \/ o_coadd_after o = true ->
  finishes n (fun r => continuum_fitting g ev ev_stack slope minimizer input_cont true_cont nsqrt uspline xs quad
      min_num_pix min_num_qso cholesky curve_fit vspline write_ok iter_suffix smooth junk dwave r o (l r)) f ->
  forall r s, r < n -> In s (snd (fst (f r))) ->
    let t := fst (fst (f r)) in
    plain_forest s /\ weighted (fivar_sm (s_f s)) (s_cont s) (ev (deref t (t_var t))) (ev (deref t (t_eta t))) s.
Proof. exact (recomputed_weights g ev ev_stack slope minimizer input_cont true_cont nsqrt uspline xs quad
    min_num_pix min_num_qso cholesky curve_fit vspline write_ok iter_suffix smooth junk dwave n o l f). Qed.
Print Assumptions C47_recomputed.

Definition ex_fitting (g : config) (fit : list num) (o : fitopts) (r : nat) : prog fval (fitter * list spec * list bool) :=
  continuum_fitting g ex_ev (fun _ _ => Fin (zq 2)) (fun _ => n0)
    (fun _ _ _ _ _ _ => Some (mkMin true [Fin (zq 2)] [[n1]])) (fun _ => None) (fun _ _ => n1) (fun _ => Fin (fq 1 100))
    (fun _ y _ => Some y) [0; 1]%Qc ex_simpson 0 0 (fun _ => true) (fun _ _ _ _ => Some (fit, fit)) (fun _ y _ => Some y)
    (fun _ => true) (fun _ => ""%string) (fun a _ => a) (fun _ => n0) 1%Qc r o [ex_specx].
Definition ex_fid : interp := mkInt false (zq 3600) 1 [Fin (fq 1 10); Fin (fq 1 10)] [n0; n0].
Definition ex_t0 : fitter := mkFitter ex_fid [] 0 0 0 0 None (mkStack 0 0 0 0 0 0 [] [] [] []).
Definition the_result (o : outcome (fitter * list spec * list bool)) : fitter * list spec * list bool :=
  match o with Done [Finished x] => x | _ => (ex_t0, [], []) end.
Definition finished1 (o : outcome (fitter * list spec * list bool)) : bool :=
  match o with Done [Finished (_, [_], _)] => true | _ => false end.
Lemma finished1_finishes (p : nat -> prog fval (fitter * list spec * list bool)) : finished1 (spmd 1 p) = true ->
  finishes 1 p (fun _ => the_result (spmd 1 p)).
Proof. unfold finishes. destruct (spmd 1 p) as [[|[[[t [|s [|? ?]]] lg]|e] [|? ?]]| |]; try discriminate. reflexivity. Qed.
Definition the_spec (p : nat -> prog fval (fitter * list spec * list bool)) : spec := hd (fst ex_specx) (snd (fst (the_result (spmd 1 p)))).
Lemma finished1_In p : finished1 (spmd 1 p) = true -> In (the_spec p) (snd (fst (the_result (spmd 1 p)))).
Proof. unfold the_spec. destruct (spmd 1 p) as [[|[[[t [|s [|? ?]]] lg]|e] [|? ?]]| |]; try discriminate. intros _. now left. Qed.
Lemma ex_plain : plain_forest (fst ex_specx).
Proof. split; [cbn; repeat constructor; cbn; intuition discriminate|repeat split; cbn; lia]. Qed.
(** (ivar, cont, weight) of pixel k of arm *)
Definition sh (x : num) : option QArith_base.Q := match x with Fin q => Some (this q) | _ => None end.
Definition pix3 (s : spec) (arm : string) (k : nat) : list (option (option QArith_base.Q)) :=
  map (option_map sh) [at_pix (fivar (s_f s)) arm k; at_pix (s_cont s) arm k; at_pix (fweight (s_f s)) arm k].
Definition qs (a b c : QArith_base.Q) : list (option (option QArith_base.Q)) := [Some (Some a); Some (Some b); Some (Some c)].
Arguments qs (a b c)%Q_scope.
Lemma sh_Fin x q : option_map sh x = Some (Some (this q)) -> x = Some (Fin q).
Proof. destruct x as [[p| | |]|]; try discriminate. cbn. intros [= E]. f_equal. f_equal. apply Qc_is_canon. now rewrite E. Qed.
Lemma pix3_Fin s arm k a b c : pix3 s arm k = qs (this a) (this b) (this c) ->
  at_pix (fivar (s_f s)) arm k = Some (Fin a) /\ at_pix (s_cont s) arm k = Some (Fin b) /\ at_pix (fweight (s_f s)) arm k = Some (Fin c).
Proof. unfold pix3, qs. cbn [map]. intros [= A B C]. repeat split; now apply sh_Fin. Qed.
Definition at_wave (s : spec) (arm : string) (k : nat) (w : Z) : Prop := option_map this (at_pix (fw (s_f s)) arm k) = Some (this (zq w)).
Lemma at_wave_Some s arm k w : at_wave s arm k w -> at_pix (fw (s_f s)) arm k = Some (zq w).
Proof. unfold at_wave. destruct (at_pix _ _ _); [|discriminate]. intros [= E]. f_equal. apply Qc_is_canon. now rewrite E. Qed.
(** one pixel is enough *)
Lemma not_weighted s arm k w a b c vl eta : at_wave s arm k w -> pix3 s arm k = qs (this a) (this b) (this c) ->
  fivar_sm (s_f s) = fivar (s_f s) ->
  sh (ndiv (Fin a) (nadd (eta (zq w)) (nmul (Fin a) (nmul (vl (zq w)) (nsq (Fin b)))))) <> Some (this c) ->
  ~ weighted (fivar_sm (s_f s)) (s_cont s) vl eta s.
Proof.
  intros W P E N H. apply at_wave_Some in W. apply pix3_Fin in P as (P1 & P2 & P3). rewrite E in H.
  specialize (H _ _ _ _ _ W P1 P2). rewrite P3 in H. apply N.
  match type of H with Some ?x = Some ?y => assert (x = y) as K by congruence end. now rewrite <- K.
Qed.
Lemma not_file_weights s arm k w a b c e v vl eta : at_wave s arm k w -> pix3 s arm k = qs (this a) (this b) (this c) ->
  eta (zq w) = Fin e -> vl (zq w) = Fin v -> (0 < e)%Qc -> (0 <= v)%Qc -> (0 < a * (b * b))%Qc ->
  (c * (b * b) <> / (e * / (a * (b * b)) + v))%Qc -> ~ file_weights vl eta s.
Proof.
  intros W P E1 E2 H1 H2 H3 N H. apply at_wave_Some in W. apply pix3_Fin in P as (P1 & P2 & P3).
  destruct (H _ _ _ _ _ _ _ W P1 P2 E1 E2 H1 H2 H3) as (q & Q1 & Q2). assert (q = c) as -> by congruence. now apply N.
Qed.

(** The partial theorem applies to a run whose weights are 1/(1 + 4/10) for ivar 1 and continuum 2 ... *)
Definition run_fid := ex_fitting (ex_g 1 false false false) [Fin (fq 1 5)] (ex_o (Some (Some ex_fid)) None false).
Example C47_nonvacuous : finishes 1 run_fid (fun _ => the_result (spmd 1 run_fid)) /\
  Forall (fun sx => plain_forest (fst sx)) [ex_specx] /\
  pix3 (the_spec run_fid) "b" 0 = qs (1 # 1) (2 # 1) (5 # 7).
Proof. split; [apply finished1_finishes; lazy; reflexivity|]. split; [constructor; [apply ex_plain|constructor]|lazy; reflexivity]. Qed.

(** ... but with coadding "after", or additive noise, var_lss = 1/5, which was
    fitted at the end, goes into the weights instead of the fiducial 1/10. *)
Definition run_fid_coadd := ex_fitting (ex_g 1 false false false) [Fin (fq 1 5)] (ex_o (Some (Some ex_fid)) None true).
Theorem C47_coadd_after_refuted : exists f s,
  finishes 1 run_fid_coadd f /\ In s (snd (fst (f 0))) /\
  pix3 s "brz" 0 = qs (1 # 1) (2 # 1) (5 # 9) /\
  ~ weighted (fivar_sm (s_f s)) (s_cont s) (ex_ev ex_fid) (fun _ => n1) s.
Proof.
  exists (fun _ => the_result (spmd 1 run_fid_coadd)), (the_spec run_fid_coadd).
  split; [apply finished1_finishes; lazy; reflexivity|]. split; [apply finished1_In; lazy; reflexivity|]. split; [lazy; reflexivity|].
  refine (not_weighted _ "brz" 0 3600 1 (zq 2) (fq 5 9) _ _ _ _ _ _); [lazy; reflexivity|lazy; reflexivity|lazy; reflexivity|vm_compute; discriminate].
Qed.
Print Assumptions C47_coadd_after_refuted.
Definition run_fid_noise := ex_fitting (ex_g 1 false false false) [Fin (fq 1 5)] (ex_o (Some (Some ex_fid)) (Some (Some ex_fid)) false).
Theorem C47_additive_noise_refuted : exists f s,
  finishes 1 run_fid_noise f /\ In s (snd (fst (f 0))) /\
  pix3 s "b" 0 = qs (5 # 7) (2 # 1) (5 # 11) /\
  ~ weighted (fivar_sm (s_f s)) (s_cont s) (ex_ev ex_fid) (fun _ => n1) s.
Proof.
  exists (fun _ => the_result (spmd 1 run_fid_noise)), (the_spec run_fid_noise).
  split; [apply finished1_finishes; lazy; reflexivity|]. split; [apply finished1_In; lazy; reflexivity|]. split; [lazy; reflexivity|].
  refine (not_weighted _ "b" 0 3600 (fq 5 7) (zq 2) (fq 5 11) _ _ _ _ _ _); [lazy; reflexivity|lazy; reflexivity|lazy; reflexivity|vm_compute; discriminate].
Qed.
Print Assumptions C47_additive_noise_refuted.

(** ** C48 *)
(** Without the two rescalings, or if the weights are recomputed afterwards
    (coadding "after", additive noise): one pair (var_lss, eta) for all spectra
    of all ranks such that WEIGHT = 1/(eta/IVAR + var_lss) for the written IVAR
    (spectra without smoothing).  Missing: normalisation or eta calibration
    without recomputation, and "once" for eta (below). *)
Theorem C48_written_partial g ev ev_stack slope minimizer input_cont true_cont nsqrt uspline xs quad
    min_num_pix min_num_qso cholesky curve_fit vspline write_ok iter_suffix smooth junk dwave n o (l : nat -> list specx) f :
  1 <= n -> n_iterations g <> 0 ->
  (forall r, r < n -> Forall (fun sx => plain_forest (fst sx)) (l r)) ->
  o_additive o <> None \/ o_coadd_after o = true \/ (g_norm g = false /\ g_etacal g = false) ->
  finishes n (fun r => continuum_fitting g ev ev_stack slope minimizer input_cont true_cont nsqrt uspline xs quad
      min_num_pix min_num_qso cholesky curve_fit vspline write_ok iter_suffix smooth junk dwave r o (l r)) f ->
  exists vl eta, forall r s, r < n -> In s (snd (fst (f r))) -> (s_sscale s <= 0)%Qc -> file_weights vl eta s /\ weights_explained vl eta s.
Proof. exact (written_weights g ev ev_stack slope minimizer input_cont true_cont nsqrt uspline xs quad
    min_num_pix min_num_qso cholesky curve_fit vspline write_ok iter_suffix smooth junk dwave n o l f). Qed.
Print Assumptions C48_written_partial.

(** what file_weights means for the columns that are read back from a file (see C35) *)
Theorem C48_columns set_pop pow10 st s blind h d vl eta : arm_file set_pop pow10 st s blind h d -> file_weights vl eta s ->
  forall k w i e v, nth_error (d_wave d) k = Some w -> nth_error (d_ivar d) k = Some (Fin i) ->
    eta w = Fin e -> vl w = Fin v -> (0 < e)%Qc -> (0 <= v)%Qc -> (0 < i)%Qc ->
    nth_error (d_weight d) k = Some (Fin (/ (e * / i + v))%Qc).
Proof. exact (file_pixels set_pop pow10 st s blind h d vl eta). Qed.
Print Assumptions C48_columns.

Definition run_plain := ex_fitting (ex_g 1 true false false) [Fin (fq 1 5); Fin (zq 2)] (ex_o None None true).
Example C48_nonvacuous : finishes 1 run_plain (fun _ => the_result (spmd 1 run_plain)) /\
  s_sscale (the_spec run_plain) = 0%Qc /\
  pix3 (the_spec run_plain) "brz" 0 = qs (1 # 1) (2 # 1) (5 # 14).
Proof. split; [apply finished1_finishes; lazy; reflexivity|]. split; [apply Qc_is_canon; lazy; reflexivity|lazy; reflexivity]. Qed.

(** Normalisation by the stacked flux (here 2) rescales the continuum and leaves
    the weights: for the fiducial var_lss = 1/10 and eta = 1, IVAR = 16 and
    WEIGHT = 80/7 instead of 80/13. *)
Definition run_norm := ex_fitting (ex_g 1 false true false) [Fin (fq 1 5)] (ex_o (Some (Some ex_fid)) None false).
Theorem C48_normalised_refuted : exists f s,
  finishes 1 run_norm f /\ In s (snd (fst (f 0))) /\ s_sscale s = 0%Qc /\
  pix3 s "b" 0 = qs (1 # 1) (4 # 1) (5 # 7) /\
  ~ file_weights (ex_ev ex_fid) (fun _ => n1) s.
Proof.
  exists (fun _ => the_result (spmd 1 run_norm)), (the_spec run_norm).
  split; [apply finished1_finishes; lazy; reflexivity|]. split; [apply finished1_In; lazy; reflexivity|].
  split; [apply Qc_is_canon; lazy; reflexivity|]. split; [lazy; reflexivity|].
  refine (not_file_weights _ "b" 0 3600 1 (zq 4) (fq 5 7) 1 (fq 1 10) _ _ _ _ _ _ _ _ _ _);
    [lazy; reflexivity|lazy; reflexivity|reflexivity|reflexivity|reflexivity|discriminate|reflexivity|].
  intro C. apply (f_equal this) in C. vm_compute in C. discriminate C.
Qed.
Print Assumptions C48_normalised_refuted.

(** With eta calibration the ivar is divided by the eta of after the last fit (2)
    and the weights used the eta of before it (1): IVAR = 2 and WEIGHT = 20/7,
    which is 1/(eta/IVAR + var_lss) for none of the values that eta and var_lss
    (1/10, then 1/5) had. *)
Definition run_etacal := ex_fitting (ex_g 1 true false true) [Fin (fq 1 5); Fin (zq 2)] (ex_o None None false).
Theorem C48_eta_calibrated_refuted : exists f s,
  finishes 1 run_etacal f /\ In s (snd (fst (f 0))) /\ s_sscale s = 0%Qc /\
  pix3 s "b" 0 = qs (1 # 2) (2 # 1) (5 # 7) /\
  forall vl eta, (forall w, vl w = Fin (fq 1 10) \/ vl w = Fin (fq 1 5)) -> (forall w, eta w = Fin 1 \/ eta w = Fin (zq 2)) ->
    ~ file_weights vl eta s.
Proof.
  exists (fun _ => the_result (spmd 1 run_etacal)), (the_spec run_etacal).
  split; [apply finished1_finishes; lazy; reflexivity|]. split; [apply finished1_In; lazy; reflexivity|].
  split; [apply Qc_is_canon; lazy; reflexivity|]. split; [lazy; reflexivity|].
  assert (at_wave (the_spec run_etacal) "b" 0 3600) as W by (lazy; reflexivity).
  assert (pix3 (the_spec run_etacal) "b" 0 = qs (this (fq 1 2)) (this (zq 2)) (this (fq 5 7))) as P by (lazy; reflexivity).
  intros vl eta Hv He. destruct (Hv (zq 3600)) as [V|V], (He (zq 3600)) as [E|E];
    refine (not_file_weights _ "b" 0 3600 (fq 1 2) (zq 2) (fq 5 7) _ _ vl eta W P E V _ _ _ _);
    try reflexivity; try discriminate; intro C; apply (f_equal this) in C; vm_compute in C; discriminate C.
Qed.
Print Assumptions C48_eta_calibrated_refuted.

(** With eta calibration and coadding "after", eta (2) goes in twice: the raw ivar
    of the first pixel is 1, so IVAR without calibration is 4, and
    WEIGHT = 5/6 = 1/(eta^2/4 + 1/5), not 1/(eta/4 + 1/5). *)
Definition run_twice := ex_fitting (ex_g 1 true false true) [Fin (fq 1 5); Fin (zq 2)] (ex_o None None true).
Theorem C48_eta_twice_refuted : exists f s,
  finishes 1 run_twice f /\ In s (snd (fst (f 0))) /\ s_sscale s = 0%Qc /\
  at_pix (fivar (s_f (fst ex_specx))) "b" 0 = Some (Fin (zq 1)) /\
  pix3 s "brz" 0 = qs (1 # 2) (2 # 1) (5 # 24) /\
  (fq 5 24 * (zq 2 * zq 2) = / (zq 2 * zq 2 * / (zq 1 * (zq 2 * zq 2)) + fq 1 5))%Qc.
Proof.
  exists (fun _ => the_result (spmd 1 run_twice)), (the_spec run_twice).
  split; [apply finished1_finishes; lazy; reflexivity|]. split; [apply finished1_In; lazy; reflexivity|].
  split; [apply Qc_is_canon; lazy; reflexivity|]. split; [reflexivity|]. split; [lazy; reflexivity|].
  apply Qc_is_canon. vm_compute. reflexivity.
Qed.
Print Assumptions C48_eta_twice_refuted.
