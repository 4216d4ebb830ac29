(** The tables of the continuum fitter at the end of mpi_continuum_fitting. *)
From Coq Require Import ZArith String List Bool Arith Lia Qcanon Field.
From Verif Require Import Num NpList NpListFacts Exn Dict Mpi ModelMpiUtils ModelSpectrum ModelMasks ModelContinuum ModelStack ModelSubsample
  ModelVarFit ModelFitter SpecMpi SpecVarFit SpecFinal SpecUpdate ProofCatalog ProofMpi ProofMpi2 ProofLock ProofSafe ProofSpectrum1
  ProofVarKeep ProofVarFit3 ProofVarFit4 ProofExposures3 ProofFitter ProofFinal ProofUpdate ProofUpdate2.
Import ListNotations.
Local Open Scope nat_scope.

Lemma init_tables n g o : 1 <= n ->
  together n (fun r => fitter_init g r o)
    (fun f => exists mf T, refs_ok T /\ forall r, r < n -> fst (f r) = mf /\ set_tvfit None (snd (f r)) = T /\
       match o_varlss o with Some _ => t_vfit (snd (f r)) = None | None => begins g r (snd (f r)) end).
Proof.
  intro Hn. unfold fitter_init.
  apply (together_bind n _ _ (fun f => exists i, forall r, r < n -> f r = i)); [assumption| |].
  { apply together_same; [assumption|]. intros a _. now exists a. }
  intros f1 (rf0 & H1). apply (together_bind n _ _ (fun f => exists i, forall r, r < n -> f r = i)); [assumption| |].
  { apply together_same; [assumption|]. intros a _. now exists a. }
  intros f2 (k & H2). apply (together_bind n _ _ (fun f => exists i, forall r, r < n -> f r = i)); [assumption| |].
  { destruct (o_meanflux o); [|apply together_ret; now eexists].
    eapply together_weaken; [|now apply read_interp_together]. intros f (a & _ & Hf). now exists a. }
  intros f3 (mf & H3).
  apply (together_bind n _ _ (fun f => exists i, forall r, r < n -> snd (f r) = i /\ fst (f r) = match o_varlss o with Some _ => None | None => Some (new_vfit g r) end)); [assumption| |].
  { destruct (o_varlss o) as [file|].
    - eapply (together_bind n); [assumption|now apply read_interp_together|]. intros f (i & E & Hi). apply together_ret.
      exists i. intros r Hr. cbn. split; [now apply Hi|reflexivity].
    - apply (together_bind n _ _ (fun f => exists i, forall r, r < n -> f r = i)); [assumption| |].
      + apply together_ext with (fun _ => of_res (construct_interp (fq 1 10) (new_vfit g 0))); [reflexivity|].
        apply together_same; [assumption|]. intros a _. now exists a.
      + intros f (i & Hi). apply together_ret. exists i. intros r Hr. split; [now apply Hi|reflexivity]. }
  intros f4 (i & H4). apply together_ret.
  exists mf, (mkFitter (mkInt false rf0 (g_dwrf g) (repeat n1 (length (g_rfwave g))) (repeat n0 (length (g_rfwave g))))
                [i; ones_like i] 0 1 0 1 None k). split; [unfold refs_ok; cbn; lia|].
  intros r Hr. destruct (H4 r Hr) as [A B]. cbn [fst snd]. split; [now apply H3|]. split.
  { unfold set_tvfit. cbn. now rewrite A, (H1 r Hr), (H2 r Hr). }
  cbn [t_vfit]. rewrite B. destruct (o_varlss o); [reflexivity|]. exists (new_vfit g r). split; [reflexivity|apply reset_init].
Qed.

Lemma filter_twice {A} (p : A -> bool) l : filter p (filter p l) = filter p l.
Proof. induction l as [|x l IH]; [reflexivity|]. cbn. destruct (p x) eqn:E; cbn; rewrite ?E, IH; reflexivity. Qed.
Lemma tables_valid g np nq nsqrt cholesky curve_fit spline n l t :
  fitted_tables g np nq nsqrt cholesky curve_fit spline n l t ->
  fitted_tables g np nq nsqrt cholesky curve_fit spline n (fun r => filter s_valid (l r)) t.
Proof.
  intros (arms & gs & y & e & H & K). exists arms, gs, y, e. split; [|exact K]. intros r Hr. rewrite filter_twice. now apply H.
Qed.
Lemma tables_same g np nq nsqrt cholesky curve_fit spline n l l' t : (forall r, r < n -> l r = l' r) ->
  fitted_tables g np nq nsqrt cholesky curve_fit spline n l t ->
  fitted_tables g np nq nsqrt cholesky curve_fit spline n l' t.
Proof.
  intros E (arms & gs & y & e & H & K). exists arms, gs, y, e. split; [|exact K]. intros r Hr. rewrite <- (E r Hr). now apply H.
Qed.

Section Fitting.
Variable g : config.
Variable ev : interp -> Qc -> num.
Variable ev_stack : stacker -> Qc -> num.
Variable slope : Qc -> num.
Variable minimizer : interp -> interp -> interp -> interp -> spec -> num -> option minres.
Variable input_cont : spec -> option (Qc -> num).
Variable true_cont : spec -> Qc -> num.
Variable nsqrt : num -> num.
Variable uspline : list Qc -> list num -> list num -> option (list num).
Variable xs : list Qc.
Variable quad : list Qc -> Qc.
Variables (np nq : nat) (cholesky : list (list Qc) -> bool)
  (curve_fit : list Qc -> list Qc -> list num -> errors -> option (list num * list num))
  (vspline : list Qc -> list num -> list num -> option (list num)).
Variable write_ok : string -> bool.
Variable iter_suffix : nat -> string.
Variable smooth : arr -> Qc -> arr.
Variable junk : nat -> num.
Variable dwave : Qc.

Theorem fitting_tables n o (l : nat -> list specx) : 1 <= n -> g_size g = n ->
  (g_w1 g < g_w2 g)%Qc -> 1 <= g_nw g -> 1 <= g_nv g -> good_edges (g_nv g) (g_edges g) ->
  (forall x y w r, vspline x y w = Some r -> length r = g_nw g) ->
  o_additive o = None -> o_coadd_after o = false ->
  (o_varlss o = None -> g_norm g = false /\ g_etacal g = false /\ n_iterations g <> 0) ->
  forall f, finishes n (fun r => continuum_fitting g ev ev_stack slope minimizer input_cont true_cont nsqrt uspline xs quad
      np nq cholesky curve_fit vspline write_ok iter_suffix smooth junk dwave r o (l r)) f ->
  forall r, r < n -> fitted_tables g np nq nsqrt cholesky curve_fit vspline n (fun q => snd (fst (f q))) (fst (fst (f r))).
Proof.
  intros Hn Hsize Hw Hnw Hnv He Hsp Ha Hco Hc f Hf.
  assert (together n (fun r => continuum_fitting g ev ev_stack slope minimizer input_cont true_cont nsqrt uspline xs quad
      np nq cholesky curve_fit vspline write_ok iter_suffix smooth junk dwave r o (l r))
      (fun f => forall r, r < n -> fitted_tables g np nq nsqrt cholesky curve_fit vspline n (fun q => snd (fst (f q))) (fst (fst (f r))))) as K.
  { clear f Hf. unfold continuum_fitting. eapply (together_bind n); [assumption|now apply init_tables|]. intros f (mf & T & HT & Hf).
    rewrite Ha, Hco.
    apply together_ext with (fun r => pbind (iterate g ev ev_stack (ev mf) slope (minimizer mf) input_cont true_cont nsqrt uspline xs quad
         np nq cholesky curve_fit vspline write_ok iter_suffix r (snd (f r)) (l r)) (fun x =>
      let '(t, l1, log) := x in
      pbind (Ret (valid_spectra (map fst l1))) (fun v1 => pbind (Ret v1) (fun v2 =>
      pbind (save_catalog g r o l1) (fun _ => Ret (t, v2, log)))))).
    { intros r Hr. destruct (Hf r Hr) as (<- & _). reflexivity. }
    eapply (together_bind n); [assumption|apply (iterate_tables g ev ev_stack (fun _ => ev mf) slope (fun _ => minimizer mf) input_cont true_cont nsqrt
       uspline xs quad np nq cholesky curve_fit vspline write_ok iter_suffix n Hn Hsize Hw Hnw Hnv He Hsp (fun r => snd (f r)) l T)|].
    { intros r Hr. now destruct (Hf r Hr) as (_ & E & _). }
    { destruct (o_varlss o) as [file|].
      - right. intros r Hr. now destruct (Hf r Hr) as (_ & _ & E).
      - left. split; [intros r Hr; now destruct (Hf r Hr) as (_ & _ & E)|]. split; [exact HT|now apply Hc]. }
    intros h Hh. apply together_ext with (fun r => pbind (save_catalog g r o (snd (fst (h r)))) (fun _ => Ret (fst (fst (h r)), valid_spectra (map fst (snd (fst (h r)))), snd (h r)))).
    { intros r Hr. now destruct (h r) as [[t l1] lg]. }
    apply (together_bind n _ _ (fun _ => True)); [assumption| |].
    { unfold save_catalog. apply together_if; [|now apply together_ret].
      apply (together_peq n _ (fun r => pbind (of_res (if o_rows o (snd (fst (h r))) then Ok tt else Err (OtherExn "ValueError")))
        (fun _ => Allreduce (fun a _ => a) FUnit (fun _ => of_res (if Nat.eqb r 0 && negb (o_catalog o) then Err (OtherExn "OSError") else Ok tt))))).
      { intros r Hr. destruct (o_rows o _); cbn; [|constructor]. constructor. intro x. destruct (_ && _); constructor. }
      apply (together_bind n _ _ (fun _ => True)); [assumption| |].
      - apply together_local; [assumption| |easy]. intros. now destruct (o_rows o _).
      - intros _ _. apply together_allreduce; [assumption|]. apply together_local; [assumption| |easy]. intros. now destruct (_ && _). }
    intros _ _. apply together_ret. intros r Hr. cbn [fst snd]. apply tables_valid. now apply Hh. }
  destruct (together_finishes n _ _ f Hn K Hf) as (f' & HQ & E). intros r Hr.
  specialize (HQ r Hr). rewrite (E r Hr) in HQ. revert HQ. apply tables_same. intros q Hq. now rewrite (E q Hq).
Qed.
End Fitting.
