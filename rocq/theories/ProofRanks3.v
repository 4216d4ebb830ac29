(** mpi_continuum_fitting with a fiducial var_lss does not depend on the number of ranks (C69). *)
From Coq Require Import ZArith String List Bool Arith Lia Qcanon Permutation.
From Verif Require Import Num NpList Exn Dict Mpi ModelMpiUtils ModelSpectrum ModelMasks ModelContinuum ModelStack ModelSubsample
  ModelVarFit ModelFitter SpecMpi SpecFinal SpecRanks ProofMpi ProofMpi2 ProofStack ProofFitter ProofAttributes ProofRanks ProofRanks2.
Import ListNotations.
Local Open Scope nat_scope.

Lemma finishes_bcast {V A} n (v : nat -> V) (k : nat -> V -> prog V A) f : 1 <= n -> finishes n (fun r => Bcast (v r) (k r)) f ->
  finishes n (fun r => k r (v 0)) f.
Proof. unfold finishes. intros Hn H. now rewrite spmd_bcast in H by assumption. Qed.
Lemma read_inv {B} n msg file (K : nat -> interp -> prog fval B) f : 1 <= n ->
  finishes n (fun r => pbind (read_interp r msg file) (K r)) f -> exists i, file = Some i /\ finishes n (fun r => K r i) f.
Proof.
  intros Hn H. 
  assert (finishes n (fun r => Bcast (FInt (if Nat.eqb r 0 then file else None)) (fun x => 
    pbind (lift FInt fint_of (finish_bcast msg (fint_of x))) (K r))) f) as H'.
  { refine (finishes_peq n _ _ f _ H). intros r Hr. unfold read_interp, mpi_fnc_bcast. rewrite orb_false_r.
    destruct (Nat.eqb r 0), file; cbn; apply peq_refl. }
  apply finishes_bcast in H'; [|assumption]. cbn in H'. destruct file as [i|]; cbn in H'; [now exists i|]. now apply finishes_raise in H'.
Qed.
(** the fitter that all ranks start with *)
Definition fid_init (g : config) (mf i : interp) : res (interp * fitter) :=
  rbind (rfirst (g_rfwave g)) (fun rf0 =>
  rbind (stacker_init (g_w1 g) (g_w2 g) (zq 8) (g_rfwave g) (g_dwrf g)) (fun k =>
  let nb := length (g_rfwave g) in
  Ok (mf, mkFitter (mkInt false rf0 (g_dwrf g) (repeat n1 nb) (repeat n0 nb)) [i; ones_like i] 0 1 0 1 None k))).
Definition fid_mf (g : config) (o : fitopts) : option interp :=
  match o_meanflux o with Some file => file | None => Some (mkInt true (g_w1 g) (g_w2 g - g_w1 g) (repeat n1 3) []) end.
Lemma fitter_init_inv {B} n g o (K : nat -> interp * fitter -> prog fval B) f : 1 <= n -> o_varlss o <> None ->
  finishes n (fun r => pbind (fitter_init g r o) (K r)) f ->
  exists mf i x, fid_mf g o = Some mf /\ o_varlss o = Some (Some i) /\ fid_init g mf i = Ok x /\ t_vfit (snd x) = None /\ finishes n (fun r => K r x) f.
Proof.
  intros Hn HO H. unfold fitter_init in H.
  apply (finishes_ext n _ _ f (fun r _ => res_assoc _ _ _)) in H. apply finishes_const in H as (rf0 & E1 & H); [|assumption].
  apply (finishes_ext n _ _ f (fun r _ => res_assoc _ _ _)) in H. apply finishes_const in H as (k & E2 & H); [|assumption].
  apply (finishes_peq n _ _ f (fun r _ => pbind_assoc _ _ _)) in H. unfold fid_mf, fid_init. rewrite E1, E2. cbn [rbind].
  destruct (o_varlss o) as [vl|]; [|congruence].
  assert (exists mf, match o_meanflux o with Some file => file | None => Some (mkInt true (g_w1 g) (g_w2 g - g_w1 g)%Qc (repeat n1 3) []) end = Some mf /\
    finishes n (fun r => pbind (pbind (pbind (read_interp r "Failed to construct fiducial mean flux or varlss." vl) (fun i => Ret (@None vfit, i))) (fun vi =>
      Ret (mf, mkFitter (mkInt false rf0 (g_dwrf g) (repeat n1 (length (g_rfwave g))) (repeat n0 (length (g_rfwave g)))) [snd vi; ones_like (snd vi)] 0 1 0 1 (fst vi) k))) (K r)) f)
    as (mf & Emf & H').
  { destruct (o_meanflux o) as [file|].
    - apply read_inv in H as (mf & -> & H); [|assumption]. now exists mf.
    - cbn [pbind] in H. eexists. split; [reflexivity|exact H]. }
  clear H. rewrite Emf.
  apply (finishes_peq n _ _ f (fun r _ => pbind_assoc _ _ _)) in H'. apply (finishes_peq n _ _ f (fun r _ => pbind_assoc _ _ _)) in H'.
  apply read_inv in H' as (i & -> & H); [|assumption]. exists mf, i. eexists. split; [reflexivity|]. split; [reflexivity|].
  split; [reflexivity|]. split; [reflexivity|]. exact H.
Qed.

Lemma gathered_valid n l : gathered n (fun r => valid_spectra (l r)) = valid_spectra (gathered n l).
Proof. unfold gathered, valid_spectra. induction (seq 0 n) as [|r rs IH]; cbn; [reflexivity|]. now rewrite filter_app, IH. Qed.

Section Fitting.
Variable g : config.
Variable ev : interp -> Qc -> num.
Variable ev_stack : stacker -> Qc -> num.
Variable slope : Qc -> num.
Variable minimizer : interp -> interp -> interp -> interp -> spec -> num -> option minres.
Variable input_cont : spec -> option (Qc -> num).
Variable true_cont : spec -> Qc -> num.
Variable nsqrt : num -> num.
Variable uspline : list Qc -> list num -> list num -> option (list num).
Variable xs : list Qc.
Variable quadr : list Qc -> Qc.
Variables (min_num_pix min_num_qso : nat) (cholesky : list (list Qc) -> bool)
  (curve_fit : list Qc -> list Qc -> list num -> errors -> option (list num * list num))
  (vspline : list Qc -> list num -> list num -> option (list num)).
Variable write_ok : string -> bool.
Variable iter_suffix : nat -> string.
Variable smooth : arr -> Qc -> arr.
Variable junk : nat -> num.
Variable dwave : Qc.
Notation iterate g mf := (iterate g ev ev_stack (ev mf) slope (minimizer mf) input_cont true_cont nsqrt uspline xs quadr
                          min_num_pix min_num_qso cholesky curve_fit vspline write_ok iter_suffix).
Notation fitting g := (continuum_fitting g ev ev_stack slope minimizer input_cont true_cont nsqrt uspline xs quadr
                          min_num_pix min_num_qso cholesky curve_fit vspline write_ok iter_suffix smooth junk dwave).
Lemma all_ranks n m o l h f e : 1 <= n -> 1 <= m -> o_varlss o <> None -> Permutation (gathered n l) (gathered m h) ->
  o_additive o = None -> o_coadd_after o = false ->
  finishes n (fun r => fitting (on_ranks n g) r o (l r)) f -> finishes m (fun r => fitting (on_ranks m g) r o (h r)) e ->
  same_results n m f e.
Proof.
  intros Hn Hm HO P O1 O2 H1 H2. unfold continuum_fitting in H1, H2. rewrite O1, O2 in H1, H2.
  apply fitter_init_inv in H1 as (mf & i & x & A1 & A2 & A3 & A4 & H1); [|assumption|assumption].
  apply fitter_init_inv in H2 as (mf' & i' & x' & B1 & B2 & B3 & B4 & H2); [|assumption|assumption].
  change (fid_mf (on_ranks m g)) with (fid_mf (on_ranks n g)) in B1. change (fid_init (on_ranks m g)) with (fid_init (on_ranks n g)) in B3.
  assert (x' = x) as -> by congruence.
  apply (iterate_ranks_k g _ _ _ _ _ _ _ _ _ _ _ _ _ _ _ _ _ _ n m _ l h _ _ f e Hn Hm A4 P H1) in H2 as (y & z & (Q1 & Q2) & G1 & G2).
  assert (forall k F (w : nat -> fitter * list specx * list bool), (forall r, r < k -> True) -> finishes k (fun r => let '(t, l1, log) := w r in
     pbind (@Ret fval _ (valid_spectra (map fst l1))) (fun v1 => pbind (Ret v1) (fun v2 => pbind (save_catalog g r o l1) (fun _ => Ret (t, v2, log))))) F ->
     forall r, r < k -> F r = (fst (fst (w r)), valid_spectra (map fst (snd (fst (w r)))), snd (w r))) as Q.
  { intros k F w _ HF. refine (leaf_finishes k _ F (fun r X => X = (fst (fst (w r)), valid_spectra (map fst (snd (fst (w r)))), snd (w r))) _ HF).
    intros r Hr. destruct (w r) as [[t l1] log]. cbn [pbind]. apply leaf_bind_any. intros []. reflexivity. }
  pose proof (Q n f y (fun _ _ => I) G1) as R1. pose proof (Q m e z (fun _ _ => I) G2) as R2. clear Q G1 G2.
  split.
  - rewrite (gathered_ext n _ (fun r => valid_spectra (map fst (snd (fst (y r)))))) by (intros r Hr; now rewrite R1).
    rewrite (gathered_ext m _ (fun r => valid_spectra (map fst (snd (fst (z r)))))) by (intros r Hr; now rewrite R2).
    rewrite !gathered_valid. apply filter_perm. rewrite !gathered_map. now apply Permutation_map.
  - intros r r' Hr Hr'. rewrite R1, R2 by assumption. cbn [fst snd]. now apply Q2.
Qed.
Lemma all_ranks_iterate n m o l h f e : 1 <= n -> 1 <= m -> o_varlss o <> None -> Permutation (gathered n l) (gathered m h) ->
  finishes n (fun r => pbind (fitter_init (on_ranks n g) r o) (fun mt => iterate (on_ranks n g) (fst mt) r (snd mt) (l r))) f ->
  finishes m (fun r => pbind (fitter_init (on_ranks m g) r o) (fun mt => iterate (on_ranks m g) (fst mt) r (snd mt) (h r))) e ->
  same_results n m f e.
Proof.
  intros Hn Hm HO P H1 H2.
  apply fitter_init_inv in H1 as (mf & i & x & A1 & A2 & A3 & A4 & H1); [|assumption|assumption].
  apply fitter_init_inv in H2 as (mf' & i' & x' & B1 & B2 & B3 & B4 & H2); [|assumption|assumption].
  change (fid_mf (on_ranks m g)) with (fid_mf (on_ranks n g)) in B1. change (fid_init (on_ranks m g)) with (fid_init (on_ranks n g)) in B3.
  assert (x' = x) as -> by congruence.
  apply (finishes_peq n _ _ f (fun r _ => peq_sym _ _ (pbind_ret _))) in H1. apply (finishes_peq m _ _ e (fun r _ => peq_sym _ _ (pbind_ret _))) in H2.
  apply (iterate_ranks_k g _ _ _ _ _ _ _ _ _ _ _ _ _ _ _ _ _ _ n m _ l h _ _ f e Hn Hm A4 P H1) in H2 as (y & z & (Q1 & Q2) & G1 & G2).
  pose proof (finishes_ret n y f G1) as R1. pose proof (finishes_ret m z e G2) as R2. split.
  - rewrite (gathered_ext n _ (fun r => snd (fst (y r)))) by (intros r Hr; now rewrite R1).
    now rewrite (gathered_ext m _ (fun r => snd (fst (z r)))) by (intros r Hr; now rewrite R2).
  - intros r r' Hr Hr'. rewrite R1, R2 by assumption. now apply Q2.
Qed.
End Fitting.
