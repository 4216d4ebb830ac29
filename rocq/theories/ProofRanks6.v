(** The files of qsonic-fit do not depend on the number of ranks (C69). *)
From Coq Require Import ZArith String List Bool Arith Lia Qcanon Permutation.
From Verif Require Import Num NpList NpListFacts Exn Dict Mpi ModelMpiUtils ModelSpectrum ModelMasks ModelBlinding
  ModelContinuum ModelStack ModelSubsample ModelVarFit ModelFitter ModelExposures ModelFitArgs ModelCatalog ModelFitQueue ModelIO
  ModelPipeline SpecMpi SpecFinal SpecCatalog SpecPipeline SpecRanks ProofMpi ProofMpi2 ProofLock ProofSafe ProofFitter ProofFinal ProofCat ProofGroup
  ProofCatalog ProofBalance ProofIO2 ProofDistribution ProofPipeline ProofPipeline2 ProofRanks ProofRanks2 ProofRanks3 ProofRanks4 ProofRanks5 ProofAttributes.
Import ListNotations.
Local Open Scope nat_scope.

Lemma gathered_nth {A} n (ls : list (list A)) q : length ls = n -> (forall r, r < n -> nth_error ls r = Some (q r)) -> gathered n q = concat ls.
Proof.
  intros L H. unfold gathered. f_equal. apply nth_error_eq. intro r. rewrite nth_error_map.
  destruct (Nat.lt_ge_cases r n) as [Hr|Hr].
  - rewrite (nth_error_nth' (seq 0 n) 0) by now rewrite seq_length. rewrite seq_nth by exact Hr. cbn. now rewrite H.
  - rewrite (proj2 (nth_error_None (seq 0 n) r)) by now rewrite seq_length. symmetry. apply nth_error_None. lia.
Qed.
Lemma in_file_filter (hpix : spec -> Z) k files : (forall n ss s, In (n, ss) files -> In s ss -> hpix s = n) ->
  in_file k files = filter (fun s => Z.eqb (hpix s) k) (concat (map snd files)).
Proof.
  unfold in_file. induction files as [|[n ss] fs IH]; intro H; [reflexivity|]. cbn [map concat filter fst snd]. rewrite filter_app, <- IH.
  2: { intros n' ss' s Hin. apply H. now right. }
  assert (forall s, In s ss -> hpix s = n) as Hs by (intros s; apply (H n ss); now left).
  destruct (Z.eqb_spec n k) as [->|N]; cbn [map concat snd].
  - f_equal. clear - Hs. induction ss as [|s ss IH]; [reflexivity|]. cbn. rewrite (Hs s) by now left. rewrite Z.eqb_refl. f_equal. apply IH. intros. apply Hs. now right.
  - replace (filter (fun s => Z.eqb (hpix s) k) ss) with (@nil spec); [reflexivity|]. symmetry. clear - Hs N.
    induction ss as [|s ss IH]; [reflexivity|]. cbn. rewrite (Hs s) by now left. rewrite (proj2 (Z.eqb_neq n k) N). apply IH. intros. apply Hs. now right.
Qed.

Section Run.
Variable ang2pix : Z -> num -> num -> Z.
Variable dla_flux : Qc -> Qc -> Qc -> num.
Variable row_of : catrow -> row.
Variable logic : runargs -> bool.
Variable argsort : list Z -> list nat.
Variable hpix_of : spec -> Z.
Variable g : runargs -> config.
Variable ev : interp -> Qc -> num.
Variable ev_stack : stacker -> Qc -> num.
Variable slope : Qc -> num.
Variable minimizer : interp -> interp -> interp -> interp -> spec -> num -> option minres.
Variable input_cont : spec -> option (Qc -> num).
Variable true_cont : spec -> Qc -> num.
Variable nsqrt : num -> num.
Variable uspline : list Qc -> list num -> list num -> option (list num).
Variable xs : list Qc.
Variable quad : list Qc -> Qc.
Variable min_num_pix min_num_qso : nat.
Variable cholesky : list (list Qc) -> bool.
Variable curve_fit : list Qc -> list Qc -> list num -> errors -> option (list num * list num).
Variable vspline : list Qc -> list num -> list num -> option (list num).
Variable write_ok : string -> bool.
Variable iter_suffix : nat -> string.
Variable smooth : list num -> Qc -> list num.
Variable junk : nat -> num.
Variable dwave : Qc.
Variable w : world.
Hypothesis Hw : same_files w.
Hypothesis Hreads : reads_requested row_of w.
Hypothesis Hid : forall x, TARGETID (row_of x) = c_targetid x.
Hypothesis Ha : argsort_ok argsort.

Notation the_run n := (the_run ang2pix dla_flux row_of logic argsort hpix_of (fun a => on_ranks n (g a)) ev ev_stack slope minimizer input_cont true_cont
  nsqrt uspline xs quad min_num_pix min_num_qso cholesky curve_fit vspline write_ok iter_suffix smooth junk dwave w n).
Notation fitting g := (continuum_fitting g ev ev_stack slope minimizer input_cont true_cont nsqrt uspline xs quad
                          min_num_pix min_num_qso cholesky curve_fit vspline write_ok iter_suffix smooth junk dwave).
Notation the_catalog a := (read_quasar_catalog ang2pix (the_file (w_catalog w)) (r_mock a) (r_tile a) (r_surveys a)
      (Fin (fst (z_limits (r_w1 a) (r_w2 a) (r_fw1 a) (r_fw2 a) (r_skip a))))
      (Fin (snd (z_limits (r_w1 a) (r_w2 a) (r_fw1 a) (r_fw2 a) (r_skip a))))).
Notation selected a := (selected dla_flux ev nsqrt smooth junk dwave w a (r_exposures a) (r_coadd a)).
Definition prep (a : runargs) (l : list spec) : list specx :=
  map (fun s => (s, [[n1; n0]; [n0; n1]])) (if qltb 0 (r_scale a) then map (set_smooth_forestivar smooth dwave (r_scale a)) l else l).
Definition shorten (a : runargs) (l : list spec) : list spec := map (drop_short_arms dwave (r_fw1 a) (r_fw2 a) (r_skip a)) l.

Lemma run_inv n f : 1 <= n -> finishes n (the_run n) f ->
  exists a cat q l h b, w_parse w = Parsed a /\ the_catalog a = Ok cat /\
    (forall r, r < n -> nth_error (make_queues (r_tile a) n cat) r = Some (q r)) /\
    (forall r, r < n -> selected a (q r) = Ok (l r)) /\
    finishes n (fun r => fitting (on_ranks n (g a)) r (fit_options w a) (prep a (l r))) h /\
    (is_after (r_exposures a) = false -> forall r, r < n ->
       save_deltas hpix_of s_valid argsort (shorten a (snd (fst (h r)))) (negb (r_outdir a)) (r_byhpx a) (Some (Z.of_nat r)) b = Ok (f r)).
Proof.
  intros Hn H. unfold ProofPipeline2.the_run, run_all in H.
  apply (bind_inv n _ (fun y => exists a, parse_result w = Ok a /\ logic a = true /\ forall r, r < n -> y r = a)) in H as (a0 & (a & Ea & _ & Ha0) & _ & H); [|exact Hn|].
  2: { apply together_lift; [reflexivity|]. apply parse_together; [exact Hn|]. intro m. unfold parse_result. destruct (w_parse w); discriminate. }
  unfold parse_result in Ea. destruct (w_parse w) as [a'| |] eqn:Ew; try discriminate. injection Ea as ->.
  eapply finishes_ext in H. 2: { intros r Hr. rewrite (Ha0 r Hr). reflexivity. }
  apply finishes_res in H as (u & _ & H); [|exact Hn].
  destruct (z_limits (r_w1 a) (r_w2 a) (r_fw1 a) (r_fw2 a) (r_skip a)) as [zmin zmax] eqn:Ez.
  eapply bind_inv in H; [|exact Hn|apply together_lift; [reflexivity|]; apply queue_together; [exact Hn|]].
  2: { unfold the_file. destruct (w_catalog w); discriminate. }
  destruct H as (q & (cat & Ecat & Eq) & _ & H).
  eapply bind_inv in H; [|exact Hn|apply together_lift; [reflexivity|]; apply blinding_together; exact Hn].
  destruct H as (st0 & (st & Hst) & _ & H).
  eapply bind_inv in H; [|exact Hn|apply masks_inv; [exact Hw|exact Hn]].
  destruct H as (ms & Hms & _ & H).
  eapply bind_inv in H; [|exact Hn|].
  2: { eapply select_inv; [exact Hw|exact Hreads|exact Hid|exact Hn|exact Hms]. }
  destruct H as (l & Hl & _ & H). cbv zeta in H.
  eapply bind_inv in H; [|exact Hn|].
  2: { apply together_lift; [reflexivity|].
       apply (fitting_together ev ev_stack slope minimizer input_cont true_cont nsqrt uspline xs quad min_num_pix min_num_qso cholesky curve_fit vspline
         write_ok iter_suffix smooth junk dwave n Hn (fun _ _ => True)). intros r Hr. apply Forall_forall. easy. }
  destruct H as (h & _ & Hh & H). unfold finishes in Hh. rewrite lift_spmd in Hh by reflexivity.
  exists a, cat, q, l, h, (match st_blinding st with Some _ => true | None => false end). rewrite Ez. cbn [fst snd].
  split; [reflexivity|]. split; [exact Ecat|]. split; [exact Eq|]. split; [exact Hl|]. split; [exact Hh|].
  intros HE. rewrite HE in H.
  assert (@finishes pval _ n (fun r => pbind (of_res (save_deltas hpix_of s_valid argsort (shorten a (snd (fst (h r)))) (negb (r_outdir a)) (r_byhpx a) (Some (Z.of_nat r))
      (match st_blinding st with Some _ => true | None => false end))) (fun files =>
      of_res (if r_outdir a && negb (w_save w r) then Err (OtherExn "OSError") else Ok files))) f) as H'.
  { refine (finishes_ext n _ _ f _ H). intros r Hr. rewrite (Hst r Hr). now destruct (h r) as [[t l2] log]. }
  apply finishes_res in H' as (fs & Hs & H'); [|exact Hn]. intros r Hr. rewrite (Hs r Hr). f_equal.
  refine (eq_sym (leaf_finishes n _ f (fun r x => x = fs r) _ H' r Hr)). intros r' _. destruct (_ && _); cbn; auto.
Qed.

Lemma prep_perm a n m l h : Permutation (gathered n l) (gathered m h) ->
  Permutation (gathered n (fun r => prep a (l r))) (gathered m (fun r => prep a (h r))).
Proof.
  intro P. unfold prep. rewrite !gathered_map. apply Permutation_map. destruct (qltb 0 (r_scale a)); [|exact P].
  rewrite !gathered_map. now apply Permutation_map.
Qed.
Lemma save_gathered n byhpx (l : nat -> list spec) b (f : nat -> @saved spec) :
  (forall r, r < n -> save_deltas hpix_of s_valid argsort (l r) false byhpx (Some (Z.of_nat r)) b = Ok (f r)) ->
  Permutation (concat (map snd (gathered n f))) (filter s_valid (gathered n l)) /\
  (byhpx = true -> forall k ss s, In (k, ss) (gathered n f) -> In s ss -> hpix_of s = k).
Proof.
  intro H.
  assert (forall r, r < n -> Permutation (concat (map snd (f r))) (filter s_valid (l r)) /\ (byhpx = true -> forall k ss s, In (k, ss) (f r) -> In s ss -> hpix_of s = k)) as K.
  { intros r Hr. specialize (H r Hr). destruct b.
    2: { destruct (save_unblinded_refuses hpix_of s_valid argsort Ha (l r) byhpx (Some (Z.of_nat r))) as (m & K). congruence. }
    destruct byhpx.
    - destruct (save_by_hpx_spec hpix_of s_valid argsort Ha (l r) (Some (Z.of_nat r))) as (fs & E & P & _ & _ & Q). rewrite E in H. injection H as <-. now split.
    - rewrite save_by_rank_spec in H. injection H as <-. split; [|discriminate]. cbn. now rewrite app_nil_r. }
  clear H. unfold gathered. assert (forall r, In r (seq 0 n) -> r < n) as S by (intros r Hr; apply in_seq in Hr; lia). revert S.
  induction (seq 0 n) as [|r rs IH]; intro S; cbn [map concat].
  - split; [constructor|]. intros _ k ss s [].
  - destruct IH as (P & Q); [intros; apply S; now right|]. destruct (K r) as (P1 & Q1); [apply S; now left|]. split.
    + rewrite map_app, concat_app, filter_app. now apply Permutation_app.
    + intros E k ss s Hin. apply in_app_or in Hin as [Hin|Hin]; [now apply (Q1 E)|now apply (Q E)].
Qed.

Lemma run_ranks n m f e a : 1 <= n -> 1 <= m -> w_parse w = Parsed a ->
  r_varlss a = true -> r_noise a && r_additive a = false -> r_coadd a <> After -> r_exposures a <> After ->
  finishes n (the_run n) f -> finishes m (the_run m) e ->
  Permutation (concat (map snd (gathered n f))) (concat (map snd (gathered m e))) /\
  (r_byhpx a = true -> forall k, Permutation (in_file k (gathered n f)) (in_file k (gathered m e))).
Proof.
  intros Hn Hm Ea O1 O2 O3 O4 H1 H2.
  apply run_inv in H1 as (a1 & cat & q & l & h & b & E1 & C1 & Q1 & L1 & F1 & S1); [|exact Hn].
  apply run_inv in H2 as (a2 & cat' & q' & l' & h' & b' & E2 & C2 & Q2 & L2 & F2 & S2); [|exact Hm].
  assert (a1 = a) as -> by congruence. assert (a2 = a) as -> by congruence. assert (cat' = cat) as -> by congruence.
  assert (is_after (r_exposures a) = false) as O4' by now destruct (r_exposures a).
  specialize (S1 O4'). specialize (S2 O4').
  unfold make_queues in Q1, Q2. set (groups := split_by_key _ cat) in *.
  destruct (balance_load_permutation groups n Hn) as (N1 & B1). destruct (balance_load_permutation groups m Hm) as (N2 & B2).
  assert (Permutation (gathered n q) (gathered m q')) as P.
  { rewrite (gathered_nth n _ q N1 Q1), (gathered_nth m _ q' N2 Q2). now rewrite B1, B2. }
  pose proof (selected_perm _ _ _ _ _ _ _ _ _ _ n m q l q' l' P L1 L2) as PL.
  apply (prep_perm a) in PL.
  assert (same_results n m h h') as (PR & _).
  { refine (all_ranks (g a) ev ev_stack slope minimizer input_cont true_cont nsqrt uspline xs quad
      min_num_pix min_num_qso cholesky curve_fit vspline write_ok iter_suffix smooth junk dwave n m (fit_options w a) _ _ h h' Hn Hm _ PL _ _ F1 F2).
    - unfold fit_options. cbn. now rewrite O1.
    - unfold fit_options. cbn. now rewrite O2.
    - unfold fit_options. cbn. now destruct (r_coadd a). }
  apply (Permutation_map (drop_short_arms dwave (r_fw1 a) (r_fw2 a) (r_skip a))) in PR. rewrite <- !gathered_map in PR.
  destruct (r_outdir a); cbn [negb] in S1, S2.
  - apply save_gathered in S1 as (X1 & Y1). apply save_gathered in S2 as (X2 & Y2).
    assert (Permutation (concat (map snd (gathered n f))) (concat (map snd (gathered m e)))) as PF.
    { rewrite X1, X2. now apply filter_perm. }
    split; [exact PF|]. intros B k. rewrite (in_file_filter hpix_of k _ (Y1 B)), (in_file_filter hpix_of k _ (Y2 B)). now apply filter_perm.
  - assert (forall n (f : nat -> list (Z * list spec)), (forall r, r < n -> @Ok (list (Z * list spec)) [] = Ok (f r)) -> gathered n f = []) as G.
    { intros k F HF. rewrite (gathered_ext k F (fun _ => [])) by (intros r Hr; specialize (HF r Hr); congruence).
      unfold gathered. apply concat_nil_Forall, Forall_forall. intros x Hx. apply in_map_iff in Hx as (? & <- & _). reflexivity. }
    rewrite (G n f S1), (G m e S2).
    split; [constructor|]. intros _ k. constructor.
Qed.
End Run.
