(** The continuum from attributes.fits and the chi2 catalog (C76): the run. *)
From Coq Require Import ZArith String List Bool Arith Lia Qcanon.
From Verif Require Import Num NpList Exn Dict Mpi ModelSpectrum ModelMasks ModelContinuum ModelStack ModelSubsample ModelVarFit ModelFitter ModelAttributes ModelChi2 ModelChi2Run
  SpecSpectrum SpecContinuum SpecFinal SpecAttributes SpecMpi SpecChi2Run SpecContTables ProofMpi ProofMpi2 ProofLock ProofSafe ProofContinuum ProofAttributes ProofWeightTables ProofRanks ProofRanks4
  ProofWeightTables2 ProofChi2 ProofChi2Run2 ProofChi2Run3 ProofFitter ProofFinal ProofContTables.
Import ListNotations.
Local Open Scope nat_scope.

Lemma nmul_n1 x : nmul x n1 = x.
Proof. destruct x as [q| | |]; cbn; try reflexivity. f_equal. ring. Qed.
Section Fitting.
Variable g : config.
Variable ev : interp -> Qc -> num.
Variable ev_stack : stacker -> Qc -> num.
Variable slope : Qc -> num.
Variable minimizer : interp -> interp -> interp -> interp -> spec -> num -> option minres.
Variable input_cont : spec -> option (Qc -> num).
Variable true_cont : spec -> Qc -> num.
Variable nsqrt : num -> num.
Variable uspline : list Qc -> list num -> list num -> option (list num).
Variable xs : list Qc.
Variable quad : list Qc -> Qc.
Variables (min_num_pix min_num_qso : nat) (cholesky : list (list Qc) -> bool)
  (curve_fit : list Qc -> list Qc -> list num -> errors -> option (list num * list num))
  (vspline : list Qc -> list num -> list num -> option (list num)).
Variable write_ok : string -> bool.
Variable smooth : arr -> Qc -> arr.
Variable junk : nat -> num.
Variable dwave : Qc.
Notation fitting_a := (continuum_fitting_a g ev ev_stack slope minimizer input_cont true_cont nsqrt uspline xs quad
      min_num_pix min_num_qso cholesky curve_fit vspline write_ok smooth junk dwave).
Notation fitting_c := (continuum_fitting_c g ev ev_stack slope minimizer input_cont true_cont nsqrt uspline xs quad
      min_num_pix min_num_qso cholesky curve_fit vspline write_ok suffix_of smooth junk dwave).
Hypothesis Hlen : forall mf c v e s a0 m, minimizer mf c v e s a0 = Some m -> m_valid m = true -> length (m_x m) = S (g_order g).
Hypothesis Hmodel : g_model g = Picca.
Definition factor (k : stacker) : Qc -> num := if g_norm g then ev_stack k else fun _ => n1.

(** the spectra that leave iterate *)
Definition explained (c mf : interp) (k : stacker) (s : spec) : Prop :=
  s_valid s = true -> raw (ev c) slope (ev mf) (fun x w => nmul x (factor k w)) s /\ length (s_x s) = S (g_order g).
Lemma norm_explained c mf t l l' : Forall (fun sx : specx => plain_forest (fst sx)) l -> (forall sx, In sx l -> s_valid (fst sx) = true ->
     raw (ev c) slope (ev mf) (fun x _ => x) (fst sx) /\ length (s_x (fst sx)) = S (g_order g)) ->
  normalize_flux g ev_stack t l = Ok l' -> Forall (fun sx : specx => plain_forest (fst sx) /\ explained c mf (t_stack t) (fst sx)) l'.
Proof.
  intros P H E. unfold normalize_flux in E. unfold explained, factor. rewrite Forall_forall in P. destruct (g_norm g).
  - apply Forall_forall. intros sx' Hx. destruct (rseq_In _ _ _ _ E Hx) as (sx & H0 & E1). specialize (P _ H0). unfold on_valid in E1.
    destruct (s_valid (fst sx)) eqn:V; [|assert (sx' = sx) as -> by congruence; split; [exact P|intro; congruence]].
    apply rmap_Ok in E1 as (s' & E1 & ->). cbn [fst]. destruct (H _ H0 V) as [R L].
    destruct (scale_raw _ _ _ _ _ _ _ P E1 R) as (R' & X & P' & V'). split; [exact P'|]. intros _. split; [exact R'|now rewrite X].
  - assert (l' = l) as -> by congruence. apply Forall_forall. intros sx Hx. split; [exact (P _ Hx)|]. intro V. destruct (H _ Hx V) as [R L]. split; [|exact L].
    intros arm i w Hw. rewrite (R arm i w Hw). now rewrite nmul_n1.
Qed.
Lemma same_explained c mf k s s' : same_cont s s' -> explained c mf k s -> explained c mf k s'.
Proof.
  intros S H V. destruct H as [R L]; [destruct S as (_ & _ & _ & _ & S); congruence|]. split; [exact (same_raw _ _ _ _ _ _ S R)|].
  destruct S as (_ & _ & S & _). congruence.
Qed.
Lemma eta_explained c mf k t l l' : Forall (fun sx : specx => plain_forest (fst sx) /\ explained c mf k (fst sx)) l -> eta_calibrate g ev t l = Ok l' ->
  Forall (fun sx : specx => explained c mf k (fst sx)) l'.
Proof.
  intros H E. unfold eta_calibrate in E. rewrite Forall_forall in *. intros sx' Hx. destruct (g_etacal g).
  - destruct (rseq_In _ _ _ _ E Hx) as (sx & H0 & E1). destruct (H _ H0) as [P X]. apply rmap_Ok in E1 as (s' & E1 & ->). cbn [fst].
    exact (same_explained _ _ _ _ _ (eta_same _ _ _ P E1) X).
  - assert (l' = l) as -> by congruence. now destruct (H _ Hx).
Qed.

Lemma suffix_same : suffix_of = iteration_suffix. Proof. reflexivity. Qed.
Lemma stack_wave_even k : stack_wave k = map (fun i => (k_w0 k + zq (Z.of_nat i) * k_dw k)%Qc) (seq 0 (length (stack_wave k))).
Proof. unfold stack_wave. now rewrite map_length, seq_length. Qed.

Theorem file_thm n o (l : nat -> list specx) f a b m : 1 <= n -> n_iterations g <> 0 -> g_outdir g = true ->
  g_rfwave g = centers a b m -> g_dwrf g = ((b - a) / zq (Z.of_nat m))%Qc ->
  (forall r, r < n -> Forall (fun sx => plain_forest (fst sx)) (l r)) -> o_coadd_after o = false ->
  finishes n (fun r => fitting_a r o (l r)) f ->
  exists c mf k xc xk,
    extension (snd (snd (f 0))) ("CONT" ++ suffix_of (length (snd (fst (f 0))))) = Some xc /\ table_in xc "mean_cont" c /\
    extension (snd (snd (f 0))) "STACKED_FLUX" = Some xk /\ stacked_in xk k /\ mean_flux_of o mf /\
    forall r s, r < n -> In s (snd (fst (fst (f r)))) -> s_valid s = true /\ explained c mf k s.
Proof.
  intros Hn Hi HW HRF HDW HP OC H. unfold ModelAttributes.continuum_fitting_a in H.
  apply (bind_inv n _ _ _ f Hn (fitter_init_together n g o Hn)) in H as (f0 & (mf & T & sh & _ & _ & A0) & F0 & H).
  destruct (together_finishes n _ _ f0 Hn (init_meanflux n g o Hn) F0) as (f0' & (mf' & Hmf & Emf) & Ef0).
  assert (mf' = mf) as -> by (rewrite <- (Emf 0 Hn), (Ef0 0 Hn); apply (A0 0 Hn)). clear f0' Emf Ef0.
  pose proof (leaf_finishes n _ f0 _ (fun r _ => init_cont_grid g r o) F0) as G0. cbn beta in G0.
  pose proof (leaf_finishes n _ f0 _ (fun r _ => start_thm g r o) F0) as S0. cbn beta in S0. clear F0.
  destruct (G0 0 Hn) as (rf0 & Erf & _).
  assert (forall r, r < n -> igrid (t_cont (snd (f0 r))) = (false, rf0, g_dwrf g)) as G1.
  { intros r Hr. destruct (G0 r Hr) as (x & Ex & Gx). rewrite Erf in Ex. injection Ex as <-. exact Gx. }
  clear G0.
  assert (together n (fun r => iterate_a g ev ev_stack (ev (fst (f0 r))) slope (minimizer (fst (f0 r))) input_cont true_cont nsqrt uspline xs quad
           min_num_pix min_num_qso cholesky curve_fit vspline write_ok r (snd (f0 r)) (l r)) (fun _ => True)) as TI.
  { eapply together_weaken; [|eapply together_erased; [exact Hn| |]].
    - intros x _. exact I.
    - intros r Hr. apply erase_thm.
    - apply (iterate_together g ev ev_stack (fun r => ev (fst (f0 r))) slope (fun r => minimizer (fst (f0 r)))
        input_cont true_cont nsqrt uspline xs quad min_num_pix min_num_qso cholesky curve_fit vspline write_ok iteration_suffix n Hn
        (fun _ _ => True) ltac:(easy) ltac:(easy) (fun r => snd (f0 r)) l T sh).
      + intros r Hr. now destruct (A0 r Hr).
      + intros r Hr. apply Forall_forall. easy. }
  apply (bind_inv n _ _ _ f Hn TI) in H as (f1 & _ & H1 & H). clear TI.
  rewrite OC in H.
  assert (forall r, r < n -> snd (fst (f r)) = snd (fst (f1 r)) /\ snd (f r) = snd (f1 r) /\
     Forall2 same_cont (valid_spectra (map fst (snd (fst (fst (f1 r)))))) (snd (fst (fst (f r))))) as EF.
  { refine (leaf_finishes n _ f (fun r x => snd (fst x) = snd (fst (f1 r)) /\ snd x = snd (f1 r) /\
     Forall2 same_cont (valid_spectra (map fst (snd (fst (fst (f1 r)))))) (snd (fst (fst x)))) _ H). intros r Hr. destruct (f1 r) as [[[t1 l1] log] at1]. cbv zeta.
    apply (leaf_bind (Forall2 same_cont (valid_spectra (map fst l1)))).
    - destruct (o_additive o) as [file|]; [|apply Forall2_refl, same_cont_refl]. apply leaf_bind_any. intro vl. apply leaf_res. intros v1 E. exact (add_noise_same _ _ _ _ _ _ _ E).
    - intros v1 F1. cbn [pbind]. apply leaf_bind_any. intro u. cbn. split; [reflexivity|]. split; [reflexivity|exact F1]. }
  clear H.
  unfold ModelAttributes.iterate_a in H1. apply finishes_res in H1 as (l0 & E0 & H1); [|exact Hn].
  assert (forall r, r < n -> Forall (fun sx => plain_forest (fst sx)) (l0 r)) as HP0.
  { intros r Hr. refine (rseq_P (fun sx => plain_forest (fst sx)) (fun sx => plain_forest (fst sx)) _ _ _ _ (HP r Hr) (E0 r Hr)).
    intros x y Px E. exact (kept_plain _ _ (init_one_kept _ _ _ _ E) Px). }
  apply (bind_inv n _ _ _ f1 Hn (iterations_a_together g ev (fun r => ev (fst (f0 r))) slope (fun r => minimizer (fst (f0 r)))
        input_cont true_cont nsqrt uspline xs quad min_num_pix min_num_qso cholesky curve_fit vspline write_ok n Hn
        (fun _ => plain_forest) (fun r t sx sx' P F => kept_plain _ _ (proj1 (fit_one_weights _ _ _ _ _ _ _ _ _ _ F P)) P)
        _ 1 (fun r => snd (f0 r)) l0 [] (fun _ => ([], [])) T sh (fun r Hr => proj2 (A0 r Hr)) HP0)) in H1 as (f2 & (T0 & (T2 & A2) & HT & _) & F2 & H1).
  specialize (HT Hi).
  pose proof (leaf_finishes n _ f2 (fun _ x => Forall (fun u : used => igrid (fst (fst u)) = (false, rf0, g_dwrf g)) (fst (snd x))) (fun r Hr => iterations_grid g ev (ev (fst (f0 r))) slope (minimizer (fst (f0 r))) input_cont true_cont nsqrt uspline xs quad
      min_num_pix min_num_qso cholesky curve_fit vspline write_ok _ r (n_iterations g) 1 (snd (f0 r)) (l0 r) [] ([], []) (G1 r Hr) (Forall_nil _)) F2) as UG. cbn beta in UG.
  assert (exists ts, Forall (fine (negb (is_some (o_varlss o)))) ts /\ fine (negb (is_some (o_varlss o))) (fst (fst (fst (f2 0)))) /\
     length (snd (fst (f2 0))) = length ts /\ fst (snd (f2 0)) = map used_of ts /\ snd (snd (f2 0)) = sets g 1 ts) as HF.
  { refine (leaf_finishes n _ f2 (fun r x => r = 0 -> exists ts, Forall (fine (negb (is_some (o_varlss o)))) ts /\ fine (negb (is_some (o_varlss o))) (fst (fst (fst x))) /\
     length (snd (fst x)) = length ts /\ fst (snd x) = map used_of ts /\ snd (snd x) = sets g 1 ts) _ F2 0 Hn eq_refl).
    intros r Hr. pose proof (S0 r Hr) as (S1 & S2 & _).
    eapply leaf_weaken; [|exact (iterations_leaf g ev _ slope _ input_cont true_cont nsqrt uspline xs quad min_num_pix min_num_qso cholesky curve_fit vspline write_ok r _ _ 1 (snd (f0 r)) (l0 r) [] ([], []) (conj S1 S2))].
    intros [[[t' l'] log] [u file]] (ts & bs & L & Elog & FT & U & X & F1 & _) ->. unfold writes in X. rewrite HW in X. cbn in *. exists ts.
    split; [exact FT|]. split; [exact F1|]. split; [congruence|]. split; [exact U|exact X]. }
  clear S0 F2.
  assert (forall r, r < n -> Forall (fun sx => explained (t_cont T0) mf (t_stack (fst (fst (fst (f2 r))))) (fst sx)) (snd (fst (fst (f1 r)))) /\
     snd (fst (f1 r)) = snd (fst (f2 r)) /\
     (r = 0 -> exists t', is_some (t_vfit t') = true /\ snd (snd (f1 r)) = snd (snd (f2 r)) ++ save_exts g "" (fst (fst (fst (f2 r)))) ++
        (if is_some (t_vfit (fst (fst (fst (f2 r))))) then [] else save_exts g "-fit" t') ++ [mkExt "VAR_STATS" [] []])) as E1.
  { refine (leaf_finishes n _ f1 (fun r x => Forall (fun sx => explained (t_cont T0) mf (t_stack (fst (fst (fst (f2 r))))) (fst sx)) (snd (fst (fst x))) /\
     snd (fst x) = snd (fst (f2 r)) /\
     (r = 0 -> exists t', is_some (t_vfit t') = true /\ snd (snd x) = snd (snd (f2 r)) ++ save_exts g "" (fst (fst (fst (f2 r)))) ++
        (if is_some (t_vfit (fst (fst (fst (f2 r))))) then [] else save_exts g "-fit" t') ++ [mkExt "VAR_STATS" [] []])) _ H1).
    intros r Hr. destruct (HT r Hr) as [(lp & HPl & Efit) _]. destruct (A0 r Hr) as [Emf _]. destruct (f2 r) as [[[t1 l1] log] [u file]]. cbn [fst snd] in *.
    assert (Forall (fun sx : specx => plain_forest (fst sx)) l1) as P1.
    { refine (rseq_P (fun sx => plain_forest (fst sx)) (fun sx => plain_forest (fst sx)) _ _ _ _ HPl Efit). intros x y Px E.
      exact (kept_plain _ _ (proj1 (fit_one_weights _ _ _ _ _ _ _ _ _ _ E Px)) Px). }
    apply (leaf_bind (Forall (fun sx : specx => plain_forest (fst sx) /\ explained (t_cont T0) mf (t_stack t1) (fst sx)))).
    { apply leaf_res. intros l2 E. refine (norm_explained _ _ _ _ _ P1 _ E). intros sx Hx V.
      destruct (rseq_In _ _ _ _ Efit Hx) as (sp & Hp & Fp). rewrite Forall_forall in HPl. rewrite Emf in Fp.
      exact (fit_raw g ev (ev mf) slope (minimizer mf) input_cont true_cont (Hlen mf) T0 sp sx Hmodel Fp (HPl _ Hp) V). }
    intros l2 H2. apply (leaf_bind (Forall (fun sx : specx => explained (t_cont T0) mf (t_stack t1) (fst sx)))).
    { apply leaf_res. intros l3 E. exact (eta_explained _ _ _ _ _ _ H2 E). }
    intros l3 H3. clear H2.
    apply (leaf_bind (fun file1 => r = 0 -> file1 = file ++ save_exts g "" t1)).
    { apply leaf_res. intros file1 E ->. apply save_a_ok in E. unfold writes in E. rewrite HW in E. exact E. }
    intros file1 Hf1.
    apply (leaf_bind (fun tf => r = 0 -> exists t', is_some (t_vfit t') = true /\ snd tf = file ++ save_exts g "" t1 ++ (if is_some (t_vfit t1) then [] else save_exts g "-fit" t'))).
    { destruct (t_vfit t1) eqn:Vt.
      - cbn. intro R0. exists t1. split; [now rewrite Vt|]. rewrite (Hf1 R0). cbn. now rewrite ?app_nil_r.
      - eapply leaf_bind; [apply final_leaf|]. intros t2 V2. apply (leaf_bind (fun file2 => r = 0 -> file2 = file1 ++ save_exts g "-fit" t2)).
        { apply leaf_res. intros file2 E ->. apply save_a_ok in E. unfold writes in E. rewrite HW in E. exact E. }
        intros file2 Hf2. cbn. intro R0. exists t2. split; [exact V2|]. rewrite (Hf2 R0), (Hf1 R0). now rewrite <- app_assoc. }
    intros tf Htf. apply (leaf_bind (fun file3 => r = 0 -> file3 = snd tf ++ [mkExt "VAR_STATS" [] []])).
    { apply leaf_res. intros file3 E ->. destruct (write_vfit _ _ _ _); [|discriminate E]. cbn in E. rewrite HW in E. congruence. }
    intros file3 Hf3. cbn. split; [exact H3|]. split; [reflexivity|]. intro R0. destruct (Htf R0) as (t' & V' & Et). exists t'. split; [exact V'|].
    rewrite (Hf3 R0), Et. now rewrite <- !app_assoc. }
  clear H1.
  destruct HF as (ts & FT & Ft1 & L & Eu & Ef2). destruct (HT 0 Hn) as [_ (u0 & EU)].
  destruct ts as [|tl ts0 _] using rev_ind; [rewrite Eu in EU; destruct u0; discriminate|].
  pose proof (UG 0 Hn) as UG0. rewrite EU in UG0. apply Forall_app in UG0 as [_ UG0]. inversion UG0 as [|? ? UG1 _]; subst. cbn [used_of fst] in UG1. clear UG UG0.
  rewrite Eu, map_app in EU. cbn [map] in EU. apply app_inj_tail in EU as [_ EU]. unfold used_of in EU. injection EU as Ec _ _.
  set (tz := fst (fst (fst (f2 0)))) in *.
  destruct (E1 0 Hn) as (_ & Elog & Efile). destruct (Efile eq_refl) as (t' & V' & Efl). clear Efile. fold tz in Efl.
  destruct (EF 0 Hn) as (Flog & Fsnd & _).
  assert (NoDup (map x_name (snd (snd (f 0))))) as ND.
  { rewrite Fsnd, Efl, Ef2. destruct Ft1 as [Sh1 Vt1]. rewrite Vt1. exact (nodup_file g _ _ _ t' FT (conj Sh1 Vt1) V'). }
  set (ce := mkExt ("CONT" ++ suffix_of (length (snd (fst (f 0))))) (g_rfwave g) [("mean_cont"%string, i_fp (t_cont tl)); ("e_mean_cont"%string, i_ep (t_cont tl))]).
  set (se := mkExt "STACKED_FLUX" (stack_wave (t_stack tz)) [("stacked_flux"%string, k_fp (t_stack tz))]).
  exists (t_cont T0), mf, (t_stack tz), ce, se.
  split; [|split; [|split; [|split; [|split; [exact Hmf|]]]]].
  - apply (find_nodup _ ce ND). rewrite Fsnd, Efl, Ef2. apply in_or_app. left. rewrite sets_snoc. apply in_or_app. right. left. unfold ce.
    rewrite Flog, Elog, L, app_length, suffix_same. cbn [length]. rewrite Nat.add_1_r. reflexivity.
  - unfold igrid in UG1. injection UG1 as U1 U2 U3. split; [exact U1|]. split; [cbn; now rewrite Ec|]. cbn [x_wave ce]. rewrite U2, U3, HDW, HRF. apply even_centers. now rewrite <- HRF.
  - apply (find_nodup _ se ND). rewrite Fsnd, Efl. apply in_or_app. right. right. left. reflexivity.
  - split; [reflexivity|]. apply stack_wave_even.
  - intros r s Hr Hs. destruct (EF r Hr) as (_ & _ & F). destruct (E1 r Hr) as (X & _ & _).
    assert (t_stack (fst (fst (fst (f2 r)))) = t_stack tz) as Est.
    { destruct (A2 r Hr) as [Q1 _]. destruct (A2 0 Hn) as [Q2 _]. change (t_stack (set_tvfit None (fst (fst (fst (f2 r))))) = t_stack (set_tvfit None tz)). unfold tz. now rewrite Q1, Q2. }
    rewrite Est in X. clear - F X Hs.
    assert (exists s0, In s0 (valid_spectra (map fst (snd (fst (fst (f1 r)))))) /\ same_cont s0 s) as (s0 & H0 & S).
    { induction F as [|x y lx ly Hxy F IH]; [easy|]. destruct Hs as [<-|Hs]; [exists x; split; [now left|exact Hxy]|]. destruct (IH Hs) as (s0 & H0 & S). exists s0. split; [now right|exact S]. }
    apply filter_In in H0 as [H0 V]. apply in_map_iff in H0 as (sx & <- & Hx). rewrite Forall_forall in X. split; [destruct S as (_ & _ & _ & _ & S); congruence|].
    exact (same_explained _ _ _ _ _ S (X _ Hx)).
Qed.

(** ** with the catalog *)
Lemma Forall2_In {A B} (P : A -> Prop) (R Q : A -> B -> Prop) l l' : (forall a b, In a l -> R a b -> Q a b) -> Forall2 R l l' -> Forall2 Q l l'.
Proof. intros H F. revert H. induction F as [|a b l l' Hab F IH]; intro H; constructor; [apply H; [now left|exact Hab]|]. apply IH. intros x y Hx. apply H. now right. Qed.
Theorem continuum_thm n o (l : nat -> list specx) fa fc a b m : 1 <= n -> n_iterations g <> 0 -> g_outdir g = true ->
  g_rfwave g = centers a b m -> g_dwrf g = ((b - a) / zq (Z.of_nat m))%Qc ->
  (forall r, r < n -> Forall (fun sx => plain_forest (fst sx)) (l r)) -> o_coadd_after o = false ->
  finishes n (fun r => fitting_a r (files_ok o) (l r)) fa ->
  finishes n (fun r => fitting_c r o (l r)) fc ->
  exists c mf k xc xk rows,
    extension (snd (snd (fa 0))) ("CONT" ++ suffix_of (length (snd (fst (fa 0))))) = Some xc /\ table_in xc "mean_cont" c /\
    extension (snd (snd (fa 0))) "STACKED_FLUX" = Some xk /\ stacked_in xk k /\ mean_flux_of o mf /\
    snd (fc 0) = Some (concat (map rows (seq 0 n))) /\
    forall r, r < n -> snd (fst (fst (fc r))) = snd (fst (fst (fa r))) /\
      Forall2 (fun s row => about r s row /\ continuum_from (ev c) slope (ev mf) (if g_norm g then ev_stack k else fun _ => n1) row s)
        (snd (fst (fst (fc r)))) (filter r_valid (rows r)).
Proof.
  intros Hn Hi HW HRF HDW HP OC Ha Hc.
  destruct (file_thm n (files_ok o) l fa a b m Hn Hi HW HRF HDW HP OC Ha) as (c & mf & k & xc & xk & X1 & X2 & X3 & X4 & X5 & X6).
  pose proof (finishes_erased g ev ev_stack slope minimizer input_cont true_cont nsqrt uspline xs quad min_num_pix min_num_qso cholesky curve_fit vspline write_ok smooth junk dwave
    n (files_ok o) l fa Ha) as Ea.
  pose proof (same_program_thm g ev ev_stack slope minimizer input_cont true_cont nsqrt uspline xs quad min_num_pix min_num_qso cholesky curve_fit vspline write_ok suffix_of smooth junk dwave
    n o l fc Hn Hc) as Ec.
  pose proof (finishes_unique n _ _ _ Ea Ec) as U. cbn beta in U.
  destruct (rows_thm g ev ev_stack slope minimizer input_cont true_cont nsqrt uspline xs quad min_num_pix min_num_qso cholesky curve_fit vspline write_ok suffix_of smooth junk dwave
    n o l fc Hn Hi HW Hc) as (rows & R0 & _ & R).
  exists c, mf, k, xc, xk, rows. split; [exact X1|]. split; [exact X2|]. split; [exact X3|]. split; [exact X4|]. split; [exact X5|]. split; [exact R0|].
  intros r Hr. assert (snd (fst (fst (fc r))) = snd (fst (fst (fa r)))) as Es by (now rewrite (U r Hr)). split; [exact Es|].
  destruct (R r Hr) as (_ & Y & _). refine (Forall2_In (fun _ => True) _ _ _ _ _ Y). intros s row Hs (A & _ & Ex). split; [exact A|].
  rewrite Es in Hs. destruct (X6 r s Hr Hs) as [V E]. destruct (E V) as [Raw L].
  assert (r_x row = s_x s) as Er.
  { unfold assign, eff_order in Ex. rewrite Hmodel, L, Nat.eqb_refl in Ex. congruence. }
  apply raw_from; [exact Er|now destruct A as (_ & A & _)|exact Raw].
Qed.
Theorem continuum_run_thm n o (l : nat -> list specx) fa fc a b m : 1 <= n -> n_iterations g <> 0 -> g_outdir g = true ->
  g_rfwave g = centers a b m -> g_dwrf g = ((b - a) / zq (Z.of_nat m))%Qc ->
  (forall r, r < n -> Forall (fun sx => plain_forest (fst sx)) (l r)) -> o_coadd_after o = false ->
  finishes n (fun r => fitting_a r (files_ok o) (l r)) fa ->
  finishes n (fun r => fitting_c r o (l r)) fc ->
  exists c mf k xc xk rows, let '(_, _, log, (_, file)) := fa 0 in
    extension file ("CONT" ++ suffix_of (length log)) = Some xc /\ table_in xc "mean_cont" c /\
    extension file "STACKED_FLUX" = Some xk /\ stacked_in xk k /\ mean_flux_of o mf /\
    snd (fc 0) = Some (concat (map rows (seq 0 n))) /\
    forall r, r < n -> snd (fst (fst (fc r))) = snd (fst (fst (fa r))) /\
      Forall2 (fun s row => about r s row /\ continuum_from (ev c) slope (ev mf) (if g_norm g then ev_stack k else fun _ => n1) row s)
        (snd (fst (fst (fc r)))) (filter r_valid (rows r)).
Proof.
  intros Hn Hi HW HRF HDW HP OC Ha Hc. destruct (continuum_thm n o l fa fc a b m Hn Hi HW HRF HDW HP OC Ha Hc) as (c & mf & k & xc & xk & rows & H).
  exists c, mf, k, xc, xk, rows. destruct (fa 0) as [[[t v] log] [u file]]. exact H.
Qed.
End Fitting.
