(** The coefficients in the chi2 catalog (C78). *)
From Coq Require Import ZArith String List Bool Arith Lia Qcanon.
From Verif Require Import Num NpList NpListFacts Exn Dict ProofGroup Mpi ModelSpectrum ProofSpectrum1 ModelMasks ModelContinuum ModelStack ModelSubsample ModelVarFit ModelFitter ModelDelta ModelChi2 ModelChi2Run
  SpecSpectrum SpecMpi SpecFinal SpecChi2 SpecChi2Run SpecCoefs ProofMpi ProofMpi2 ProofLock ProofSafe ProofAttributes ProofRanks ProofRanks4 ProofPixels6 ProofFitter ProofFinal ProofChi2 ProofChi2Run ProofChi2Run2 ProofChi2Run3.
Import ListNotations.
Local Open Scope nat_scope.

(** a spectrum and its covariance hold one answer *)
Definition holds (minimizer : interp -> interp -> interp -> spec -> num -> option minres) (b : specx) : Prop :=
  exists cont var eta s a0 m, minimizer cont var eta s a0 = Some m /\ m_valid m = true /\ s_cat s = s_cat (fst b) /\
    s_x (fst b) = m_x m /\ snd b = m_xcov m.
Definition same_coefs (a b : specx) : Prop := s_x (fst b) = s_x (fst a) /\ snd b = snd a.

Lemma weight_x varlss eta s s' : set_forest_weight varlss eta s = Ok s' -> s_x s' = s_x s /\ s_cat s' = s_cat s /\ s_valid s' = s_valid s.
Proof. intro E. apply weight_shape in E as (f & ->). now repeat split. Qed.
Lemma chi2_x s s' : calc_continuum_chi2 s = Ok s' -> s_x s' = s_x s /\ s_cat s' = s_cat s /\ s_valid s' = s_valid s.
Proof. intro E. apply chi2_Ok in E as (x & ->). now repeat split. Qed.
Lemma smooth_x smooth dwave q s : s_x (set_smooth_forestivar smooth dwave q s) = s_x s /\ s_cat (set_smooth_forestivar smooth dwave q s) = s_cat s /\
  s_valid (set_smooth_forestivar smooth dwave q s) = s_valid s.
Proof. unfold set_smooth_forestivar. destruct (qleb _ _); now repeat split. Qed.

Section Fit.
Variable g : config.
Variable ev : interp -> Qc -> num.
Variable ev_stack : stacker -> Qc -> num.
Variable meanflux : Qc -> num.
Variable slope : Qc -> num.
Variable minimizer : interp -> interp -> interp -> spec -> num -> option minres.
Variable input_cont : spec -> option (Qc -> num).
Variable true_cont : spec -> Qc -> num.
Variable nsqrt : num -> num.
Variable uspline : list Qc -> list num -> list num -> option (list num).
Variable xs : list Qc.
Variable quad : list Qc -> Qc.
Variables (min_num_pix min_num_qso : nat) (cholesky : list (list Qc) -> bool)
  (curve_fit : list Qc -> list Qc -> list num -> errors -> option (list num * list num))
  (vspline : list Qc -> list num -> list num -> option (list num)).
Variable write_ok : string -> bool.
Variable iter_suffix : nat -> string.
Hypothesis Hg : g_model g = Picca.

Definition fitted (a b : specx) : Prop :=
  s_cat (fst b) = s_cat (fst a) /\ ((s_valid (fst b) = false /\ same_coefs a b) \/ holds minimizer b).
Lemma fit_fitted t a b : fit_one g ev meanflux slope minimizer input_cont true_cont t a = Ok b -> fitted a b.
Proof.
  destruct a as [s xcov]. unfold fit_one. rewrite Hg. unfold picca_fit. intro E. apply rbind_Ok in E as (a0 & _ & E). apply rbind_Ok in E as (r & Em & E).
  set (s1 := if m_valid r then _ else _) in E.
  assert (s_cat s1 = s_cat s /\ s_x s1 = s_x s /\ (s_valid s1 = true -> m_valid r = true)) as (C1 & X1 & V1).
  { unfold s1. destruct (m_valid r); [destruct (picca_arms _ _ _ _ _ _ _); now repeat split|]. now repeat split. }
  clearbody s1. apply rbind_Ok in E as (s2 & E1 & E). apply rbind_Ok in E as (s3 & E2 & E).
  destruct (weight_x _ _ _ _ E1) as (X2 & C2 & V2). destruct (chi2_x _ _ E2) as (X3 & C3 & V3). destruct (s_valid s3) eqn:V.
  - assert (b = (set_x (m_x r) s3, m_xcov r)) as -> by congruence. split; [cbn; congruence|]. right.
    destruct (minimizer _ _ _ s a0) as [m|] eqn:Ef; cbn in Em; [|discriminate]. assert (m = r) as -> by congruence.
    exists (t_cont t), (deref t (t_mvar t)), (deref t (t_meta t)), s, a0, r. split; [exact Ef|]. split; [apply V1; congruence|]. split; [cbn; congruence|]. split; reflexivity.
  - assert (b = (set_chi2 (Fin (- (1))) (set_cont [] s3), xcov)) as -> by congruence. split; [cbn; congruence|]. left. split; [exact V|]. split; [cbn; congruence|reflexivity].
Qed.
Lemma fitted_trans a b c : fitted a b -> fitted b c -> fitted a c.
Proof.
  intros (A1 & A2) (B1 & B2). split; [congruence|]. destruct B2 as [(V & X & Y)|B2]; [|now right]. destruct A2 as [(_ & X' & Y')|A2].
  - left. split; [exact V|]. split; congruence.
  - right. destruct A2 as (cont & var & eta & s & a0 & m & H1 & H2 & H3 & H4 & H5). exists cont, var, eta, s, a0, m.
    split; [exact H1|]. split; [exact H2|]. split; [congruence|]. split; congruence.
Qed.
Lemma iterations_fitted rank : forall n it t l log, n <> 0 ->
  leaf (fun r => Forall2 fitted l (snd (fst r))) (iterations g ev meanflux slope minimizer input_cont true_cont nsqrt uspline xs quad
      min_num_pix min_num_qso cholesky curve_fit vspline write_ok iter_suffix rank n it t l log).
Proof.
  induction n as [|n IH]; intros it t l log Hn; [lia|]. cbn [iterations]. apply leaf_bind_any. intros _.
  apply (leaf_bind (Forall2 fitted l)).
  { unfold fit_continua. apply (leaf_bind (Forall2 fitted l)).
    - apply leaf_res. intros l' E. apply rseq_Forall2 in E. apply (Forall2_weaken _ _ _ _) with (2 := E). intros a b. apply fit_fitted.
    - intros l' F. cbn [leaf]. intros nv x. destruct (Nat.eqb _ _); [exact I|exact F]. }
  intros l1 F. apply leaf_bind_any. intro tb. apply leaf_bind_any. intro t2. cbv zeta.
  destruct (snd tb); [exact F|]. destruct n as [|n]; [exact F|].
  eapply leaf_weaken; [|apply (IH (S it) t2 l1); discriminate]. intros r G. exact (Forall2_trans _ _ _ _ _ _ fitted_trans F G).
Qed.

(** nothing else changes the coefficients *)
Definition untouched (a b : specx) : Prop := s_cat (fst b) = s_cat (fst a) /\ s_valid (fst b) = s_valid (fst a) /\ same_coefs a b.
Lemma untouched_refl a : untouched a a. Proof. now repeat split. Qed.
Lemma normalize_untouched t l l' : normalize_flux g ev_stack t l = Ok l' -> Forall2 untouched l l'.
Proof.
  unfold normalize_flux. destruct (g_norm g); intro E; [|assert (l' = l) as -> by congruence; apply Forall2_refl, untouched_refl].
  apply rseq_Forall2 in E. apply (Forall2_weaken _ _ _ _) with (2 := E). intros a b H. unfold on_valid in H.
  destruct (s_valid (fst a)) eqn:V; [|assert (b = a) as -> by congruence; apply untouched_refl].
  apply rmap_Ok in H as (s' & H & ->). apply rmap_Ok in H as (c & _ & ->). now repeat split.
Qed.
Lemma eta_untouched t l l' : eta_calibrate g ev t l = Ok l' -> Forall2 untouched l l'.
Proof.
  unfold eta_calibrate. destruct (g_etacal g); intro E; [|assert (l' = l) as -> by congruence; apply Forall2_refl, untouched_refl].
  apply rseq_Forall2 in E. apply (Forall2_weaken _ _ _ _) with (2 := E). intros a b H.
  apply rmap_Ok in H as (s' & H & ->). apply rmap_Ok in H as (f & _ & ->). now repeat split.
Qed.
(** a: before the fit *)
Definition began (a b : specx) : Prop := exists x0 rest, s_x (fst a) = x0 :: rest /\ s_x (fst b) = x0 :: repeat n0 (g_order g) /\ snd b = eye (S (g_order g)).
Definition ended (a b : specx) : Prop := s_cat (fst b) = s_cat (fst a) /\ ((s_valid (fst b) = false /\ began a b) \/ holds minimizer b).
Lemma ended_untouched a b c : ended a b -> untouched b c -> ended a c.
Proof.
  intros (A1 & A2) (B1 & B2 & B3 & B4). split; [congruence|]. destruct A2 as [(V & x0 & rest & X1 & X2 & X3)|A2].
  - left. split; [congruence|]. exists x0, rest. split; [exact X1|]. split; congruence.
  - right. destruct A2 as (cont & var & eta & s & a0 & m & H1 & H2 & H3 & H4 & H5). exists cont, var, eta, s, a0, m.
    split; [exact H1|]. split; [exact H2|]. split; [congruence|]. split; congruence.
Qed.
Lemma iterate_ended rank t l : n_iterations g <> 0 ->
  leaf (fun r => Forall2 ended l (snd (fst r))) (iterate g ev ev_stack meanflux slope minimizer input_cont true_cont nsqrt uspline xs quad
      min_num_pix min_num_qso cholesky curve_fit vspline write_ok iter_suffix rank t l).
Proof.
  intro Hn. unfold iterate. apply (leaf_bind (Forall2 (fun a b : specx => s_cat (fst b) = s_cat (fst a) /\ began a b) l)).
  { apply leaf_res. intros l0 E. apply rseq_Forall2 in E. apply (Forall2_weaken _ _ _ _) with (2 := E). intros a b H.
    unfold init_one in H. rewrite Hg in H. unfold picca_init in H. destruct (s_x (fst a)) as [|x0 rest] eqn:Ex; [discriminate|].
    assert (b = (set_x (x0 :: repeat n0 (g_order g)) (fst a), eye (S (g_order g)))) as -> by congruence. split; [reflexivity|]. exists x0, rest. now repeat split. }
  intros l0 F0. eapply leaf_bind; [apply (iterations_fitted rank _ 1 t l0 [] Hn)|]. intros [[t1 l1] log] F1. cbn [fst snd] in F1.
  assert (Forall2 ended l l1) as F.
  { refine (Forall2_trans _ _ _ _ _ _ _ F0 F1). intros a b c (A1 & x0 & rest & X1 & X2 & X3) (B1 & B2). split; [congruence|].
    destruct B2 as [(V & Y1 & Y2)|B2]; [|now right]. left. split; [exact V|]. exists x0, rest. split; [exact X1|]. split; congruence. }
  clear F0 F1.
  apply (leaf_bind (Forall2 untouched l1)); [apply leaf_res; intros l2 E; exact (normalize_untouched t1 _ _ E)|]. intros l2 G1.
  apply (leaf_bind (Forall2 untouched l2)); [apply leaf_res; intros l3 E; exact (eta_untouched t1 _ _ E)|]. intros l3 G3.
  pose proof (Forall2_trans _ _ _ _ _ _ ended_untouched F G1) as F2. pose proof (Forall2_trans _ _ _ _ _ _ ended_untouched F2 G3) as F3.
  apply leaf_bind_any. intros _. apply leaf_bind_any. intro t2. apply leaf_bind_any. intros _. exact F3.
Qed.
(** the last steps *)
Variable smooth : arr -> Qc -> arr.
Variable junk : nat -> num.
Variable dwave : Qc.
Definition kept_x (a b : spec) : Prop := s_cat b = s_cat a /\ s_valid b = s_valid a /\ s_x b = s_x a.
Lemma kept_x_trans a b c : kept_x a b -> kept_x b c -> kept_x a c.
Proof. intros (A & B & C) (A' & B' & C'). repeat split; congruence. Qed.
Lemma noise_x vl t l l' : add_noise ev smooth dwave vl t l = Ok l' -> Forall2 kept_x l l'.
Proof.
  unfold add_noise. intro E. apply rbind_Ok in E as (l1 & E1 & E2). unfold noise_calibrate in E1. destruct (forallb _ l); [|discriminate].
  apply rseq_Forall2 in E1. apply rseq_Forall2 in E2. refine (Forall2_trans _ _ _ _ _ _ _ E1 E2). intros a b c H1 H2.
  apply rmap_Ok in H1 as (f & _ & ->). apply weight_x in H2 as (X & C & V). destruct (smooth_x smooth dwave (s_sscale (set_f f a)) (set_f f a)) as (X' & C' & V').
  split; [rewrite C; exact C'|]. split; [rewrite V; exact V'|rewrite X; exact X'].
Qed.
Lemma coadd_x t l l' : coadd_after ev nsqrt smooth junk dwave t l = Ok l' -> Forall2 kept_x l l'.
Proof.
  unfold coadd_after. intro E. apply rseq_Forall2 in E. apply (Forall2_weaken _ _ _ _) with (2 := E). intros a b E1. clear E.
  apply rbind_Ok in E1 as (s1 & E1 & E2). unfold coadd_arms_forest in E1.
  do 4 apply rbind_Ok in E1 as (? & _ & E1). apply rbind_Ok in E1 as (acc & _ & E1). destruct (coadd_finish acc) as [fl iv].
  apply rbind_Ok in E1 as (cont1 & _ & E1). apply rbind_Ok in E1 as (reso1 & _ & E1).
  apply rbind_Ok in E1 as (s3 & E3 & E1). apply rbind_Ok in E1 as (d & _ & E1).
  match type of E1 with Ok ?x = Ok ?y => assert (y = x) as -> by congruence end. clear E1.
  apply chi2_x in E2 as (X2 & C2 & V2). apply weight_x in E3 as (X3 & C3 & V3). set (s0 := set_cont cont1 (set_f _ a)) in *.
  destruct (smooth_x smooth dwave (s_sscale a) s0) as (X0 & C0 & V0).
  split; [rewrite C2; cbn; rewrite C3, C0; reflexivity|]. split; [rewrite V2; cbn; rewrite V3, V0; reflexivity|rewrite X2; cbn; rewrite X3, X0; reflexivity].
Qed.
End Fit.
