(** The spectra and the rows of the chi2 catalog of mpi_continuum_fitting (C75). *)
From Coq Require Import ZArith String List Bool Arith Lia Qcanon.
From Verif Require Import Num NpList NpListFacts Exn Dict ProofGroup Mpi ModelSpectrum ProofSpectrum1 ModelMasks ModelContinuum ModelStack ModelSubsample ModelVarFit ModelFitter ModelDelta ModelChi2 ModelChi2Run
  SpecSpectrum SpecMpi SpecFinal SpecChi2 SpecChi2Run ProofMpi ProofMpi2 ProofLock ProofSafe ProofAttributes ProofRanks ProofRanks4 ProofFitter ProofFinal ProofChi2 ProofChi2Run.
Import ListNotations.
Local Open Scope nat_scope.

(** ** weights and chi2 of one spectrum *)
Lemma weights_dead varlss eta s s' : set_forest_weight varlss eta s = Ok s' -> s_valid s = true -> plain_forest s -> dead s'.
Proof.
  intros E V (N & _ & Hs & _). destruct (set_forest_weight_kept _ _ _ _ E) as ((K1 & _) & K2 & _ & _ & K3). specialize (K3 Hs).
  unfold dead. rewrite K1, K3. unfold set_forest_weight in E. rewrite V in E. cbn [negb orb] in E.
  destruct (dtrue (s_cont s)) eqn:C; cbn [negb] in E.
  2:{ injection E as <-. intros arm k w _ H1 H2. left. unfold fweight, fivar_sm in *. cbn in H2. congruence. }
  apply rbind_Ok in E as (wts & E & E'). assert (s' = set_f (new_weight wts (s_f s)) s) as -> by congruence. clear E'.
  set (F := fun aw : string * list Qc => rbind (rget (fst aw) (s_cont s)) (fun c => rbind (rget (fst aw) (fivar_sm (s_f s))) (fun iv => weight_arm varlss eta (snd aw) iv c))).
  assert (for_each (fw (s_f s)) (fun aw d => rbind (F aw) (fun y => Ok (dset (fst aw) y d))) [] = Ok wts) as E2.
  { rewrite <- E. clear. generalize (@nil (string * list num)). induction (fw (s_f s)) as [|aw l IH]; intro d; [reflexivity|].
    cbn [for_each]. unfold F at 1. destruct (rget (fst aw) (s_cont s)); [|reflexivity]. cbn [rbind].
    destruct (rget (fst aw) (fivar_sm (s_f s))); [|reflexivity]. cbn [rbind].
    destruct (weight_arm _ _ _ _ _); [|reflexivity]. cbn [rbind]. apply IH. }
  intros arm k w Hw Hi Hq. pose proof (for_each_dset F _ _ _ N E2 arm) as H.
  destruct (dget arm (fw (s_f s))) as [wave|] eqn:Ew; [|congruence].
  destruct H as (y & Hy & Hg). unfold at_pix in Hi, Hq. unfold fweight in Hq. cbn [s_f set_f rw hp new_weight] in Hq.
  rewrite app_nth2, Nat.sub_diag in Hq by lia. cbn [nth] in Hq. rewrite Hg in Hq. unfold F in Hy. cbn [fst snd] in Hy.
  apply rbind_Ok in Hy as (ca & G1 & Hy). apply rbind_Ok in Hy as (iv & G2 & Hy). apply rget_Ok in G2. rewrite G2 in Hi.
  unfold weight_arm in Hy. apply rbind_Ok in Hy as (v1 & _ & Hy). apply rbind_Ok in Hy as (v2 & _ & Hy). apply rbind_Ok in Hy as (den & _ & Hy).
  destruct (ProofPixels6.zip2_at _ _ _ _ _ _ Hy Hq) as (i & d & Q1 & Q2 & ->). assert (i = n0) as -> by congruence.
  destruct d as [d| | |]; cbn; try (now left); try (now right). destruct (qeqb d 0); [right; reflexivity|]. left. unfold n0. f_equal. unfold Qcdiv. apply Qc_is_canon. cbn. reflexivity.
Qed.
Definition good (s : spec) : Prop := plain_forest s /\ dead s /\ chi2_ok s.
Lemma chi2_stable s s' : calc_continuum_chi2 s = Ok s' -> chi2_ok s'.
Proof.
  unfold chi2_ok. intro E. destruct (chi2_Ok _ _ E) as (x & ->). revert E. unfold calc_continuum_chi2. cbn [s_valid s_cont s_f set_chi2].
  destruct (_ || _); intro E; [injection E as <-; reflexivity|]. apply rbind_Ok in E as (y & E & E1). rewrite E. cbn [rbind].
  assert (x = y) as ->; [|reflexivity]. assert (s_chi2 (set_chi2 y s) = s_chi2 (set_chi2 x s)) as K by congruence. symmetry. exact K.
Qed.
Lemma chi2_set_x v s : chi2_ok s -> chi2_ok (set_x v s).
Proof.
  unfold chi2_ok, calc_continuum_chi2. cbn [s_valid s_cont s_f set_x]. destruct (_ || _); intro E.
  - assert (set_chi2 (Fin (- (1))%Qc) s = s) as K by congruence. f_equal. rewrite <- K at 2. reflexivity.
  - apply rbind_Ok in E as (y & E & E1). rewrite E. cbn [rbind]. assert (set_chi2 y s = s) as K by congruence. f_equal. rewrite <- K at 2. reflexivity.
Qed.
Lemma tail_good varlss eta s s1 s2 : set_forest_weight varlss eta s = Ok s1 -> calc_continuum_chi2 s1 = Ok s2 -> s_valid s2 = true -> plain_forest s -> good s2.
Proof.
  intros E1 E2 V P. destruct (set_forest_weight_kept _ _ _ _ E1) as (K & _ & V1 & _). destruct (chi2_Ok _ _ E2) as (x & E). split; [|split; [|exact (chi2_stable _ _ E2)]].
  - subst s2. exact (kept_plain _ _ K P).
  - assert (dead s1) as D by (apply (weights_dead varlss eta s); [exact E1|subst s2; cbn in V; congruence|exact P]). subst s2. exact D.
Qed.

Section Fit.
Variable g : config.
Variable ev : interp -> Qc -> num.
Variable meanflux : Qc -> num.
Variable slope : Qc -> num.
Variable minimizer : interp -> interp -> interp -> spec -> num -> option minres.
Variable input_cont : spec -> option (Qc -> num).
Variable true_cont : spec -> Qc -> num.
Notation fit := (fit_one g ev meanflux slope minimizer input_cont true_cont).
Definition ready (s : spec) : Prop := g_model g = TrueCont -> s_valid s = true.
(** before and after a fit *)
Definition rel_init (a b : specx) : Prop := s_cat (fst b) = s_cat (fst a) /\ (plain_forest (fst a) -> plain_forest (fst b)) /\ ready (fst b).
Definition rel_fit (a b : specx) : Prop :=
  s_cat (fst b) = s_cat (fst a) /\ (plain_forest (fst a) -> plain_forest (fst b)) /\ ready (fst b) /\
  (s_valid (fst b) = false -> s_chi2 (fst b) = Fin (- (1))) /\ (s_valid (fst b) = true -> plain_forest (fst a) -> good (fst b)).
Lemma init_rel a b : init_one g input_cont a = Ok b -> rel_init a b.
Proof.
  intro E. pose proof (init_one_kept g input_cont _ _ E) as K. apply init_shape in E as (_ & (Q & _) & R).
  split; [exact Q|]. split; [exact (kept_plain _ _ K)|exact R].
Qed.
Lemma fit_rel t a b : fit t a = Ok b -> ready (fst a) -> rel_fit a b.
Proof.
  intros E R.
  assert (plain_forest (fst a) -> plain_forest (fst b)) as PK.
  { intro P. destruct (fit_one_weights _ _ _ _ _ _ _ _ _ _ E P) as [K _]. exact (kept_plain _ _ K P). }
  assert (same_quasar (fst a) (fst b) /\ ready (fst b) /\ (s_valid (fst b) = false -> s_chi2 (fst b) = Fin (- (1)))) as ((Q & _) & R' & X).
  { unfold ready in *. destruct a as [s xcov], b as [s' xcov']. unfold fit_one in E. destruct (g_model g) eqn:Eg.
    - apply picca_shape in E as (A & B & _). split; [exact A|]. split; [discriminate|exact B].
    - apply rmap_Ok in E as (x & E & Ex). injection Ex as -> ->. apply input_shape in E as (A & B & _). split; [exact A|]. split; [discriminate|exact B].
    - apply rmap_Ok in E as (x & E & Ex). injection Ex as -> ->. apply true_shape in E as (A & B & _). cbn [fst] in *. specialize (R eq_refl). split; [exact A|]. split; congruence. }
  split; [exact Q|]. split; [exact PK|]. split; [exact R'|]. split; [exact X|]. clear Q PK R' X R. intros V P.
  destruct a as [s xcov]. unfold fit_one in E. cbn [fst] in *. destruct (g_model g).
  - unfold picca_fit in E. apply rbind_Ok in E as (a0 & _ & E). apply rbind_Ok in E as (r & _ & E).
    set (s1 := if m_valid r then _ else _) in E. assert (kept s s1) as K.
    { unfold s1. destruct (m_valid r); [|now repeat split]. destruct (picca_arms _ _ _ _ _ _ _); now repeat split. }
    clearbody s1. apply rbind_Ok in E as (s2 & E1 & E). apply rbind_Ok in E as (s3 & E2 & E). destruct (s_valid s3) eqn:V3.
    + assert (b = (set_x (m_x r) s3, m_xcov r)) as -> by congruence. cbn [fst].
      destruct (tail_good _ _ _ _ _ E1 E2 V3 (kept_plain _ _ K P)) as (G1 & G2 & G3). split; [exact G1|]. split; [exact G2|]. now apply chi2_set_x.
    + assert (b = (set_chi2 (Fin (- (1))) (set_cont [] s3), xcov)) as -> by congruence. cbn in V. congruence.
  - apply rmap_Ok in E as (s' & E & ->). cbn [fst] in *. unfold input_fit in E. destruct (s_valid s) eqn:Vs; cbn [negb] in E.
    2:{ assert (s' = set_chi2 (Fin (- (1))) (set_cont [] s)) as -> by congruence. cbn in V. congruence. }
    destruct (input_arms _ _ _ _ _) as [ok cont]. set (s1 := set_cont cont _) in E. assert (kept s s1) as K by (unfold s1; destruct ok; now repeat split).
    clearbody s1. apply rbind_Ok in E as (s2 & E1 & E). apply rbind_Ok in E as (s3 & E2 & E). destruct (s_valid s3) eqn:V3.
    + assert (s' = s3) as -> by congruence. exact (tail_good _ _ _ _ _ E1 E2 V3 (kept_plain _ _ K P)).
    + assert (s' = set_chi2 (Fin (- (1))) (set_cont [] s3)) as -> by congruence. cbn in V. congruence.
  - apply rmap_Ok in E as (s' & E & ->). cbn [fst] in *. unfold true_fit in E. set (s1 := set_cont _ s) in E.
    assert (kept s s1) as K by now repeat split. clearbody s1. apply rbind_Ok in E as (s2 & E1 & E2). exact (tail_good _ _ _ _ _ E1 E2 V (kept_plain _ _ K P)).
Qed.
End Fit.

(** ** lists *)
Lemma rseq_Forall2 {A B} (f : A -> res B) l : forall l', rseq (map f l) = Ok l' -> Forall2 (fun a b => f a = Ok b) l l'.
Proof.
  induction l as [|a l IH]; intros l' E; cbn in E; [injection E as <-; constructor|].
  apply rbind_Ok in E as (b & E1 & E2). apply rmap_Ok in E2 as (l2 & E2 & ->). constructor; [exact E1|now apply IH].
Qed.
Lemma Forall2_weaken {A B} (R S : A -> B -> Prop) l l' : (forall a b, R a b -> S a b) -> Forall2 R l l' -> Forall2 S l l'.
Proof. intros H F. induction F; constructor; auto. Qed.
Lemma Forall2_trans {A B C} (R : A -> B -> Prop) (S : B -> C -> Prop) (Q : A -> C -> Prop) l l' l'' :
  (forall a b c, R a b -> S b c -> Q a c) -> Forall2 R l l' -> Forall2 S l' l'' -> Forall2 Q l l''.
Proof. intros H F. revert l''. induction F; intros l2 G; inversion_clear G; constructor; eauto. Qed.
Lemma Forall2_refl {A} (R : A -> A -> Prop) l : (forall a, R a a) -> Forall2 R l l.
Proof. intro H. induction l; constructor; auto. Qed.

Section Steps.
Variable g : config.
Variable ev : interp -> Qc -> num.
Variable ev_stack : stacker -> Qc -> num.
Variable meanflux : Qc -> num.
Variable slope : Qc -> num.
Variable minimizer : interp -> interp -> interp -> spec -> num -> option minres.
Variable input_cont : spec -> option (Qc -> num).
Variable true_cont : spec -> Qc -> num.
Variable nsqrt : num -> num.
Variable uspline : list Qc -> list num -> list num -> option (list num).
Variable xs : list Qc.
Variable quad : list Qc -> Qc.
Variables (min_num_pix min_num_qso : nat) (cholesky : list (list Qc) -> bool)
  (curve_fit : list Qc -> list Qc -> list num -> errors -> option (list num * list num))
  (vspline : list Qc -> list num -> list num -> option (list num)).
Variable write_ok : string -> bool.
Variable iter_suffix : nat -> string.

Lemma fits_leaf t l : Forall (fun sx => ready g (fst sx)) l ->
  leaf (Forall2 (rel_fit g) l) (fit_continua g ev meanflux slope minimizer input_cont true_cont t l).
Proof.
  intro R. unfold fit_continua. apply (leaf_bind (Forall2 (rel_fit g) l)).
  - apply leaf_res. intros l' E. apply rseq_Forall2 in E. induction E as [|a b l l' E F IH]; constructor.
    + apply (fit_rel g ev meanflux slope minimizer input_cont true_cont t); [exact E|]. now inversion R.
    + apply IH. now inversion R.
  - intros l' F. cbn [leaf]. intros nv x. destruct (Nat.eqb _ _); [exact I|exact F].
Qed.
Lemma rel_fit_trans a b c : rel_fit g a b -> rel_fit g b c -> rel_fit g a c.
Proof. intros (A1 & A2 & A3 & A4 & A5) (B1 & B2 & B3 & B4 & B5). split; [congruence|]. split; [auto|]. split; [exact B3|]. split; [exact B4|]. auto. Qed.
Lemma iterations_rel rank : forall n it t l log, Forall (fun sx => ready g (fst sx)) l -> n <> 0 ->
  leaf (fun r => Forall2 (rel_fit g) l (snd (fst r))) (iterations g ev meanflux slope minimizer input_cont true_cont nsqrt uspline xs quad
      min_num_pix min_num_qso cholesky curve_fit vspline write_ok iter_suffix rank n it t l log).
Proof.
  induction n as [|n IH]; intros it t l log R Hn; [lia|]. cbn [iterations]. apply leaf_bind_any. intros _.
  eapply leaf_bind; [apply (fits_leaf t l R)|]. intros l1 F. cbn beta in F. apply leaf_bind_any. intro tb. apply leaf_bind_any. intro t2. cbv zeta.
  destruct (snd tb); [exact F|]. destruct n as [|n]; [exact F|].
  assert (Forall (fun sx => ready g (fst sx)) l1) as R1.
  { clear - F. induction F as [|a b l l' (_ & _ & H & _) F IH]; constructor; assumption. }
  eapply leaf_weaken; [|apply (IH (S it) t2 l1 _ R1); discriminate]. intros r G. exact (Forall2_trans _ _ _ _ _ _ rel_fit_trans F G).
Qed.

(** after iterate *)
Definition rel_done (a b : specx) : Prop :=
  s_cat (fst b) = s_cat (fst a) /\ (plain_forest (fst a) -> plain_forest (fst b)) /\
  (s_valid (fst b) = false -> s_chi2 (fst b) = Fin (- (1))) /\
  (g_norm g = false -> g_etacal g = false -> s_valid (fst b) = true -> plain_forest (fst a) -> good (fst b)).
(** scaling after the fit *)
Definition rel_scale (a b : specx) : Prop :=
  s_cat (fst b) = s_cat (fst a) /\ (plain_forest (fst a) -> plain_forest (fst b)) /\ s_valid (fst b) = s_valid (fst a) /\ s_chi2 (fst b) = s_chi2 (fst a).
Lemma rel_scale_refl a : rel_scale a a. Proof. split; [reflexivity|]. split; [auto|]. split; reflexivity. Qed.
Lemma normalize_rel t l l' : normalize_flux g ev_stack t l = Ok l' -> Forall2 rel_scale l l' /\ (g_norm g = false -> l' = l).
Proof.
  unfold normalize_flux. destruct (g_norm g); intro E.
  - split; [|discriminate]. apply rseq_Forall2 in E. apply (Forall2_weaken _ _ _ _) with (2 := E). intros a b H. unfold on_valid in H.
    destruct (s_valid (fst a)) eqn:V; [|assert (b = a) as -> by congruence; apply rel_scale_refl].
    apply rmap_Ok in H as (s' & H & ->). unfold rel_scale. cbn [fst]. apply rmap_Ok in H as (c & _ & ->). split; [reflexivity|]. split; [intro P; exact P|]. split; reflexivity.
  - assert (l' = l) as -> by congruence. split; [apply Forall2_refl, rel_scale_refl|reflexivity].
Qed.
Lemma eta_rel t l l' : eta_calibrate g ev t l = Ok l' -> Forall2 rel_scale l l' /\ (g_etacal g = false -> l' = l).
Proof.
  unfold eta_calibrate. destruct (g_etacal g); intro E.
  - split; [|discriminate]. apply rseq_Forall2 in E. apply (Forall2_weaken _ _ _ _) with (2 := E). intros a b H.
    apply rmap_Ok in H as (s' & H & ->). unfold rel_scale. cbn [fst].
    assert (plain_forest (fst a) -> plain_forest s') as P.
    { intro P. destruct P as (N & L & Ls & Z). destruct (noise_eta_Ok _ _ _ H N L) as (K & _). apply (kept_plain _ _ K). now repeat split. }
    apply rmap_Ok in H as (f & _ & ->). split; [reflexivity|]. split; [exact P|]. split; reflexivity.
  - assert (l' = l) as -> by congruence. split; [apply Forall2_refl, rel_scale_refl|reflexivity].
Qed.
Lemma iterate_rel rank t l : n_iterations g <> 0 ->
  leaf (fun r => Forall2 rel_done l (snd (fst r))) (iterate g ev ev_stack meanflux slope minimizer input_cont true_cont nsqrt uspline xs quad
      min_num_pix min_num_qso cholesky curve_fit vspline write_ok iter_suffix rank t l).
Proof.
  intro Hn. unfold iterate. apply (leaf_bind (Forall2 (rel_init g) l)).
  { apply leaf_res. intros l0 E. apply rseq_Forall2 in E. apply (Forall2_weaken _ _ _ _) with (2 := E). intros a b H. exact (init_rel g input_cont _ _ H). }
  intros l0 F0. assert (Forall (fun sx => ready g (fst sx)) l0) as R0.
  { clear - F0. induction F0 as [|a b l l' (_ & _ & H) F IH]; constructor; assumption. }
  eapply leaf_bind; [apply (iterations_rel rank _ 1 t l0 [] R0 Hn)|]. intros [[t1 l1] log] F1. cbn [fst snd] in F1.
  assert (Forall2 (rel_fit g) l l1) as F.
  { refine (Forall2_trans _ _ _ _ _ _ _ F0 F1). intros a b c (A1 & A2 & A3) (B1 & B2 & B3 & B4 & B5). split; [congruence|]. split; [auto|]. split; [exact B3|]. split; [exact B4|auto]. }
  clear F0 F1 R0.
  apply (leaf_bind (fun l2 => Forall2 rel_scale l1 l2 /\ (g_norm g = false -> l2 = l1))); [apply leaf_res; intros l2 E; exact (normalize_rel t1 _ _ E)|]. intros l2 [G1 G2].
  apply (leaf_bind (fun l3 => Forall2 rel_scale l2 l3 /\ (g_etacal g = false -> l3 = l2))); [apply leaf_res; intros l3 E; exact (eta_rel t1 _ _ E)|]. intros l3 [G3 G4].
  assert (Forall2 rel_done l l3) as D.
  { assert (Forall2 (fun b c => rel_scale b c /\ (g_norm g = false -> g_etacal g = false -> c = b)) l1 l3) as G.
    { destruct (g_norm g) eqn:En; [|destruct (g_etacal g) eqn:Ee].
      - refine (Forall2_trans _ _ _ _ _ _ _ G1 G3). intros a b c (A1 & A2 & A3 & A4) (B1 & B2 & B3 & B4). split; [|discriminate]. split; [congruence|]. split; [auto|]. split; congruence.
      - refine (Forall2_trans _ _ _ _ _ _ _ G1 G3). intros a b c (A1 & A2 & A3 & A4) (B1 & B2 & B3 & B4). split; [|discriminate]. split; [congruence|]. split; [auto|]. split; congruence.
      - rewrite (G4 eq_refl), (G2 eq_refl). apply Forall2_refl. intro a. split; [apply rel_scale_refl|reflexivity]. }
    refine (Forall2_trans _ _ _ _ _ _ _ F G). intros a b c (A1 & A2 & A3 & A4 & A5) ((B1 & B2 & B3 & B4) & B5).
    split; [congruence|]. split; [auto|]. split; [intro V; rewrite B4; apply A4; congruence|]. intros H1 H2 V P. rewrite (B5 H1 H2) in *. auto. }
  apply leaf_bind_any. intros _. apply leaf_bind_any. intro t2. apply leaf_bind_any. intros _. exact D.
Qed.

(** the last steps *)
Variable smooth : arr -> Qc -> arr.
Variable junk : nat -> num.
Variable dwave : Qc.
Definition rel_last (fresh : bool) (a b : spec) : Prop :=
  s_cat b = s_cat a /\ (s_valid a = true -> s_valid b = true) /\ (s_valid a = true -> plain_forest a -> plain_forest b /\ (fresh = true -> good b)).
Lemma noise_rel vl t l l' : add_noise ev smooth dwave vl t l = Ok l' -> Forall2 (rel_last false) l l'.
Proof.
  unfold add_noise. intro E. apply rbind_Ok in E as (l1 & E1 & E2). unfold noise_calibrate in E1. destruct (forallb _ l); [|discriminate].
  apply rseq_Forall2 in E1. apply rseq_Forall2 in E2. refine (Forall2_trans _ _ _ _ _ _ _ E1 E2). intros a b c H1 H2.
  destruct (noise_additive_kept _ _ _ _ H1) as (K & V & _). assert (s_cat b = s_cat a) as C by (apply rmap_Ok in H1 as (f & _ & ->); reflexivity).
  destruct (set_smooth_same smooth dwave (s_sscale b) b) as [_ V0]. destruct (set_forest_weight_kept _ _ _ _ H2) as (K2 & _ & V2 & _).
  assert (s_cat c = s_cat b) as C2.
  { apply weight_shape in H2 as (f & ->). cbn. unfold set_smooth_forestivar. now destruct (qleb _ _). }
  split; [congruence|]. split; [congruence|]. intros Va P. split; [|discriminate].
  apply (kept_plain _ _ K2). destruct (kept_plain _ _ K P) as (N & L & _). now apply set_smooth_plain.
Qed.
Lemma coadd_rel t l l' : coadd_after ev nsqrt smooth junk dwave t l = Ok l' -> Forall2 (rel_last true) l l'.
Proof.
  unfold coadd_after. intro E. apply rseq_Forall2 in E. apply (Forall2_weaken _ _ _ _) with (2 := E). intros a b E1. clear E.
  apply rbind_Ok in E1 as (s1 & E1 & E2). unfold coadd_arms_forest in E1.
  do 4 apply rbind_Ok in E1 as (? & _ & E1). apply rbind_Ok in E1 as (acc & _ & E1). destruct (coadd_finish acc) as [fl iv].
  apply rbind_Ok in E1 as (cont1 & _ & E1). apply rbind_Ok in E1 as (reso1 & _ & E1).
  apply rbind_Ok in E1 as (s3 & E3 & E1). apply rbind_Ok in E1 as (d & _ & E1).
  match type of E1 with Ok ?x = Ok ?y => assert (y = x) as -> by congruence end. clear E1.
  set (s0 := set_cont cont1 (set_f _ a)) in E3.
  destruct (set_smooth_same smooth dwave (s_sscale a) s0) as [_ V0]. destruct (set_forest_weight_kept _ _ _ _ E3) as (K & _ & V3 & _).
  assert (s_valid s0 = s_valid a) as Va by reflexivity. assert (s_cat s0 = s_cat a) as Ca by reflexivity.
  assert (s_cat s3 = s_cat a) as C3.
  { pose proof (weight_shape _ _ _ _ E3) as (f & ->). cbn. unfold set_smooth_forestivar. now destruct (qleb _ _). }
  assert (plain_forest (set_smooth_forestivar smooth dwave (s_sscale a) s0)) as P0.
  { apply set_smooth_plain; cbn; [constructor; [easy|constructor]|rewrite app_length; cbn; lia]. }
  destruct (chi2_Ok _ _ E2) as (xx & Eb). split; [subst b; exact C3|]. split; [subst b; cbn; congruence|]. intros V P.
  assert (s_valid (set_smooth_forestivar smooth dwave (s_sscale a) s0) = true) as Vs by congruence.
  pose proof (weights_dead _ _ _ _ E3 Vs P0) as D. pose proof (chi2_stable _ _ E2) as X. subst b.
  split; [exact (kept_plain _ _ K P0)|]. intros _. split; [exact (kept_plain _ _ K P0)|]. split; [exact D|exact X].
Qed.
Definition rel_out (o : fitopts) (a b : spec) : Prop :=
  s_cat b = s_cat a /\ s_valid b = true /\ (o_coadd_after o = true -> plain_forest a -> good b) /\ (o_additive o = None -> o_coadd_after o = false -> b = a).
End Steps.

Lemma valid_Forall (l : list spec) : Forall (fun s => s_valid s = true) (valid_spectra l).
Proof. apply Forall_forall. intros s H. now apply filter_In in H. Qed.
Lemma Forall2_both {A B} (P : A -> Prop) (R Q : A -> B -> Prop) l l' : (forall a b, P a -> R a b -> Q a b) -> Forall P l -> Forall2 R l l' -> Forall2 Q l l'.
Proof. intros H F G. induction G; constructor; inversion F; auto. Qed.
(** *** [merge] *)
Lemma merge_spec (R : spec -> spec -> Prop) (Hv : forall a b, R a b -> s_valid b = true) l : forall v, Forall2 R (valid_spectra (map fst l)) v ->
  Forall2 (fun a b : specx => if s_valid (fst a) then R (fst a) (fst b) else b = a) l (merge l v) /\ valid_spectra (map fst (merge l v)) = v.
Proof.
  induction l as [|[s c] l IH]; intros v F; cbn in F.
  - inversion F. split; [constructor|reflexivity].
  - cbn [merge]. destruct (s_valid s) eqn:V.
    + inversion F as [|a b ? v' H F']; subst. destruct (IH v' F') as [G1 G2]. split.
      * constructor; [cbn [fst]; rewrite V; exact H|exact G1].
      * unfold valid_spectra in *. cbn [map filter fst]. rewrite (Hv _ _ H). f_equal. exact G2.
    + destruct (IH v F) as [G1 G2]. split.
      * constructor; [cbn [fst]; rewrite V; reflexivity|exact G1].
      * unfold valid_spectra in *. cbn [map filter fst]. rewrite V. exact G2.
Qed.
