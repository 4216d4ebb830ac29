(** The continuum from attributes.fits and the chi2 catalog (C76). *)
From Coq Require Import ZArith String List Bool Arith Lia Qcanon Field.
From Verif Require Import Num NpList Exn Dict Mpi ModelSpectrum ModelMasks ModelContinuum ModelStack ModelSubsample ModelVarFit ModelFitter ModelAttributes ModelChi2 ModelChi2Run
  SpecSpectrum SpecContinuum SpecFinal SpecAttributes SpecMpi SpecStack SpecVarFit SpecChi2Run SpecContTables ProofStack ProofVarFit4 ProofMpi ProofMpi2 ProofLock ProofSafe ProofContinuum ProofAttributes ProofWeightTables ProofRanks ProofRanks4
  ProofWeightTables2 ProofChi2 ProofChi2Run2 ProofChi2Run3 ProofFitter ProofFinal.
Import ListNotations.
Local Open Scope nat_scope.

(** ** one fit *)
(** the continuum in every pixel, before or after it is scaled by h *)
Definition raw (c slope mf : Qc -> num) (h : num -> Qc -> num) (s : spec) : Prop :=
  forall arm i w, at_pix (fw (s_f s)) arm i = Some w ->
    at_pix (s_cont s) arm i = Some (h (nmul (cont_model c slope (s_x s) (w / (1 + s_z s))%Qc) (mf w)) w).
Lemma raw_from c slope mf k row s : r_x row = s_x s -> r_z row = s_z s -> raw c slope mf (fun x w => nmul x (k w)) s ->
  continuum_from c slope mf k row s.
Proof.
  intros Ex Ez H arm i w a m t f q Hw Ha Hc Ht Hf Hq. rewrite (H arm i w Hw). rewrite Ez in Hc, Ht. rewrite <- Ex, Ha, Hf, Hq.
  unfold cont_model. rewrite Hc, Ht. change (nsub (nmul (Fin (1 + 1)) (Fin t)) n1) with (Fin ((1 + 1) * t - 1)%Qc). rewrite npoly_fin. reflexivity.
Qed.
Lemma map2_nth {A B C} (f : A -> B -> C) : forall l l' i a b, nth_error l i = Some a -> nth_error l' i = Some b -> nth_error (map2 f l l') i = Some (f a b).
Proof. induction l as [|x l IH]; intros [|y l'] [|i] a b H1 H2; cbn in *; try discriminate; [congruence|auto]. Qed.
Lemma picca_arms_at mf c slope x z arms : NoDup (dkeys arms) -> forall cont0 cont,
  picca_arms mf c slope x z arms cont0 = (true, cont) ->
  forall arm i, match dget arm arms with
                | Some wave => forall w, nth_error wave i = Some w -> at_pix cont arm i = Some (nmul (cont_model c slope x (w / (1 + z))%Qc) (mf w))
                | None => at_pix cont arm i = at_pix cont0 arm i end.
Proof.
  induction arms as [|[a wv] arms IH]; intros Nd cont0 cont E arm i; cbn [picca_arms] in E.
  - injection E as <-. reflexivity.
  - destruct (existsb _ _); [discriminate|]. inversion Nd as [|? ? N1 N2]; subst.
    pose proof (IH N2 _ _ E arm i) as K. cbn [dget]. destruct (String.eqb_spec arm a) as [->|Ne].
    + destruct (dget a arms) as [w'|] eqn:Ea; [exfalso; apply N1; apply (proj2 (Dict.dget_In _ _)); eauto|].
      intros w Hw. rewrite K. unfold at_pix. rewrite dget_dset_same. apply map2_nth; rewrite nth_error_map, Hw; reflexivity.
    + destruct (dget arm arms); [exact K|]. rewrite K. unfold at_pix. now rewrite dget_dset_other.
Qed.

Section Fit.
Variable g : config.
Variable ev : interp -> Qc -> num.
Variable meanflux : Qc -> num.
Variable slope : Qc -> num.
Variable minimizer : interp -> interp -> interp -> spec -> num -> option minres.
Variable input_cont : spec -> option (Qc -> num).
Variable true_cont : spec -> Qc -> num.
Hypothesis Hlen : forall c v e s a0 m, minimizer c v e s a0 = Some m -> m_valid m = true -> length (m_x m) = S (g_order g).
Lemma fit_raw t sx sx' : g_model g = Picca -> fit_one g ev meanflux slope minimizer input_cont true_cont t sx = Ok sx' -> plain_forest (fst sx) -> s_valid (fst sx') = true ->
  raw (ev (t_cont t)) slope meanflux (fun x _ => x) (fst sx') /\ length (s_x (fst sx')) = S (g_order g).
Proof.
  intros GM E P V. unfold fit_one in E. destruct sx as [s xc]. rewrite GM in E. unfold picca_fit in E. cbn [fst] in P.
  apply rbind_Ok in E as (a0 & _ & E). apply rbind_Ok in E as (m & Em & E). cbv zeta in E.
  apply rbind_Ok in E as (s2 & E2 & E). apply rbind_Ok in E as (s3 & E3 & E).
  destruct (set_forest_weight_kept _ _ _ _ E2) as ((Kf & _) & _ & V2 & _). pose proof (weight_shape _ _ _ _ E2) as (f2 & S2). destruct (chi2_Ok _ _ E3) as (x3 & E3').
  destruct (minimizer _ _ _ s a0) as [m'|] eqn:EM in Em; [|discriminate Em]. cbn in Em. injection Em as ->.
  destruct (s_valid s3) eqn:V3; [|assert (sx' = (set_chi2 (Fin (- (1))) (set_cont [] s3), xc)) as -> by congruence; cbn in V; congruence].
  assert (sx' = (set_x (m_x m) s3, m_xcov m)) as -> by congruence. clear E. cbn [fst].
  destruct (m_valid m) eqn:Vm.
  2:{ exfalso. subst s3. cbn in V3. rewrite V2 in V3. discriminate V3. }
  split; [|cbn; exact (Hlen _ _ _ _ _ _ EM Vm)].
  destruct (picca_arms _ _ _ _ _ _ _) as [ok cont] eqn:EA.
  assert (ok = true) as -> by (subst s3; cbn in V3; rewrite V2 in V3; exact V3).
  assert (fw (s_f s3) = fw (s_f s)) as Ef by (subst s3; exact Kf).
  assert (s_cont s3 = cont /\ s_z s3 = s_z s) as [Ec Ez] by (subst s3 s2; split; reflexivity).
  intros arm i w Hw. change (fw (s_f (set_x (m_x m) s3))) with (fw (s_f s3)) in Hw. change (s_cont (set_x (m_x m) s3)) with (s_cont s3).
  change (s_z (set_x (m_x m) s3)) with (s_z s3). change (s_x (set_x (m_x m) s3)) with (m_x m). rewrite Ef in Hw. rewrite Ec, Ez.
  pose proof (picca_arms_at _ _ _ _ _ _ (proj1 P) _ _ EA arm i) as K. unfold at_pix in Hw. destruct (dget arm (fw (s_f s))) as [wave|]; [|discriminate].
  exact (K w Hw).
Qed.
End Fit.

(** ** what follows the fit *)
(** s' has the forest pixels, the continuum and the coefficients of s *)
Definition same_cont (s s' : spec) : Prop :=
  fw (s_f s') = fw (s_f s) /\ s_cont s' = s_cont s /\ s_x s' = s_x s /\ s_cat s' = s_cat s /\ s_valid s' = s_valid s.
Lemma same_cont_refl s : same_cont s s. Proof. now repeat split. Qed.
Lemma same_cont_trans a b c : same_cont a b -> same_cont b c -> same_cont a c.
Proof. intros (A1 & A2 & A3 & A4 & A5) (B1 & B2 & B3 & B4 & B5). repeat split; congruence. Qed.
Lemma same_raw c slope mf h s s' : same_cont s s' -> raw c slope mf h s -> raw c slope mf h s'.
Proof. intros (A1 & A2 & A3 & A4 & _) H arm i w Hw. rewrite A1 in Hw. rewrite A2, A3. unfold s_z. rewrite A4. exact (H arm i w Hw). Qed.
Lemma eta_same e s s' : plain_forest s -> noise_eta e s = Ok s' -> same_cont s s'.
Proof.
  intros (N & L & _) H. destruct (noise_eta_Ok _ _ _ H N L) as ((K & _) & V & C & _). apply rmap_Ok in H as (f & _ & ->). now repeat split.
Qed.
Lemma add_noise_same ev smooth dwave vl t l l' : add_noise ev smooth dwave vl t l = Ok l' -> Forall2 same_cont l l'.
Proof.
  unfold add_noise. intro E. apply rbind_Ok in E as (l1 & E1 & E2). unfold noise_calibrate in E1. destruct (forallb _ l); [|discriminate].
  apply rseq_Forall2 in E1. apply rseq_Forall2 in E2. refine (Forall2_trans _ _ _ _ _ _ _ E1 E2). intros a b c H1 H2.
  destruct (noise_additive_kept _ _ _ _ H1) as ((K & _) & V & C). assert (s_cat b = s_cat a /\ s_x b = s_x a) as [C1 C2] by (apply rmap_Ok in H1 as (f & _ & ->); now split).
  destruct (set_smooth_same smooth dwave (s_sscale b) b) as [K0 V0]. destruct (set_forest_weight_kept _ _ _ _ H2) as ((K2 & _) & _ & V2 & _).
  pose proof (weight_shape _ _ _ _ H2) as (f & ->).
  assert (s_cont (set_smooth_forestivar smooth dwave (s_sscale b) b) = s_cont b /\ s_x (set_smooth_forestivar smooth dwave (s_sscale b) b) = s_x b /\
    s_cat (set_smooth_forestivar smooth dwave (s_sscale b) b) = s_cat b) as (D1 & D2 & D3) by (unfold set_smooth_forestivar; now destruct (qleb _ _)).
  split; [congruence|]. split; [cbn; congruence|]. split; [cbn; congruence|]. split; [cbn; congruence|congruence].
Qed.
Lemma scale_raw ev_stack k c slope mf s s' : plain_forest s -> scale_cont ev_stack k s = Ok s' -> raw c slope mf (fun x _ => x) s ->
  raw c slope mf (fun x w => nmul x (ev_stack k w)) s' /\ s_x s' = s_x s /\ plain_forest s' /\ s_valid s' = s_valid s.
Proof.
  intros P H R. destruct (scale_cont_Ok _ _ _ _ H (proj1 P)) as (F & V & S & C).
  assert (s_x s' = s_x s /\ s_cat s' = s_cat s) as [X Ct] by (apply rmap_Ok in H as (d & _ & ->); now split).
  split; [|split; [exact X|]; split; [unfold plain_forest; rewrite F, S; exact P|exact V]].
  intros arm i w Hw. rewrite F in Hw. rewrite (C arm i w Hw), (R arm i w Hw). cbn [option_map]. rewrite X. unfold s_z. now rewrite Ct.
Qed.

(** ** the tables *)
Lemma even_centers a b k w0 : rfirst (centers a b k) = Ok w0 ->
  centers a b k = map (fun i => (w0 + zq (Z.of_nat i) * ((b - a) / zq (Z.of_nat k)))%Qc) (seq 0 (length (centers a b k))).
Proof.
  intro H. destruct k as [|n]; [discriminate H|]. rewrite centers_first in H. injection H as <-. rewrite centers_length, centers_map by lia.
  apply map_ext. intro i. unfold bin_center. assert (fq 1 2 = 1 / (1 + 1))%Qc as -> by (apply Qc_is_canon; reflexivity).
  change (Z.pos (Pos.of_succ_nat n)) with (Z.of_nat (S n)).
  field. split; intro K; first [discriminate K|apply (zq_inj _ 0) in K; lia].
Qed.
Section Grid.
Variable g : config.
Variable ev : interp -> Qc -> num.
Variable ev_stack : stacker -> Qc -> num.
Variable meanflux : Qc -> num.
Variable slope : Qc -> num.
Variable minimizer : interp -> interp -> interp -> spec -> num -> option minres.
Variable input_cont : spec -> option (Qc -> num).
Variable true_cont : spec -> Qc -> num.
Variable nsqrt : num -> num.
Variable uspline : list Qc -> list num -> list num -> option (list num).
Variable xs : list Qc.
Variable quad : list Qc -> Qc.
Variables (min_num_pix min_num_qso : nat) (cholesky : list (list Qc) -> bool)
  (curve_fit : list Qc -> list Qc -> list num -> errors -> option (list num * list num))
  (vspline : list Qc -> list num -> list num -> option (list num)).
Variable write_ok : string -> bool.
Lemma mean_cont_grid l t : leaf (fun tb => igrid (t_cont (fst tb)) = igrid (t_cont t)) (update_mean_cont g nsqrt uspline xs quad l t).
Proof.
  unfold update_mean_cont. apply leaf_bind_any. intro k. apply (leaf_bind (fun cb => igrid (fst cb) = igrid (t_cont t))).
  - apply leaf_res. intros cb E. unfold new_meancont in E. cbv zeta in E. do 3 apply rbind_Ok in E as (? & _ & E). destruct x1 as [new mean].
    apply rbind_Ok in E as (? & _ & E). destruct (negb _); [discriminate|]. injection E as <-. reflexivity.
  - intros cb H. exact H.
Qed.
Lemma var_cont l t : leaf (fun t' => t_cont t' = t_cont t) (update_var_lss_eta g nsqrt min_num_pix min_num_qso cholesky curve_fit vspline l t).
Proof.
  unfold update_var_lss_eta. destruct (t_vfit t); [|exact I]. apply leaf_bind_any. intro v1. apply leaf_bind_any. intro p0. apply leaf_bind_any. intros [v' [y ep]].
  cbn. unfold store_fit. destruct (g_fit_eta g); reflexivity.
Qed.
Lemma iterations_grid G rank : forall n it t l log a, igrid (t_cont t) = G -> Forall (fun u : used => igrid (fst (fst u)) = G) (fst a) ->
  leaf (fun r => Forall (fun u : used => igrid (fst (fst u)) = G) (fst (snd r)))
    (iterations_a g ev meanflux slope minimizer input_cont true_cont nsqrt uspline xs quad min_num_pix min_num_qso cholesky curve_fit vspline write_ok rank n it t l log a).
Proof.
  induction n as [|n IH]; intros it t l log a Ht Ha; cbn [iterations_a]; [exact Ha|].
  apply leaf_bind_any. intro file. apply leaf_bind_any. intro l1. cbv zeta. eapply leaf_bind; [apply mean_cont_grid|]. intros tb Htb. cbn beta in Htb.
  apply (leaf_bind (fun t2 => igrid (t_cont t2) = G)).
  { destruct (t_vfit (fst tb)); [|cbn; congruence]. eapply leaf_weaken; [|apply var_cont]. intros t2 ->. congruence. }
  intros t2 H2. assert (Forall (fun u : used => igrid (fst (fst u)) = G) (fst a ++ [(t_cont t, ModelFitter.deref t (t_mvar t), ModelFitter.deref t (t_meta t))])) as U.
  { apply Forall_app. split; [exact Ha|]. constructor; [exact Ht|constructor]. }
  destruct (snd tb); [exact U|]. apply IH; [exact H2|exact U].
Qed.
End Grid.
Lemma init_cont_grid g rank o : leaf (fun mt => exists rf0, rfirst (g_rfwave g) = Ok rf0 /\ igrid (t_cont (snd mt)) = (false, rf0, g_dwrf g)) (fitter_init g rank o).
Proof.
  unfold fitter_init. apply (leaf_bind (fun rf0 => rfirst (g_rfwave g) = Ok rf0)); [apply leaf_res; auto|]. intros rf0 E. cbv zeta.
  apply leaf_bind_any. intro k. apply leaf_bind_any. intro mf. apply leaf_bind_any. intro vi. exists rf0. now split.
Qed.
Lemma init_meanflux n g o : 1 <= n -> together n (fun r => fitter_init g r o) (fun f => exists mf, mean_flux_of o mf /\ forall r, r < n -> fst (f r) = mf).
Proof.
  intro Hn. unfold fitter_init.
  assert (forall {V A B} (x : res A) (p : nat -> A -> prog V B) Q, (forall a, together n (fun r => p r a) Q) -> together n (fun r => pbind (of_res x) (fun a => p r a)) Q) as TB.
  { intros V A B x p Q H. destruct x as [a|e]; [exact (H a)|]. cbn. apply together_raise. exact Hn. }
  apply TB. intro rf0. cbv zeta. apply TB. intro k.
  eapply (together_bind n _ _ (fun f => exists mf, mean_flux_of o mf /\ forall r, r < n -> f r = mf)); [exact Hn| |].
  { unfold mean_flux_of. destruct (o_meanflux o) as [file|]; [now apply read_interp_together|]. apply together_ret. eexists. split; [|reflexivity]. split; reflexivity. }
  intros f3 (mf & Hm & H3).
  eapply (together_bind n _ _ (fun _ => True)); [exact Hn| |].
  { destruct (o_varlss o) as [file|].
    - eapply (together_bind n); [exact Hn|now apply read_interp_together|]. intros f _. now apply together_ret.
    - apply (TB _ _ _ (construct_interp (fq 1 10) (new_vfit g 0)) (fun r i => Ret (Some (new_vfit g r), i))). intro i. now apply together_ret. }
  intros f4 _. apply together_ret. exists mf. split; [exact Hm|]. intros r Hr. cbn. now apply H3.
Qed.
