(** Coadding the forest of a spectrum as it was read (C72). *)
From Coq Require Import Field ZArith String List Bool Arith Lia Permutation Qcanon.
From Verif Require Import Num NpList NpListFacts Exn Dict Mpi ModelSpectrum ModelMasks ModelFitArgs ModelCatalog ModelIO ModelVarFit ModelFitter ModelPipeline
  SpecSpectrum SpecMasks SpecWeights SpecCoadd SpecSelect SpecPixels SpecPipeline SpecSource
  ProofCat ProofSpectrum1 ProofSpectrum2 ProofMasks ProofMasks2 ProofMasks3 ProofCoadd ProofCoadd2 ProofCoadd3 ProofPixels1 ProofPixels2 ProofPixels3 ProofPixels4 ProofPixels6 ProofSource1 ProofSource2.
Import ListNotations.
Local Open Scope nat_scope.

(** ** the forest of an arm is a piece of it *)
Lemma uniform_cons dw x y l : uniform dw (x :: y :: l) <-> y = (x + dw)%Qc /\ uniform dw (y :: l).
Proof.
  split.
  - intro H. split; [exact (H 0 x y eq_refl eq_refl)|]. intros k b c E1 E2. exact (H (S k) b c E1 E2).
  - intros (E & H) [|k] b c E1 E2; [cbn in E1, E2; congruence|]. exact (H k b c E1 E2).
Qed.
Lemma uniform_above dw l : (0 < dw)%Qc -> forall x, uniform dw (x :: l) -> forall y, In y l -> (x < y)%Qc.
Proof.
  intro Hd. induction l as [|z l IH]; intros x H y Hy; [destruct Hy|]. apply uniform_cons in H as (E & H).
  assert (x < z)%Qc by (subst z; qlra). destruct Hy as [<-|Hy]; [assumption|]. apply Qclt_trans with z; [assumption|]. now apply IH.
Qed.
Lemma uniform_filter dw (P : Qc -> bool) (l : list pixel) : (0 < dw)%Qc ->
  (forall x y z, (x < y)%Qc -> (y < z)%Qc -> P x = true -> P z = true -> P y = true) ->
  uniform dw (map p_wave l) -> uniform dw (map p_wave (filter (fun p => P (p_wave p)) l)).
Proof.
  intros Hd Hc. induction l as [|p l IH]; intro H; [exact H|]. assert (uniform dw (map p_wave l)) as H'.
  { destruct l as [|q l]; [intros k x y E; destruct k; discriminate E|]. cbn [map] in H. now apply uniform_cons in H. }
  cbn [filter]. destruct (P (p_wave p)) eqn:Ep; [|now apply IH]. destruct l as [|q l]; [exact H|]. cbn [map] in H. apply uniform_cons in H as (E & H).
  specialize (IH H'). cbn [filter] in IH |- *. destruct (P (p_wave q)) eqn:Eq.
  - cbn [map]. apply uniform_cons. now split.
  - assert (filter (fun p => P (p_wave p)) l = []) as ->.
    { assert (forall x, In x l -> P (p_wave x) = false) as K.
      { intros x Hx. destruct (P (p_wave x)) eqn:Ex; [|reflexivity]. rewrite <- Eq. symmetry. apply (Hc (p_wave p) (p_wave q) (p_wave x)); auto; [rewrite E; qlra|].
        apply (uniform_above dw (map p_wave l) Hd); [exact H|now apply in_map]. }
      clear - K. induction l as [|x l IH]; [reflexivity|]. cbn. rewrite (K x) by now left. apply IH. intros; apply K; now right. }
    intros k x y E1 E2. destruct k; discriminate E2.
Qed.
Lemma forest_convex z w1 w2 a b x y t : (x < y)%Qc -> (y < t)%Qc -> in_forestb z w1 w2 a b x = true -> in_forestb z w1 w2 a b t = true -> in_forestb z w1 w2 a b y = true.
Proof.
  unfold in_forestb. intros L1 L2. rewrite !andb_true_iff, !qleb_true, !qltb_true. intros (((A1 & A2) & A3) & A4) (((B1 & B2) & B3) & B4).
  pose proof (Qclt_le_weak _ _ L1) as W. split; [split; [split|]|]; [now apply Qcle_trans with x|now apply Qcle_trans with x|now apply Qclt_trans with t|now apply Qclt_trans with t].
Qed.

(** ** the forest of a spectrum that was read *)
Section Cut.
Variable nsqrt : num -> num.
Variable a : runargs.
Variables s s1 : spec.
Hypothesis Hf : SpecSelect.fresh s.
Hypothesis Ec : cut_forest nsqrt a s = Ok s1.
Lemma cut_arms arm :
  (forest_arm a s arm <> [] /\ dget arm (fw (s_f s1)) = Some (map p_wave (forest_arm a s arm)) /\
   dget arm (ff (s_f s1)) = Some (map p_flux (forest_arm a s arm)) /\ dget arm (fivar (s_f s1)) = Some (map p_ivar (forest_arm a s arm))) \/
  (forest_arm a s arm = [] /\ dget arm (fw (s_f s1)) = None /\ dget arm (ff (s_f s1)) = None /\ dget arm (fivar (s_f s1)) = None).
Proof.
  destruct Hf as (He & N & D & Asc). unfold cut_forest in Ec. destruct (set_forest_region nsqrt _ _ _ _ s) as [t|] eqn:Et; [|discriminate]. cbn in Ec. injection Ec as <-.
  cbn [remove_nonforest_pixels s_f]. destruct (set_forest_region_spec nsqrt _ _ _ _ s t He N D Et arm) as (H & _). unfold forest_arm, forest_pixels.
  destruct (dget arm (s_wave s)) as [w0|] eqn:Ew; [|right; now split].
  destruct (dget arm (s_flux s)) as [fl|]; [|right; now split].
  destruct (dget arm (s_ivar s)) as [iv|]; [|right; now split].
  specialize (H (Asc _ _ Ew)). destruct H as (H1 & H2).
  match type of H1 with (exists p, In p ?l /\ _) -> _ => set (px := l) in * end.
  destruct (existsb (fun p => nltb n0 (p_ivar p)) px) eqn:Ex.
  - left. apply existsb_exists in Ex as (p & Hp & G). split; [intro Q; rewrite Q in Hp; destruct Hp|]. apply H1. exists p. now split.
  - right. split; [reflexivity|]. apply H2. intros p Hp G. assert (existsb (fun p => nltb n0 (p_ivar p)) px = true) as Q; [|congruence]. apply existsb_exists. exists p. now split.
Qed.
Lemma cut_weights : fweight (s_f s1) = fivar (s_f s1).
Proof.
  destruct Hf as (He & N & D & Asc). unfold cut_forest in Ec. destruct (set_forest_region nsqrt _ _ _ _ s) as [t|] eqn:Et; [|discriminate]. cbn in Ec. injection Ec as <-.
  exact (proj2 (proj2 (set_forest_region_spec nsqrt _ _ _ _ s t He N D Et ""%string))).
Qed.
Definition to_entry (p : pixel) : entry := mkEntry (p_wave p) (nval (p_ivar p)) (nval (p_flux p)) (nval (p_ivar p)).
Lemma zip4_pixels px : zip4 (map p_wave px) (map p_ivar px) (map p_flux px) (map p_ivar px) = map to_entry px.
Proof. induction px as [|p px IH]; [reflexivity|]. cbn. now rewrite IH. Qed.
Lemma cut_entries arm : arm_entries s1 arm = map to_entry (forest_arm a s arm).
Proof.
  unfold arm_entries, dlist. rewrite cut_weights. destruct (cut_arms arm) as [(_ & -> & -> & ->)|(-> & -> & -> & ->)]; [apply zip4_pixels|reflexivity].
Qed.
Lemma flat_map_sub {A B} (g : A -> list B) k1 k2 : NoDup k1 -> NoDup k2 -> (forall x, g x <> [] -> In x k1) -> (forall x, g x <> [] -> In x k2) ->
  Permutation (flat_map g k1) (flat_map g k2).
Proof.
  intros N1 N2 H1 H2. set (b := fun x => match g x with [] => false | _ => true end).
  assert (forall l, flat_map g l = flat_map g (filter b l)) as E.
  { induction l as [|x l IH]; [reflexivity|]. cbn. unfold b at 1. destruct (g x) as [|y gl] eqn:Eg; [exact IH|]. cbn. rewrite Eg. cbn. now rewrite IH. }
  rewrite (E k1), (E k2). apply Permutation_flat_map. apply NoDup_Permutation; [now apply NoDup_filter|now apply NoDup_filter|].
  assert (forall x, b x = true -> g x <> []) as Hb by (intros x; unfold b; destruct (g x); discriminate).
  intro x. rewrite !filter_In. split; intros (_ & Q); split; auto.
Qed.
Lemma map_flat_map {A B C} (f : B -> C) (g : A -> list B) l : map f (flat_map g l) = flat_map (fun x => map f (g x)) l.
Proof. induction l as [|x l IH]; [reflexivity|]. cbn. now rewrite map_app, IH. Qed.
Lemma flat_map_keys {A B} (g : string -> list B) (d : dict A) : flat_map (fun kv => g (fst kv)) d = flat_map g (dkeys d).
Proof. induction d as [|x l IH]; [reflexivity|]. cbn. now rewrite IH. Qed.
Lemma cut_proper : proper s1.
Proof.
  destruct Hf as (He & N & D & Asc). unfold cut_forest in Ec. destruct (set_forest_region nsqrt _ _ _ _ s) as [t|] eqn:Et; [|discriminate]. cbn in Ec. injection Ec as <-.
  exact (fresh_forest_proper nsqrt _ _ _ _ s t He N D Asc Et).
Qed.
Lemma cut_all : Permutation (all_entries s1) (map to_entry (forest_all a s)).
Proof.
  unfold all_entries, forest_all. rewrite (flat_map_keys (arm_entries s1)), (flat_map_keys (forest_arm a s)), map_flat_map.
  rewrite (flat_map_ext (arm_entries s1) (fun x => map to_entry (forest_arm a s x)) cut_entries).
  pose proof cut_proper as (_ & Nd & _). destruct Hf as (_ & N & _). apply flat_map_sub; [exact Nd|exact N| |].
  - intros arm H. destruct (cut_arms arm) as [(_ & E & _)|(E & _)]; [|now rewrite E in H]. apply dget_In in E. apply (in_map fst) in E. exact E.
  - intros arm H. unfold forest_arm, forest_pixels in H. destruct (dget arm (s_wave s)) as [wv|] eqn:E; [|now contradiction H]. apply dget_In in E. apply (in_map fst) in E. exact E.
Qed.
End Cut.

(** ** coadding it *)
Definition strip (s : spec) : spec := set_cont [] (set_f (set_fr [] (s_f s)) s).
Lemma coadd_strip nsqrt smooth junk dw vl e s s' : s_valid s = false -> coadd_arms_forest nsqrt smooth junk dw vl e s = Ok s' ->
  fw (s_f s) <> [] /\
  exists u', coadd_arms_forest nsqrt smooth junk dw vl e (strip s) = Ok u' /\ fw (s_f u') = fw (s_f s') /\ ff (s_f u') = ff (s_f s') /\ fivar (s_f u') = fivar (s_f s').
Proof.
  intros V E. split; [intro Q; unfold coadd_arms_forest in E; rewrite Q in E; discriminate E|].
  unfold coadd_arms_forest in *. cbv zeta in *. change (s_sscale (strip s)) with (s_sscale s). change (s_cont (strip s)) with (@nil (string * list num)). change (fr (s_f (strip s))) with (@nil (string * mat)).
  change (fw (s_f (strip s))) with (fw (s_f s)). change (fweight (s_f (strip s))) with (fweight (s_f s)). change (fivar (s_f (strip s))) with (fivar (s_f s)). change (ff (s_f (strip s))) with (ff (s_f s)). cbn [dtrue].
  destruct (rseq (map rfirst _)) as [firsts|] in E |- *; [|discriminate]. cbn [rbind] in *.
  destruct (rseq (map rlast _)) as [lasts|] in E |- *; [|discriminate]. cbn [rbind] in *.
  destruct (rmin firsts) as [mn|]; [|discriminate]. cbn [rbind] in *.
  destruct (rmax lasts) as [mx|]; [|discriminate]. cbn [rbind] in *.
  match type of E with rbind ?x _ = _ => destruct x as [acc|]; [|discriminate E] end. cbn [rbind] in *.
  destruct (coadd_finish acc) as [cf ci].
  match type of E with rbind ?x _ = _ => destruct x as [cont1|]; [|discriminate E] end. cbn [rbind] in E.
  match type of E with rbind ?x _ = _ => destruct x as [reso1|]; [|discriminate E] end. cbn [rbind] in E.
  unfold set_forest_weight in *.
  assert (forall sc t, s_valid (set_smooth_forestivar smooth dw sc t) = s_valid t) as Hv by (intros sc t; unfold set_smooth_forestivar; destruct (qleb sc 0); reflexivity).
  rewrite Hv in E |- *. change (s_valid (set_cont cont1 (set_f _ s))) with (s_valid s) in E. change (s_valid (set_cont [] (set_f _ (strip s)))) with (s_valid s).
  rewrite V in *. cbn [negb orb rbind] in *. destruct (ndot _ cf) as [d|]; [|discriminate]. cbn [rbind] in *. injection E as <-.
  eexists. split; [reflexivity|]. unfold set_smooth_forestivar. destruct (qleb (s_sscale s) 0); repeat split; try reflexivity.
Qed.

Definition coadd_src (dw : Qc) (a : runargs) (s0 : spec) (arm : string) (px : list pixel) : Prop := arm = "brz"%string /\ coadded dw (forest_all a s0) px.
Lemma filter_map_comm {A B} (f : A -> B) (g : B -> bool) l : filter g (map f l) = map f (filter (fun x => g (f x)) l).
Proof. induction l as [|x l IH]; [reflexivity|]. cbn. destruct (g (f x)); cbn; now rewrite IH. Qed.
Lemma Permutation_filter {A} (g : A -> bool) l l' : Permutation l l' -> Permutation (filter g l) (filter g l').
Proof.
  induction 1 as [|x l l' _ IH|x y l|l1 l2 l3 _ IH1 _ IH2]; cbn; [constructor| | |now apply perm_trans with (filter g l2)].
  - destruct (g x); [now constructor|exact IH].
  - destruct (g x), (g y); try apply Permutation_refl. constructor.
Qed.
Lemma in_forest_all (a : runargs) s0 p : In p (forest_all a s0) -> exists arm, In p (forest_arm a s0 arm).
Proof. intro H. apply in_flat_map in H as ((arm & wv) & _ & H). now exists arm. Qed.
Lemma in_forest_arm (a : runargs) s0 arm p : In p (forest_arm a s0 arm) -> exists px, forest_pixels a s0 arm = Some px /\ In p px.
Proof. unfold forest_arm. destruct (forest_pixels a s0 arm) as [px|]; [|intros []]. destruct (existsb _ px); [|intros []]. intro H. now exists px. Qed.
Lemma pixels_In wv : forall fl iv p, In p (pixels wv fl iv) -> In (p_wave p) wv /\ In (p_flux p) fl /\ In (p_ivar p) iv.
Proof.
  induction wv as [|x wv IH]; intros [|y fl] [|z iv] p H; try destruct H. { now subst p; cbn; auto. }
  destruct (IH _ _ _ H) as (A & B & C). cbn. auto.
Qed.
Section Values.
Variable dw : Qc.
Hypothesis Hdw : (0 < dw)%Qc.
Variable a : runargs.
Lemma clean_arm s0 arm : clean dw s0 -> Forall (fun p => nfinite (p_flux p) = true /\ exists q, p_ivar p = Fin q /\ (0 <= q)%Qc) (forest_arm a s0 arm).
Proof.
  intro H. apply Forall_forall. intros p Hp. apply in_forest_arm in Hp as (px & E & Hp). unfold forest_pixels in E. destruct (H arm) as (H1 & H2 & H3).
  destruct (dget arm (s_wave s0)) as [wv|]; [|discriminate]. destruct (dget arm (s_flux s0)) as [fl|]; [|discriminate]. destruct (dget arm (s_ivar s0)) as [iv|]; [|discriminate].
  injection E as <-. apply filter_In in Hp as (Hp & _). destruct (pixels_In _ _ _ _ Hp) as (_ & F & I). specialize (H2 _ eq_refl). specialize (H3 _ eq_refl). rewrite Forall_forall in H2, H3. split; auto.
Qed.
Lemma clean_uniform s0 arm : data_matches_grid s0 -> clean dw s0 -> uniform dw (map p_wave (forest_arm a s0 arm)).
Proof.
  intros D H. unfold forest_arm. assert (uniform dw (map p_wave (@nil pixel))) as N by (intros k x y E; destruct k; discriminate E).
  destruct (forest_pixels a s0 arm) as [px|] eqn:E; [|exact N]. destruct (existsb _ px); [|exact N]. unfold forest_pixels in E.
  destruct (H arm) as (H1 & _). destruct (dget arm (s_wave s0)) as [wv|] eqn:Ew; [|discriminate]. destruct (dget arm (s_flux s0)) as [fl|] eqn:Ef; [|discriminate]. destruct (dget arm (s_ivar s0)) as [iv|] eqn:Ei; [|discriminate].
  injection E as <-. apply uniform_filter; [exact Hdw|intros x y z; apply forest_convex|].
  destruct (pixels_wave wv fl iv) as (-> & _); [| |exact (H1 _ eq_refl)].
  all: destruct (D arm) as (D1 & D2); unfold len_at in D1, D2.
  - rewrite Ew, Ef in D1. now injection D1.
  - rewrite Ew, Ei in D2. now injection D2.
Qed.
Lemma coadd_comes w nsqrt smooth junk vl e r b cat m s0 s1 s' : (forall l q, length (smooth l q) = length l) ->
  w_reader w false r b cat = Some m -> In s0 m -> SpecSelect.fresh s0 -> clean dw s0 -> unfitted s1 -> s_cat s1 = s_cat s0 -> cut_forest nsqrt a s0 = Ok s1 ->
  coadd_arms_forest nsqrt smooth junk dw vl e s1 = Ok s' -> ready s' -> s_cat s' = s_cat s1 ->
  comes w (coadd_src dw a) (fun _ p q => q = p) r s'.
Proof.
  intros Hlen E0 Hin Hf Hcl ((P & _) & V & _) C1 Ec E Rs C2.
  destruct (coadd_strip nsqrt smooth junk dw vl e s1 s' V E) as (Hne & u' & Eu & W1 & W2 & W3).
  assert (forall arm l, (l = map p_wave (forest_arm a s0 arm) -> uniform dw l)) as Hun.
  { intros arm l ->. destruct Hf as (_ & _ & D & _). now apply clean_uniform. }
  assert (all_finite (ff (s_f s1))) as F1.
  { intros arm l El. destruct (cut_arms nsqrt a s0 s1 Hf Ec arm) as [(_ & _ & Q & _)|(_ & _ & Q & _)]; rewrite Q in El; [|discriminate]. injection El as <-.
    apply Forall_map. refine (Forall_impl _ _ (clean_arm s0 arm Hcl)). intros p (A & _). exact A. }
  assert (all_finite (fivar (s_f s1))) as F2.
  { intros arm l El. destruct (cut_arms nsqrt a s0 s1 Hf Ec arm) as [(_ & _ & _ & Q)|(_ & _ & _ & Q)]; rewrite Q in El; [|discriminate]. injection El as <-.
    apply Forall_map. refine (Forall_impl _ _ (clean_arm s0 arm Hcl)). intros p (_ & q & A & _). now rewrite A. }
  pose proof (cut_all nsqrt a s0 s1 Hf Ec) as Pm.
  assert (weights_ok (all_entries s1) /\ ivar_weights (all_entries s1)) as (Wk & Iw).
  { split; intros en Hen; apply (Permutation_in _ Pm) in Hen; apply in_map_iff in Hen as (p & <- & Hp); [|reflexivity]. cbn [to_entry e_weight e_ivar].
    apply in_forest_all in Hp as (arm & Hp). pose proof (clean_arm s0 arm Hcl) as K. rewrite Forall_forall in K. destruct (K p Hp) as (_ & q & -> & Hq). cbn. auto. }
  destruct (coadd_spec nsqrt smooth Hlen junk dw vl e (strip s1)) as (u & mn & mx & Eu' & Smn & Smx & Pu & _ & _ & Wu & Pixu & _).
  { exact P. } { exact F1. } { exact F2. } { unfold strip. cbn. rewrite <- (cut_weights nsqrt a s0 s1 Hf Ec) in F2. exact F2. } { exact Hdw. }
  { split; [exact Hne|]. intros arm l El. destruct (cut_arms nsqrt a s0 s1 Hf Ec arm) as [(N & Q & _)|(_ & Q & _)].
    - change (dget arm (fw (s_f s1)) = Some l) in El. rewrite Q in El. injection El as <-. split; [|now apply (Hun arm)]. intro X. apply N. now apply map_eq_nil in X.
    - change (dget arm (fw (s_f s1)) = Some l) in El. congruence. }
  { exact Wk. } { now left. } { exists true. intros arm mm []. }
  assert (u = u') as -> by congruence. change (all_entries (strip s1)) with (all_entries s1) in *.
  exists b, cat, m, s0. split; [exact E0|]. split; [exact Hin|]. split; [congruence|]. rewrite <- W1, Wu. intros arm wv Hw. cbn in Hw. destruct (String.eqb_spec arm "brz") as [->|]; [|discriminate]. injection Hw as <-.
  set (wv := linspace mn mx (grid_n mn mx dw)) in *. destruct Rs as ((Al & _) & _). destruct (Al "brz"%string) as (L1 & L2 & _).
  rewrite <- W1, <- W2, Wu in L1. rewrite <- W1, <- W3, Wu in L2. unfold len_at in L1, L2. cbn [dget String.eqb Ascii.eqb Bool.eqb option_map] in L1, L2.
  destruct (dget "brz" (ff (s_f u'))) as [fl|] eqn:Efl; [|discriminate]. destruct (dget "brz" (fivar (s_f u'))) as [iv|] eqn:Eiv; [|discriminate].
  cbn [option_map] in L1, L2. injection L1 as L1. injection L2 as L2. destruct (pixels_wave wv fl iv L1 L2) as (M1 & M2 & M3).
  exists (pixels wv fl iv). split; [|split; [now symmetry|]].
  - split; [reflexivity|]. exists mn, mx. rewrite M1.
    assert (forall x, In x (map p_wave (forest_all a s0)) <-> exists en, In en (all_entries s1) /\ e_wave en = x) as Hx.
    { intro x. split.
      - intro H. apply in_map_iff in H as (p & <- & H). exists (to_entry p). split; [|reflexivity]. apply (Permutation_in _ (Permutation_sym Pm)). now apply in_map.
      - intros (en & H & <-). apply (Permutation_in _ Pm) in H. apply in_map_iff in H as (p & <- & H). exact (in_map p_wave _ _ H). }
    split; [split; [apply Hx; exact (proj1 Smn)|intros x H; apply Hx in H as (en & H & <-); exact (proj2 Smn en H)]|].
    split; [split; [apply Hx; exact (proj1 Smx)|intros x H; apply Hx in H as (en & H & <-); exact (proj2 Smx en H)]|].
    split; [reflexivity|]. intros j p Hp here sum.
    assert (j < grid_n mn mx dw) as Hj.
    { apply (f_equal (option_map p_wave)) in Hp. rewrite <- nth_error_map, M1 in Hp. cbn in Hp. assert (j < length wv) as K by (apply nth_error_Some; congruence). unfold wv, linspace in K. now rewrite map_length, seq_length in K. }
    destruct (Pixu j Hj) as (f & i & A1 & A2 & Av). unfold at_pix in A1, A2. rewrite Efl in A1. rewrite Eiv in A2.
    rewrite <- M2, nth_error_map, Hp in A1. rewrite <- M3, nth_error_map, Hp in A2. injection A1 as A1. injection A2 as A2. rewrite A1, A2.
    set (la := landing (strip s1) mn dw j) in *.
    assert (weights_ok la) as Wl by (intros en Hen; apply filter_In in Hen; now apply Wk).
    assert (ivar_weights la) as Il by (intros en Hen; apply filter_In in Hen; now apply Iw).
    destruct (ivar_average la f i Wl Il Av) as (B1 & B2).
    assert (forall g, qsum (map g la) = qsum (map (fun q => g (to_entry q)) here)) as Hs.
    { intro g. rewrite <- (map_map to_entry g). apply qsum_perm, Permutation_map. unfold la, landing, here. change (all_entries (strip s1)) with (all_entries s1).
      eapply perm_trans; [apply Permutation_filter; exact Pm|]. rewrite filter_map_comm. apply Permutation_refl. }
    rewrite Hs in B1. rewrite (Hs e_ivar), (Hs (fun e => (e_ivar e * e_flux e)%Qc)) in B2. cbn [to_entry e_ivar e_flux] in B1, B2. fold sum in B1, B2. split; [now rewrite B1|]. f_equal.
    destruct (qltb 0 sum) eqn:Es; qcase_in Es.
    + rewrite <- B2. field. intro Q. rewrite Q in Es. discriminate Es.
    + assert (qsum (map e_weight la) = 0%Qc) as Z.
      { rewrite Hs. cbn [to_entry e_weight]. fold sum. apply Qcle_antisym; [exact Es|]. change sum with (qsum (map (fun q => e_ivar (to_entry q)) here)). rewrite <- (Hs e_ivar). apply qsum_nonneg. apply Forall_map, Forall_forall. intros en Hen. now apply Wl. }
      now apply Av.
  - intros k p Hp. exists p. split; [|split; reflexivity]. rewrite <- Hp. apply pixel_at_maps.
    + rewrite <- W1, Wu, M1. reflexivity.
    + rewrite <- W2, M2. exact Efl.
    + rewrite <- W3, M3. exact Eiv.
Qed.
End Values.

Section Read.
Variable row_of : catrow -> ModelCatalog.row.
Variable nsqrt : num -> num.
Variable smooth : list num -> Qc -> list num.
Variable junk : nat -> num.
Variable dwave : Qc.
Variable w : world.
Hypothesis Hlen : forall iv sig, length (smooth iv sig) = length iv.
Hypothesis Hdw : (0 < dwave)%Qc.
Hypothesis Hids : forall c, TARGETID (row_of c) = c_targetid c.
Hypothesis Hreq : reads_requested row_of w.
Variable a : runargs.
Hypothesis Hread : forall r b cat m s, w_reader w false r b cat = Some m -> In s m -> SpecSelect.fresh s /\ unread s /\ clean dwave s.
Notation asks ids K r := (fun s => ready s /\ In (c_targetid (s_cat s)) ids /\ comes w (coadd_src dwave a) K r s).
Lemma read_coadded e rank queue :
  okall (Forall (asks (map TARGETID (concat queue)) (fun _ p q => q = p) rank)) (read_queue nsqrt smooth junk dwave w false a e Before rank queue).
Proof.
  unfold read_queue. cbn [is_before].
  set (U := fun s1 => unfitted s1 /\ In (c_targetid (s_cat s1)) (map TARGETID (concat queue)) /\
    exists b cat m s0, w_reader w false rank b cat = Some m /\ In s0 m /\ SpecSelect.fresh s0 /\ clean dwave s0 /\ s_cat s1 = s_cat s0 /\ cut_forest nsqrt a s0 = Ok s1).
  apply okall_bind2 with (Forall (Forall U)).
  - apply (okall_rseq (fun cat => In cat queue) (Forall U)); [|now apply Forall_forall]. intros cat Hcat.
    unfold the_file. destruct (w_reader w false rank (is_before e) cat) as [m|] eqn:E; [|exact I]. cbn [of_option rbind].
    eapply okall_rmap2; [apply (okall_rseq (fun s => In s m) U)|].
    + intros s Hs. destruct (cut_forest nsqrt a s) as [s1|] eqn:Es; [|exact I]. cbn [okall]. destruct (Hread _ _ _ _ _ E Hs) as (F & (Z & V & Sc) & Cl).
      destruct (ready_cut nsqrt a s s1 F Z V Sc Es) as (U1 & C1). split; [exact U1|]. split.
      * rewrite C1, <- Hids. apply in_map. apply in_concat. exists cat. split; [exact Hcat|]. exact (Hreq _ _ _ _ _ _ E Hs).
      * exists (is_before e), cat, m, s. auto 10.
    + now apply Forall_forall.
    + intros l1 H1. apply Forall_forall. intros s Hs. apply filter_In in Hs as [Hs _]. rewrite Forall_forall in H1. now apply H1.
  - intros ll H. apply Forall_concat in H. refine (okall_rseq U _ _ _ _ H). intros s (U1 & U2 & b & cat & m & s0 & A1 & A2 & A3 & A4 & A5 & A6).
    pose proof (unfitted_coadd nsqrt smooth junk dwave (fun _ => n0) (fun _ => n1) s Hlen Hdw U1) as K.
    destruct (coadd_arms_forest nsqrt smooth junk dwave _ _ s) as [s'|] eqn:E; [|exact I]. cbn [okall] in *. destruct K as (K1 & K2).
    split; [exact K1|]. split; [now rewrite K2|]. exact (coadd_comes dwave Hdw a w nsqrt smooth junk _ _ rank b cat m s0 s s' Hlen A1 A2 A3 A4 U1 A5 A6 E K1 K2).
Qed.
End Read.
