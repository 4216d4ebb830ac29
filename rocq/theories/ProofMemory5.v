(** C77: the run and the chi2 catalog, with two contents of np.empty. *)
From Coq Require Import ZArith String List Bool Arith Lia Qcanon.
From Verif Require Import Num NpList NpListFacts Exn Dict Mpi ModelMpiUtils ModelCatalog ModelSpectrum ModelDelta ModelIO ModelStack ModelVarFit ModelContinuum ModelFitter ModelChi2 ModelChi2Run ModelFitArgs ModelPipeline
  SpecMemory ProofSpectrum1 ProofMpi ProofMpi2 ProofFinal ProofMemory ProofMemory2 ProofMemory3 ProofMemory4.
Import ListNotations.
Local Open Scope nat_scope.

Section Run.
Variable ang2pix : Z -> num -> num -> Z.
Variable dla_flux : Qc -> Qc -> Qc -> num.
Variable row_of : catrow -> ModelCatalog.row.
Variable logic : runargs -> bool.
Variable argsort : list Z -> list nat.
Variable hpix_of : spec -> Z.
Variable g : runargs -> config.
Variable ev : interp -> Qc -> num.
Variable ev_stack : stacker -> Qc -> num.
Variable slope : Qc -> num.
Variable minimizer : interp -> interp -> interp -> interp -> spec -> num -> option minres.
Variable input_cont : spec -> option (Qc -> num).
Variable true_cont : spec -> Qc -> num.
Variable nsqrt : num -> num.
Variable uspline : list Qc -> list num -> list num -> option (list num).
Variable xs : list Qc.
Variable quad : list Qc -> Qc.
Variables (min_num_pix min_num_qso : nat) (cholesky : list (list Qc) -> bool)
  (curve_fit : list Qc -> list Qc -> list num -> errors -> option (list num * list num))
  (vspline : list Qc -> list num -> list num -> option (list num)).
Variable write_ok : string -> bool.
Variable iter_suffix : nat -> string.
Variable smooth : arr -> Qc -> arr.
Variables j j' : nat -> num.
Variable dwave : Qc.
Variable w : world.

(** ** Reading *)
Definition unfit_readers : Prop := forall again rank e cat l s, w_reader w again rank e cat = Some l -> In s l -> s_cont s = [].
Lemma queue_same again a ex co rank q : unfit_readers ->
  read_queue nsqrt smooth j dwave w again a ex co rank q = read_queue nsqrt smooth j' dwave w again a ex co rank q.
Proof.
  intro U. unfold read_queue.
  match goal with |- rbind ?x _ = _ => destruct x as [ll|] eqn:E end; [|reflexivity]. cbn [rbind].
  destruct (is_before co); [|reflexivity]. f_equal. apply map_ext_in. intros s Hs. apply coadd_nocont.
  apply in_concat in Hs as (m & Hm & Hs). destruct (rseq_In _ _ _ _ E Hm) as (cat & _ & Ec).
  destruct (w_reader w again rank (is_before ex) cat) as [l|] eqn:R; [|discriminate]. cbn [the_file of_option rbind] in Ec.
  destruct (rseq (map (cut_forest nsqrt a) l)) as [l1|] eqn:El; [|discriminate]. injection Ec as <-. apply filter_In in Hs as [Hs _].
  destruct (rseq_In _ _ _ _ El Hs) as (s0 & I0 & E0). specialize (U _ _ _ _ _ _ R I0).
  unfold cut_forest in E0. destruct (set_forest_region nsqrt (r_w1 a) (r_w2 a) (r_fw1 a) (r_fw2 a) s0) as [s1|] eqn:E1; [|discriminate]. injection E0 as <-.
  cbn [s_cont remove_nonforest_pixels]. assert (s_cont s1 = s_cont s0) as ->; [|now rewrite U].
  clear - E1. unfold set_forest_region in E1. destruct (forest_limits _ _ _ _ _) as [l1 l2].
  match type of E1 with rbind ?x _ = _ => destruct x as [f|] end; [|discriminate]. cbn [rbind] in E1.
  unfold set_forest_related in E1.
  match type of E1 with rbind ?x _ = _ => destruct x as [[[m1 m2] m3]|] end; [|discriminate]. cbn [rbind] in E1. injection E1 as <-. reflexivity.
Qed.
Lemma select_same again a ex co rank ms q : unfit_readers ->
  select_spectra dla_flux ev nsqrt smooth j dwave w again a ex co rank ms q = select_spectra dla_flux ev nsqrt smooth j' dwave w again a ex co rank ms q.
Proof. intro U. unfold select_spectra, read_spectra. now rewrite (queue_same again a ex co rank q U). Qed.
Lemma exposures_same a rank ms l : unfit_readers ->
  exposures_after dla_flux row_of ev nsqrt smooth j dwave w a rank ms l = exposures_after dla_flux row_of ev nsqrt smooth j' dwave w a rank ms l.
Proof. intro U. unfold exposures_after. now rewrite (select_same _ _ _ _ _ _ _ U). Qed.

(** ** Fitting *)
(** the relation of the spectra of the two runs *)
Definition rel (after : bool) (s s' : spec) : Prop := if after then alikes s s' else s = s'.
Lemma rel_refl b s : rel b s s.
Proof. destruct b; [now left|reflexivity]. Qed.
Lemma coadds_same t l : keeps_masked smooth -> finite j -> finite j' ->
  same_res (Forall2 alikes) (coadd_after ev nsqrt smooth j dwave t l) (coadd_after ev nsqrt smooth j' dwave t l).
Proof.
  intros KM J J'. unfold coadd_after. apply (rseq_same eq alikes).
  2: apply Forall2_diag; reflexivity.
  intros s s1 <-. pose proof (coadd_alikes nsqrt smooth dwave (ev (ModelFitter.deref t (t_var t))) (ev (ModelFitter.deref t (t_eta t))) j j' s KM J J') as A.
  destruct (coadd_arms_forest nsqrt smooth j dwave _ _ s), (coadd_arms_forest nsqrt smooth j' dwave _ _ s); cbn [same_res] in A; try contradiction; cbn [rbind]; [|exact A].
  now apply chi2_alikes.
Qed.
Definition fit_rel (o : fitopts) (x y : fitter * list spec * list bool) : Prop :=
  fst (fst x) = fst (fst y) /\ snd x = snd y /\ Forall2 (rel (o_coadd_after o)) (snd (fst x)) (snd (fst y)).
Lemma fitting_same gg rank o l : (o_coadd_after o = true -> keeps_masked smooth /\ finite j /\ finite j') ->
  prel (fit_rel o)
    (continuum_fitting gg ev ev_stack slope minimizer input_cont true_cont nsqrt uspline xs quad min_num_pix min_num_qso cholesky curve_fit vspline write_ok iter_suffix smooth j dwave rank o l)
    (continuum_fitting gg ev ev_stack slope minimizer input_cont true_cont nsqrt uspline xs quad min_num_pix min_num_qso cholesky curve_fit vspline write_ok iter_suffix smooth j' dwave rank o l).
Proof.
  intro H. unfold continuum_fitting. apply prel_bind2. intro mt. apply prel_bind2. intros [[t l1] log]. apply prel_bind2. intro v1.
  apply (prel_bind (Forall2 (rel (o_coadd_after o)))).
  - destruct (o_coadd_after o).
    + apply prel_res. destruct (H eq_refl) as (KM & J & J'). now apply coadds_same.
    + constructor. apply Forall2_diag. reflexivity.
  - intros v2 v2' F. apply prel_bind2. intro u. constructor. unfold fit_rel. cbn. auto.
Qed.

(** ** The chi2 catalog *)
Lemma row_alikes rank k s s' c d : alikes s s' -> chi2_row rank k (mkEntry s c d) = chi2_row rank k (mkEntry s' c d).
Proof.
  intro A. apply alikes_same in A. change (chi2_row rank k (mkEntry s c d)) with (chi2_row rank k (mkEntry (set_cont [] s) c d)).
  rewrite A. reflexivity.
Qed.
Lemma merge_alikes l : forall v v', Forall2 alikes v v' ->
  Forall2 (fun x y : specx => alikes (fst x) (fst y) /\ snd x = snd y) (merge l v) (merge l v').
Proof.
  induction l as [|[s c] l IH]; intros v v' F; cbn [merge]; [constructor|]. destruct (s_valid s).
  - destruct F as [|x y v v' Hxy F]; (constructor; [cbn; split; [try assumption; now left|reflexivity]|]); apply IH; [constructor|assumption].
  - constructor; [cbn; split; [now left|reflexivity]|]. now apply IH.
Qed.
Lemma rows_alikes gg rank k l0 : forall l v v', Forall2 alikes v v' ->
  map (chi2_row rank k) (entries gg l0 l v) = map (chi2_row rank k) (entries gg l0 l v').
Proof.
  intros l v v' F. apply merge_alikes with (l := l) in F. unfold entries. revert l0. induction F as [|x y m m' [H1 H2] F IH]; intros [|z l0]; cbn; try reflexivity.
  rewrite IH, H2. f_equal. now apply row_alikes.
Qed.
Definition catalog_rel (x y : fitter * list spec * list bool * option (list chi2row)) : Prop :=
  fst (fst (fst x)) = fst (fst (fst y)) /\ Forall2 alikes (snd (fst (fst x))) (snd (fst (fst y))) /\ snd (fst x) = snd (fst y) /\ snd x = snd y.
Lemma catalog_same gg rank o l : keeps_masked smooth -> finite j -> finite j' ->
  prel catalog_rel
    (continuum_fitting_c gg ev ev_stack slope minimizer input_cont true_cont nsqrt uspline xs quad min_num_pix min_num_qso cholesky curve_fit vspline write_ok iter_suffix smooth j dwave rank o l)
    (continuum_fitting_c gg ev ev_stack slope minimizer input_cont true_cont nsqrt uspline xs quad min_num_pix min_num_qso cholesky curve_fit vspline write_ok iter_suffix smooth j' dwave rank o l).
Proof.
  intros KM J J'. unfold continuum_fitting_c.
  apply (prel_bind (fun x y : fitter * list specx * list spec * list bool =>
    fst (fst x) = fst (fst y) /\ Forall2 alikes (snd (fst x)) (snd (fst y)) /\ snd x = snd y)).
  - apply prel_lift. unfold fit_steps. apply prel_bind2. intro mt. apply prel_bind2. intros [[t l1] log]. apply prel_bind2. intro v1.
    apply (prel_bind (Forall2 alikes)).
    + destruct (o_coadd_after o); [apply prel_res; now apply coadds_same|]. constructor. apply Forall2_diag. now left.
    + intros v2 v2' F. constructor. cbn. auto.
  - intros [[[t l1] v] log] [[[t' l1'] v'] log'] (E & F & El). cbn [fst snd] in E, F, El. injection E as <- <-. subst log'.
    unfold save_contchi2_catalog. rewrite (rows_alikes gg rank (S (eff_order gg)) l l1 v v' F). apply prel_bind2. intro rows. constructor.
    unfold catalog_rel. cbn. auto.
Qed.

(** ** The run *)
Lemma run_same n (R : spec -> spec -> Prop) : unfit_readers ->
  (forall a, w_parse w = Parsed a -> is_after (r_coadd a) = true ->
     r_exposures a <> After /\ keeps_masked smooth /\ finite j /\ finite j' /\
     (forall s s', alikes s s' -> R s s' /\ hpix_of s = hpix_of s')) ->
  (forall s, R s s) ->
  same_outcome (Forall2 (fun f f' : Z * list spec => fst f = fst f' /\ Forall2 R (snd f) (snd f')))
    (spmd n (fun r => run_all ang2pix dla_flux row_of logic argsort hpix_of g ev ev_stack slope minimizer input_cont true_cont nsqrt uspline xs quad
                        min_num_pix min_num_qso cholesky curve_fit vspline write_ok iter_suffix smooth j dwave w r n))
    (spmd n (fun r => run_all ang2pix dla_flux row_of logic argsort hpix_of g ev ev_stack slope minimizer input_cont true_cont nsqrt uspline xs quad
                        min_num_pix min_num_qso cholesky curve_fit vspline write_ok iter_suffix smooth j' dwave w r n)).
Proof.
  intros U H Rr. unfold run_all.
  apply (parse_prel PArgs pargs_of n (parse_result w) (fun a => Ok (logic a))); [reflexivity|].
  intros a r Ea. assert (w_parse w = Parsed a) as Ep by (unfold parse_result in Ea; destruct (w_parse w); congruence).
  specialize (H a Ep).
  apply prel_bind2. intros _. destruct (ModelFitArgs.z_limits _ _ _ _ _) as [zmin zmax]. apply prel_bind2. intro queue. apply prel_bind2. intro st.
  apply prel_bind2. intro ms. rewrite (select_same _ _ _ _ _ _ _ U). apply prel_bind2. intro l. cbv zeta.
  apply (prel_bind (fit_rel (fit_options w a))).
  - apply prel_lift. apply fitting_same. cbn [o_coadd_after fit_options]. intro A. destruct (H A) as (_ & KM & J & J' & _). auto.
  - intros [[t l2] log] [[t' l2'] log'] (Et & El & F). cbn [fst snd] in Et, El, F. cbn [o_coadd_after fit_options] in F. subst t' log'.
    apply (prel_bind (Forall2 (rel (is_after (r_coadd a))))).
    + destruct (is_after (r_coadd a)) eqn:A.
      * destruct (H eq_refl) as (X & _). assert (is_after (r_exposures a) = false) as -> by (destruct (r_exposures a); try reflexivity; congruence). now constructor.
      * assert (l2' = l2) as -> by (symmetry; apply Forall2_eq; exact F).
        destruct (is_after (r_exposures a)).
        -- rewrite (exposures_same _ _ _ _ U). apply prel_refl. intro x. apply Forall2_diag. reflexivity.
        -- constructor. apply Forall2_diag. reflexivity.
    + intros l3 l3' F3.
      set (Q := fun s s' => R s s' /\ hpix_of s = hpix_of s' /\ s_valid s = s_valid s').
      apply (prel_bind (Forall2 (fun f f' : Z * list spec => fst f = fst f' /\ Forall2 Q (snd f) (snd f')))).
      * apply prel_res. apply save_same; [unfold Q; tauto|].
        refine (Forall2_maps _ _ _ _ _ _ _ F3). intros s s' Hs. unfold Q, rel in *. destruct (is_after (r_coadd a)).
        -- apply (drop_alikes dwave (r_fw1 a) (r_fw2 a) (r_skip a)) in Hs. destruct (H eq_refl) as (_ & _ & _ & _ & HR).
           destruct (HR _ _ Hs) as [HR1 HR2]. split; [exact HR1|]. split; [exact HR2|]. now apply alikes_fields in Hs.
        -- subst s'. auto.
      * intros fs fs' Ff. apply prel_res. destruct (r_outdir a && _); [reflexivity|]. cbn [same_res]. clear - Ff.
        induction Ff as [|u v fs fs' [E F] Ff IH]; constructor; [|exact IH]. split; [exact E|]. clear - F. induction F as [|x y l1 l1' [HQ _] F IH]; constructor; [exact HQ|exact IH].
Qed.
End Run.

(** equal outcomes *)
Lemma same_outcome_eq {A} (R : A -> A -> Prop) x y : (forall a b, R a b -> a = b) -> same_outcome R x y -> x = y.
Proof.
  intros H S. destruct x as [l| |], y as [l'| |]; cbn in S; try contradiction; try reflexivity. f_equal.
  induction S as [|u v l l' E F IH]; [reflexivity|]. f_equal; [|exact IH]. destruct u, v; cbn in E; try contradiction; f_equal; auto.
Qed.

Lemma not_after_thm ang2pix dla_flux row_of logic argsort hpix_of g ev ev_stack slope minimizer input_cont true_cont
    nsqrt uspline xs quad min_num_pix min_num_qso cholesky curve_fit vspline write_ok iter_suffix smooth junk junk' dwave w n :
  (forall again rank e cat l s, w_reader w again rank e cat = Some l -> In s l -> s_cont s = []) ->
  (forall a, w_parse w = Parsed a -> r_coadd a <> After) ->
  spmd n (fun r => run_all ang2pix dla_flux row_of logic argsort hpix_of g ev ev_stack slope minimizer input_cont true_cont
    nsqrt uspline xs quad min_num_pix min_num_qso cholesky curve_fit vspline write_ok iter_suffix smooth junk dwave w r n) =
  spmd n (fun r => run_all ang2pix dla_flux row_of logic argsort hpix_of g ev ev_stack slope minimizer input_cont true_cont
    nsqrt uspline xs quad min_num_pix min_num_qso cholesky curve_fit vspline write_ok iter_suffix smooth junk' dwave w r n).
Proof.
  intros U H. eapply same_outcome_eq; [|apply (run_same _ _ _ _ _ _ _ _ _ _ _ _ _ _ _ _ _ _ _ _ _ _ _ _ _ _ _ _ _ n eq U); [|reflexivity]].
  - cbn. intros x y F. induction F as [|[k l] [k' l'] x y [E F2] F IH]; [reflexivity|]. cbn in E, F2. apply Forall2_eq in F2. congruence.
  - intros a Ea A. specialize (H a Ea). destruct (r_coadd a); try discriminate. now destruct H.
Qed.
Lemma deltas_thm ang2pix dla_flux row_of logic argsort hpix_of g ev ev_stack slope minimizer input_cont true_cont
    nsqrt uspline xs quad min_num_pix min_num_qso cholesky curve_fit vspline write_ok iter_suffix smooth junk junk' dwave w n
    mean_resolution ra_dec st :
  (forall again rank e cat l s, w_reader w again rank e cat = Some l -> In s l -> s_cont s = []) ->
  (forall a, w_parse w = Parsed a -> r_coadd a = After -> r_exposures a <> After) ->
  keeps_masked smooth -> finite junk -> finite junk' ->
  (forall s c, hpix_of (set_cont c s) = hpix_of s) ->
  (forall s c arm, mean_resolution (set_cont c s) arm = mean_resolution s arm) ->
  same_outcome (same_files (spec_write mean_resolution ra_dec st))
    (spmd n (fun r => run_all ang2pix dla_flux row_of logic argsort hpix_of g ev ev_stack slope minimizer input_cont true_cont
      nsqrt uspline xs quad min_num_pix min_num_qso cholesky curve_fit vspline write_ok iter_suffix smooth junk dwave w r n))
    (spmd n (fun r => run_all ang2pix dla_flux row_of logic argsort hpix_of g ev ev_stack slope minimizer input_cont true_cont
      nsqrt uspline xs quad min_num_pix min_num_qso cholesky curve_fit vspline write_ok iter_suffix smooth junk' dwave w r n)).
Proof.
  intros U H KM J J' Hh Hm. unfold same_files. apply run_same; [exact U| |].
  - intros a Ea A. split; [apply (H a Ea); now destruct (r_coadd a)|]. split; [exact KM|]. split; [exact J|]. split; [exact J'|].
    intros s s' Hs. split; [now apply quasar_alikes|]. destruct Hs as [<-|(? & ? & ? & ? & ? & c' & _ & _ & _ & _ & _ & -> & _)]; [reflexivity|]. now rewrite Hh.
  - intro s. apply quasar_alikes; [exact Hm|now left].
Qed.
Lemma catalog_thm g ev ev_stack slope minimizer input_cont true_cont nsqrt uspline xs quad
    min_num_pix min_num_qso cholesky curve_fit vspline write_ok iter_suffix smooth junk junk' dwave n o (l : nat -> list specx) :
  keeps_masked smooth -> finite junk -> finite junk' ->
  same_outcome (fun x y => snd x = snd y)
    (spmd n (fun r => continuum_fitting_c g ev ev_stack slope minimizer input_cont true_cont nsqrt uspline xs quad
      min_num_pix min_num_qso cholesky curve_fit vspline write_ok iter_suffix smooth junk dwave r o (l r)))
    (spmd n (fun r => continuum_fitting_c g ev ev_stack slope minimizer input_cont true_cont nsqrt uspline xs quad
      min_num_pix min_num_qso cholesky curve_fit vspline write_ok iter_suffix smooth junk' dwave r o (l r))).
Proof.
  intros KM J J'. apply spmd_prel. intros r _. eapply prel_weaken; [|apply (catalog_same _ _ _ _ _ _ _ _ _ _ _ _ _ _ _ _ _ _ _ _ _ _ _ _ _ KM J J')].
  intros x y H. apply H.
Qed.

(** the chi2 of the quasars of a run with one rank *)
Definition chi2s (o : outcome (@saved spec)) : option (list num) :=
  match o with Done [Finished l] => Some (map s_chi2 (concat (map snd l))) | _ => None end.
Lemma chi2s_same wr x y : same_outcome (same_files wr) x y -> chi2s x = chi2s y.
Proof.
  destruct x as [l| |], y as [l'| |]; cbn; try contradiction; try reflexivity. intro F.
  destruct F as [|u v l l' E F]; [reflexivity|]. destruct F as [|u' v' l l' E' F].
  - destruct u as [a|], v as [b|]; cbn in E; try contradiction; [|reflexivity]. f_equal.
    induction E as [|p q a b [_ Hq] E IH]; [reflexivity|]. cbn. rewrite !map_app, IH. f_equal.
    clear - Hq. induction Hq as [|s s' m m' (_ & Hc & _) Hq IH]; cbn; congruence.
  - destruct u, v; reflexivity.
Qed.

(** the column DELTA of the HDUs of a run with one rank *)
Definition delta_of (wr : spec -> res (list hdu)) (s : spec) : list (option (string * ModelDelta.column)) :=
  match wr s with Ok hs => map (fun h => nth_error (h_cols h) 1) hs | Err _ => [] end.
Definition deltas_of (wr : spec -> res (list hdu)) (o : outcome (@saved spec)) : option (list (list (option (string * ModelDelta.column)))) :=
  match o with Done [Finished l] => Some (map (delta_of wr) (concat (map snd l))) | _ => None end.
Lemma hdu_delta h h' : same_hdu h h' -> nth_error (h_cols h) 1 = nth_error (h_cols h') 1.
Proof.
  intros (_ & _ & _ & _ & _ & _ & names & wave & delta & ivar & weight & cont & cont' & rest & -> & -> & _).
  destruct names as [|a [|b names]]; reflexivity.
Qed.
Lemma delta_of_same wr s s' : same_quasar wr s s' -> delta_of wr s = delta_of wr s'.
Proof.
  intros (_ & _ & _ & _ & H). unfold delta_of. destruct (wr s) as [hs|], (wr s') as [hs'|]; cbn in H; try contradiction; [|reflexivity].
  induction H as [|h h' hs hs' E H IH]; [reflexivity|]. cbn [map]. now rewrite (hdu_delta _ _ E), IH.
Qed.
Lemma deltas_of_same wr x y : same_outcome (same_files wr) x y -> deltas_of wr x = deltas_of wr y.
Proof.
  destruct x as [l| |], y as [l'| |]; cbn; try contradiction; try reflexivity. intro F.
  destruct F as [|u v l l' E F]; [reflexivity|]. destruct F as [|u' v' l l' E' F].
  - destruct u as [a|], v as [b|]; cbn in E; try contradiction; [|reflexivity]. f_equal.
    induction E as [|p q a b [_ Hq] E IH]; [reflexivity|]. cbn. rewrite !map_app, IH. f_equal.
    clear - Hq. induction Hq as [|s s' m m' Hc Hq IH]; cbn; [reflexivity|]. now rewrite (delta_of_same _ _ _ Hc), IH.
  - destruct u, v; reflexivity.
Qed.
