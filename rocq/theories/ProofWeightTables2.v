(** The tables in attributes.fits (C74): what the weights are made of. *)
From Coq Require Import ZArith String List Bool Arith Lia Qcanon.
From Verif Require Import Num NpList Exn Dict Mpi ModelSpectrum ModelMasks ModelContinuum ModelStack ModelSubsample ModelVarFit ModelFitter ModelAttributes
  SpecSpectrum SpecFinal SpecAttributes SpecMpi ProofMpi ProofMpi2 ProofLock ProofSafe ProofAttributes ProofWeightTables ProofRanks ProofRanks4 ProofFitter ProofFinal.
Import ListNotations.
Local Open Scope nat_scope.

Lemma safe_rmap_inv {A B} (f : A -> B) (x : res A) : safe (rmap f x) -> safe x.
Proof. destruct x; [easy|exact (fun H => H)]. Qed.
Lemma alike_used T sh t : alike T sh t -> used_of t = used_of T.
Proof. intros [<- _]. reflexivity. Qed.

Section Together.
Variable g : config.
Variable ev : interp -> Qc -> num.
Variable meanflux : nat -> Qc -> num.
Variable slope : Qc -> num.
Variable minimizer : nat -> interp -> interp -> interp -> spec -> num -> option minres.
Variable input_cont : spec -> option (Qc -> num).
Variable true_cont : spec -> Qc -> num.
Variable nsqrt : num -> num.
Variable uspline : list Qc -> list num -> list num -> option (list num).
Variable xs : list Qc.
Variable quad : list Qc -> Qc.
Variables (min_num_pix min_num_qso : nat) (cholesky : list (list Qc) -> bool)
  (curve_fit : list Qc -> list Qc -> list num -> errors -> option (list num * list num))
  (vspline : list Qc -> list num -> list num -> option (list num)).
Variable write_ok : string -> bool.
Variable n : nat.
Hypothesis Hn : 1 <= n.
Variable P : nat -> spec -> Prop.
Hypothesis P_fit : forall r t sx sx', P r (fst sx) ->
  fit_one g ev (meanflux r) slope (minimizer r) input_cont true_cont t sx = Ok sx' -> P r (fst sx').
Notation fitted_by := (fitted_by g ev meanflux slope minimizer input_cont true_cont P).
Lemma iterations_a_together m : forall it (t : nat -> fitter) (l : nat -> list specx) log (a : nat -> attrs) T sh,
  (forall r, r < n -> alike T sh (t r)) -> (forall r, r < n -> Forall (fun sx => P r (fst sx)) (l r)) ->
  together n (fun r => iterations_a g ev (meanflux r) slope (minimizer r) input_cont true_cont nsqrt uspline xs quad
      min_num_pix min_num_qso cholesky curve_fit vspline write_ok r m it (t r) (l r) log (a r))
    (fun f => exists T0, (exists T2, forall r, r < n -> alike T2 sh (fst (fst (fst (f r))))) /\
       (m <> 0 -> forall r, r < n -> fitted_by T0 r (snd (fst (fst (f r)))) /\ exists u, fst (snd (f r)) = u ++ [used_of T0]) /\
       (m = 0 -> forall r, r < n -> snd (fst (fst (f r))) = l r /\ snd (f r) = a r)).
Proof.
  induction m as [|m IH]; intros it t l log a T sh Ht Hl; cbn [ModelAttributes.iterations_a].
  - apply together_ret. exists T. split; [now exists T|]. split; [easy|]. now split.
  - apply (together_bind n _ _ (fun _ => True)); [assumption| |].
    { apply together_local; [assumption| |easy]. intros. apply (safe_rmap_inv (fun _ => tt)). rewrite save_a_save. apply safe_save. }
    intros file _. eapply (together_bind n); [assumption|apply fit_continua_together; assumption|]. intros l1 Hl1. cbv zeta.
    assert (forall r, r < n -> fitted_by T r (l1 r)) as HF.
    { intros r Hr. exists (l r). split; [now apply Hl|]. rewrite <- (Hl1 r Hr). destruct (Ht r Hr) as [<- _]. reflexivity. }
    assert (forall r, r < n -> Forall (fun sx => P r (fst sx)) (l1 r)) as HP1.
    { intros r Hr. refine (rseq_P (fun sx => P r (fst sx)) (fun sx => P r (fst sx)) _ _ _ _ (Hl r Hr) (Hl1 r Hr)). intros x y Px E. exact (P_fit r (t r) x y Px E). }
    eapply (together_bind n); [assumption|exact (update_mean_cont_together g nsqrt uspline xs quad n Hn t l1 T sh Ht)|]. intros tb (T1 & b & S1 & H1).
    apply (together_bind n _ _ (fun f => exists T2, forall r, r < n -> alike T2 sh (f r))); [assumption| |].
    + destruct sh as [s|].
      * apply together_ext with (fun r => update_var_lss_eta g nsqrt min_num_pix min_num_qso cholesky curve_fit vspline (l1 r) (fst (tb r))).
        { intros r Hr. destruct (H1 r Hr) as [[_ K] _]. destruct (t_vfit (fst (tb r))); [reflexivity|discriminate]. }
        eapply together_weaken; [|apply (update_var_lss_eta_together g nsqrt min_num_pix min_num_qso cholesky curve_fit vspline n Hn (fun r => fst (tb r)) l1 T1 s); intros r Hr; now destruct (H1 r Hr)].
        intros f (T2 & _ & K2). now exists T2.
      * apply together_ext with (fun r => Ret (fst (tb r))).
        { intros r Hr. destruct (H1 r Hr) as [[_ K] _]. destruct (t_vfit (fst (tb r))); [discriminate|reflexivity]. }
        apply together_ret. exists T1. intros r Hr. now destruct (H1 r Hr).
    + intros t2 (T2 & H2).
      set (a2 := fun r => (fst (a r) ++ [(t_cont (t r), ModelFitter.deref (t r) (t_mvar (t r)), ModelFitter.deref (t r) (t_meta (t r)))], file r) : attrs).
      assert (forall r, r < n -> exists u, fst (a2 r) = u ++ [used_of T]) as HU.
      { intros r Hr. exists (fst (a r)). unfold a2. cbn [fst]. now rewrite <- (alike_used _ _ _ (Ht r Hr)). }
      apply together_ext with (fun r => if b then Ret (t2 r, l1 r, log ++ [b], a2 r)
         else iterations_a g ev (meanflux r) slope (minimizer r) input_cont true_cont nsqrt uspline xs quad
                min_num_pix min_num_qso cholesky curve_fit vspline write_ok r m (S it) (t2 r) (l1 r) (log ++ [b]) (a2 r)).
      { intros r Hr. destruct (H1 r Hr) as [_ ->]. reflexivity. }
      destruct b.
      * apply together_ret. exists T. split; [now exists T2|]. split; [|discriminate]. intros _ r Hr. split; [now apply HF|now apply HU].
      * eapply together_weaken; [|apply (IH (S it) t2 l1 (log ++ [false]) a2 T2 sh H2 HP1)].
        intros f (T0 & A0 & A & B). destruct m as [|m].
        -- exists T. split; [exact A0|]. split; [|discriminate]. intros _ r Hr. destruct (B eq_refl r Hr) as [-> ->]. split; [now apply HF|now apply HU].
        -- exists T0. split; [exact A0|]. split; [|discriminate]. intros _ r Hr. now apply A.
Qed.
End Together.

Section Fitting.
Variable g : config.
Variable ev : interp -> Qc -> num.
Variable ev_stack : stacker -> Qc -> num.
Variable slope : Qc -> num.
Variable minimizer : interp -> interp -> interp -> interp -> spec -> num -> option minres.
Variable input_cont : spec -> option (Qc -> num).
Variable true_cont : spec -> Qc -> num.
Variable nsqrt : num -> num.
Variable uspline : list Qc -> list num -> list num -> option (list num).
Variable xs : list Qc.
Variable quad : list Qc -> Qc.
Variables (min_num_pix min_num_qso : nat) (cholesky : list (list Qc) -> bool)
  (curve_fit : list Qc -> list Qc -> list num -> errors -> option (list num * list num))
  (vspline : list Qc -> list num -> list num -> option (list num)).
Variable write_ok : string -> bool.
Variable smooth : arr -> Qc -> arr.
Variable junk : nat -> num.
Variable dwave : Qc.
Notation fitting := (continuum_fitting g ev ev_stack slope minimizer input_cont true_cont nsqrt uspline xs quad
      min_num_pix min_num_qso cholesky curve_fit vspline write_ok iteration_suffix smooth junk dwave).
Notation fitting_a := (continuum_fitting_a g ev ev_stack slope minimizer input_cont true_cont nsqrt uspline xs quad
      min_num_pix min_num_qso cholesky curve_fit vspline write_ok smooth junk dwave).

(** ** the same program *)
Lemma erase_fitting rank o l : peq (pbind (fitting_a rank o l) (fun x => Ret (fst x))) (fitting rank o l).
Proof.
  unfold ModelAttributes.continuum_fitting_a, ModelFitter.continuum_fitting.
  eapply peq_trans; [apply pbind_assoc|]. apply peq_bind2. intros [mf t0]. cbn [fst snd].
  eapply peq_trans; [apply pbind_assoc|].
  eapply peq_trans; [|apply peq_bind; [apply (erase_thm g ev ev_stack (ev mf) slope (minimizer mf) input_cont true_cont nsqrt uspline xs quad
      min_num_pix min_num_qso cholesky curve_fit vspline write_ok rank t0 l)|intro; apply peq_refl]].
  eapply peq_trans; [|apply peq_sym, pbind_assoc]. apply peq_bind2. intros [[[t1 l1] log] a]. cbn [pbind fst]. cbv zeta.
  eapply peq_trans; [apply pbind_assoc|]. apply peq_bind2. intro v1.
  eapply peq_trans; [apply pbind_assoc|]. apply peq_bind2. intro v2.
  eapply peq_trans; [apply pbind_assoc|]. apply peq_bind2. intro u. cbn. constructor.
Qed.
Lemma same_fitting_thm n o (l : nat -> list specx) : spmd n (fun r => fitting r o (l r)) = forget (spmd n (fun r => fitting_a r o (l r))).
Proof. rewrite <- fg_spmd. symmetry. apply spmd_peq. intros r Hr. apply erase_fitting. Qed.
Lemma finishes_erased n o (l : nat -> list specx) f : finishes n (fun r => fitting_a r o (l r)) f ->
  finishes n (fun r => fitting r o (l r)) (fun r => fst (f r)).
Proof. unfold finishes. intro H. rewrite same_fitting_thm, H. cbn. f_equal. rewrite map_map. reflexivity. Qed.

(** ** the file of the run: the last extension VAR_FUNC *)
Lemma init_tabled rank o : leaf (fun mt => tabled g (negb (is_some (o_varlss o))) (snd mt)) (fitter_init g rank o).
Proof.
  pose proof (start_thm g rank o) as H. destruct (o_varlss o) as [file|] eqn:E.
  - eapply leaf_weaken; [|exact H]. intros mt (A & B & _). split; [now split|discriminate].
  - eapply leaf_weaken; [|exact (leaf_and _ _ _ H (init_gridded g rank o E))]. intros mt ((A & B & _) & G). split; [now split|intros _; exact G].
Qed.
Definition file_of (r : fitter * list spec * list bool * attrs) : list ext := snd (snd r).
Lemma fitting_leaf rank o l : writes g rank = true ->
  leaf (fun r => let '(t', _, _, (u, file)) := r in exists ts, Forall (tabled g (negb (is_some (o_varlss o)))) ts /\ u = map used_of ts /\ gridded g t' /\
          (exists suff, nth_error (rev (exts_of "VAR_FUNC" file)) 0 = Some (func_ext g suff t')) /\
          (o_varlss o = None -> forall ts0 tl, ts = ts0 ++ [tl] -> exists suff, nth_error (rev (exts_of "VAR_FUNC" file)) 1 = Some (func_ext g suff tl)))
       (fitting_a rank o l).
Proof.
  intro Wr. unfold ModelAttributes.continuum_fitting_a. eapply leaf_bind; [apply init_tabled|]. intros [mf t0] F. cbn [fst snd] in *.
  eapply leaf_bind; [exact (iterate_tabled g ev ev_stack (ev mf) slope (minimizer mf) input_cont true_cont nsqrt uspline xs quad
      min_num_pix min_num_qso cholesky curve_fit vspline write_ok rank _ t0 l F)|].
  intros [[[t1 l1] log] [u file]] (ts & tf & FT & -> & G & T & Ef). rewrite Wr in Ef. cbv zeta.
  apply leaf_bind_any. intro v1. apply leaf_bind_any. intro v2. apply leaf_bind_any. intro u'. cbn [leaf]. exists ts. split; [exact FT|]. split; [reflexivity|]. split; [exact G|]. split.
  - subst file. apply last_func; [exact G|]. intro E. now destruct (T E).
  - intros E ts0 tl ->. rewrite E in *. cbn [is_some negb] in *. destruct (T eq_refl) as [_ <-]. subst file.
    apply before_last_func; [|exact G]. apply Forall_app in FT as [_ FT]. inversion FT as [|? ? [_ K] _]. now apply K.
Qed.


Definition file_facts (o : fitopts) (r : fitter * list spec * list bool * attrs) : Prop :=
  let '(t', _, _, (u, file)) := r in exists ts, Forall (tabled g (negb (is_some (o_varlss o)))) ts /\ u = map used_of ts /\ gridded g t' /\
          (exists suff, nth_error (rev (exts_of "VAR_FUNC" file)) 0 = Some (func_ext g suff t')) /\
          (o_varlss o = None -> forall ts0 tl, ts = ts0 ++ [tl] -> exists suff, nth_error (rev (exts_of "VAR_FUNC" file)) 1 = Some (func_ext g suff tl)).
Lemma rank0_file n o (l : nat -> list specx) f : 1 <= n -> g_outdir g = true -> finishes n (fun r => fitting_a r o (l r)) f -> file_facts o (f 0).
Proof.
  intros Hn HW H. refine (leaf_finishes n _ f (fun r x => r = 0 -> file_facts o x) _ H 0 Hn eq_refl). intros r _.
  destruct r as [|r]; [|eapply leaf_weaken; [|apply leaf_true]; intros ? _; discriminate].
  eapply leaf_weaken; [|apply fitting_leaf; unfold writes; now rewrite HW]. intros x Hx _. exact Hx.
Qed.
Notation weights_by v e s := (file_weights v e s /\ weights_explained v e s).
(** ** recomputed weights: the last extension *)
Theorem recomputed_thm n o (l : nat -> list specx) f : 1 <= n -> n_iterations g <> 0 -> g_outdir g = true ->
  (forall r, r < n -> Forall (fun sx => plain_forest (fst sx)) (l r)) ->
  o_additive o <> None \/ o_coadd_after o = true ->
  finishes n (fun r => fitting_a r o (l r)) f ->
  exists x v e, nth_error (rev (exts_of "VAR_FUNC" (file_of (f 0)))) 0 = Some x /\ table_in x "var_lss" v /\ table_in x "eta" e /\
    forall r s, r < n -> In s (snd (fst (fst (f r)))) -> (s_sscale s <= 0)%Qc -> weights_by (ev v) (ev e) s.
Proof.
  intros Hn Hi HW HP HO H. pose proof (rank0_file n o l f Hn HW H) as K. unfold file_facts in K. unfold file_of.
  pose proof (finishes_erased n o l f H) as H'.
  destruct (final_weights g ev ev_stack slope minimizer input_cont true_cont nsqrt uspline xs quad
      min_num_pix min_num_qso cholesky curve_fit vspline write_ok iteration_suffix smooth junk dwave n o l _ Hn Hi HP H') as (T & T0 & T1 & T' & _ & _ & _ & _ & _ & HF).
  destruct (f 0) as [[[t' l0] log] [u file]] eqn:E0. destruct K as (ts & _ & _ & G & (suff & L) & _).
  assert (set_tvfit None t' = T') as ET by (destruct (HF 0 Hn) as [A _]; rewrite E0 in A; exact A).
  exists (func_ext g suff t'), (ModelFitter.deref t' (t_var t')), (ModelFitter.deref t' (t_eta t')). split; [exact L|].
  destruct (func_tables g suff t' G) as [A B]. split; [exact A|]. split; [exact B|]. intros r s Hr Hs Z.
  destruct (HF r Hr) as [_ HS]. destruct (HS s Hs) as [(B1 & B2 & _)|(_ & (_ & P) & Wt)]; [destruct HO; congruence|].
  rewrite <- ET in Wt. split; [exact (weighted_file _ _ _ Wt P Z)|exact (weighted_explained _ _ _ Wt P Z)].
Qed.

(** ** weights of the last fits: the extension before it *)
Theorem last_fits_thm n o (l : nat -> list specx) f : 1 <= n -> n_iterations g <> 0 -> g_outdir g = true ->
  (forall r, r < n -> Forall (fun sx => plain_forest (fst sx)) (l r)) ->
  o_varlss o = None -> o_additive o = None -> o_coadd_after o = false -> g_norm g = false -> g_etacal g = false ->
  finishes n (fun r => fitting_a r o (l r)) f ->
  exists x v e, nth_error (rev (exts_of "VAR_FUNC" (file_of (f 0)))) 1 = Some x /\ table_in x "var_lss" v /\ table_in x "eta" e /\
    forall r s, r < n -> In s (snd (fst (fst (f r)))) -> (s_sscale s <= 0)%Qc ->
      weights_by (ev v) (match g_model g with TrueCont => fun _ => n1 | _ => ev e end) s.
Proof.
  intros Hn Hi HW HP OV OA OC GN GE H. pose proof (rank0_file n o l f Hn HW H) as K. unfold file_facts in K. unfold file_of.
  unfold ModelAttributes.continuum_fitting_a in H.
  apply (bind_inv n _ _ _ f Hn (fitter_init_together n g o Hn)) in H as (f0 & (mf & T & sh & _ & _ & A0) & _ & H).
  assert (together n (fun r => iterate_a g ev ev_stack (ev (fst (f0 r))) slope (minimizer (fst (f0 r))) input_cont true_cont nsqrt uspline xs quad
           min_num_pix min_num_qso cholesky curve_fit vspline write_ok r (snd (f0 r)) (l r)) (fun _ => True)) as TI.
  { eapply together_weaken; [|eapply together_erased; [exact Hn| |]].
    - intros x _. exact I.
    - intros r Hr. apply erase_thm.
    - apply (iterate_together g ev ev_stack (fun r => ev (fst (f0 r))) slope (fun r => minimizer (fst (f0 r)))
        input_cont true_cont nsqrt uspline xs quad min_num_pix min_num_qso cholesky curve_fit vspline write_ok iteration_suffix n Hn
        (fun _ _ => True) ltac:(easy) ltac:(easy) (fun r => snd (f0 r)) l T sh).
      + intros r Hr. now destruct (A0 r Hr).
      + intros r Hr. apply Forall_forall. easy. }
  apply (bind_inv n _ _ _ f Hn TI) in H as (f1 & _ & H1 & H). clear TI.
  rewrite OA, OC in H.
  assert (forall r, r < n -> f r = (fst (fst (fst (f1 r))), valid_spectra (map fst (snd (fst (fst (f1 r))))), snd (fst (f1 r)), snd (f1 r))) as EF.
  { refine (leaf_finishes n _ f (fun r x => x = (fst (fst (fst (f1 r))), valid_spectra (map fst (snd (fst (fst (f1 r))))), snd (fst (f1 r)), snd (f1 r))) _ H). intros r Hr. destruct (f1 r) as [[[t1 l1] log] a]. cbn [pbind]. cbv zeta. apply leaf_bind_any. intro u. reflexivity. }
  clear H. unfold ModelAttributes.iterate_a in H1. apply finishes_res in H1 as (l0 & E0 & H1); [|exact Hn].
  assert (forall r, r < n -> Forall (fun sx => plain_forest (fst sx)) (l0 r)) as HP0.
  { intros r Hr. refine (rseq_P (fun sx => plain_forest (fst sx)) (fun sx => plain_forest (fst sx)) _ _ _ _ (HP r Hr) (E0 r Hr)).
    intros x y Px E. exact (kept_plain _ _ (init_one_kept _ _ _ _ E) Px). }
  apply (bind_inv n _ _ _ f1 Hn (iterations_a_together g ev (fun r => ev (fst (f0 r))) slope (fun r => minimizer (fst (f0 r)))
        input_cont true_cont nsqrt uspline xs quad min_num_pix min_num_qso cholesky curve_fit vspline write_ok n Hn
        (fun _ => plain_forest) (fun r t sx sx' P F => kept_plain _ _ (proj1 (fit_one_weights _ _ _ _ _ _ _ _ _ _ F P)) P)
        _ 1 (fun r => snd (f0 r)) l0 [] (fun _ => ([], [])) T sh (fun r Hr => proj2 (A0 r Hr)) HP0)) in H1 as (f2 & (T0 & _ & HT & _) & _ & H1).
  specialize (HT Hi).
  assert (forall r, r < n -> snd (fst (fst (f1 r))) = snd (fst (fst (f2 r))) /\ fst (snd (f1 r)) = fst (snd (f2 r))) as E1.
  { refine (leaf_finishes n _ f1 (fun r x => snd (fst (fst x)) = snd (fst (fst (f2 r))) /\ fst (snd x) = fst (snd (f2 r))) _ H1). intros r Hr. destruct (f2 r) as [[[t1 l1] log] [u file]]. unfold normalize_flux, eta_calibrate. rewrite GN, GE. cbn [of_res pbind].
    apply leaf_bind_any. intro file1. apply leaf_bind_any. intro tf. apply leaf_bind_any. intro file3. now split. }
  clear H1.
  assert (forall r s, r < n -> In s (snd (fst (fst (f r)))) -> (s_sscale s <= 0)%Qc ->
      weights_by (ev (ModelFitter.deref T0 (t_mvar T0))) (eta_used g ev T0) s) as HWt.
  { intros r s Hr Hs Z. rewrite (EF r Hr) in Hs. cbn [fst snd] in Hs. apply filter_In in Hs as [Hs V]. apply in_map_iff in Hs as (sx & <- & Hx).
    rewrite (proj1 (E1 r Hr)) in Hx. destruct (HT r Hr) as [(lp & HPl & Efit) _].
    destruct (rseq_In _ _ _ _ Efit Hx) as (sp & Hp & F). rewrite Forall_forall in HPl. pose proof (HPl _ Hp) as Pp.
    destruct (fit_one_weights _ _ _ _ _ _ _ _ _ _ F Pp) as [Kp Wt]. destruct (Wt V) as [W1 _]. pose proof (kept_plain _ _ Kp Pp) as Px.
    split; [exact (weighted_file _ _ _ W1 Px Z)|exact (weighted_explained _ _ _ W1 Px Z)]. }
  destruct (HT 0 Hn) as [_ (u0 & EU)]. destruct (E1 0 Hn) as [_ EU1]. pose proof (EF 0 Hn) as F0.
  destruct (f 0) as [[[t' lz] log] [u file]]. destruct K as (ts & FT & Eu & G & _ & HL).
  assert (u = u0 ++ [used_of T0]) as EU2 by (rewrite <- EU, <- EU1; injection F0 as _ _ _ F0; now rewrite <- F0).
  destruct ts as [|tl ts0 _] using rev_ind; [subst u; destruct u0; discriminate|].
  rewrite Eu, map_app in EU2. cbn [map] in EU2. apply app_inj_tail in EU2 as [_ EU2].
  destruct (HL OV ts0 tl eq_refl) as (suff & L). apply Forall_app in FT as [_ FT]. inversion FT as [|? ? [[[S1 S2] _] Gl] _]; subst.
  rewrite OV in Gl. specialize (Gl eq_refl). destruct (func_tables g suff tl Gl) as [A B]. rewrite <- S1 in A. rewrite <- S2 in B.
  unfold used_of in EU2. injection EU2 as _ U1 U2. rewrite U1 in A. rewrite U2 in B.
  exists (func_ext g suff tl), (ModelFitter.deref T0 (t_mvar T0)), (ModelFitter.deref T0 (t_meta T0)). split; [exact L|]. split; [exact A|]. split; [exact B|].
  intros r s Hr Hs Z. exact (HWt r s Hr Hs Z).
Qed.
End Fitting.
