(** The tables of the continuum fitter through its iterations. *)
From Coq Require Import ZArith String List Bool Arith Lia Qcanon Field.
From Verif Require Import Num NpList NpListFacts Exn Dict Mpi ModelMpiUtils ModelSpectrum ModelMasks ModelContinuum ModelStack ModelSubsample
  ModelVarFit ModelFitter SpecMpi SpecVarFit SpecFinal SpecUpdate ProofCatalog ProofMpi ProofMpi2 ProofLock ProofSafe ProofSpectrum1
  ProofVarKeep ProofVarFit3 ProofVarFit4 ProofExposures3 ProofFitter ProofCalib2 ProofCalib4 ProofCalib5 ProofUpdate.
Import ListNotations.
Local Open Scope nat_scope.

Definition refs_ok (T : fitter) : Prop :=
  t_var T < length (t_heap T) /\ t_eta T < length (t_heap T) /\ t_var T <> t_eta T.

Lemma zero_repeat {A B} (z : B) (x : A) k : map (fun _ => z) (repeat x k) = repeat z k.
Proof. induction k as [|k IH]; [reflexivity|cbn; now rewrite IH]. Qed.
Lemma reset_init w1 w2 nw nv e ns c r size : vfit_reset (vfit_init w1 w2 nw nv e ns c r size) = vfit_init w1 w2 nw nv e ns c r size.
Proof.
  unfold vfit_reset, vfit_init, v_set. cbn [v_nw v_nv v_wave v_dw v_edges v_usecov v_valid v_npix v_nqso v_sub].
  now rewrite !zero_repeat.
Qed.

Section Tables.
Variable g : config.
Variable ev : interp -> Qc -> num.
Variable ev_stack : stacker -> Qc -> num.
Variable meanflux : nat -> Qc -> num.
Variable slope : Qc -> num.
Variable minimizer : nat -> interp -> interp -> interp -> spec -> num -> option minres.
Variable input_cont : spec -> option (Qc -> num).
Variable true_cont : spec -> Qc -> num.
Variable nsqrt : num -> num.
Variable uspline : list Qc -> list num -> list num -> option (list num).
Variable xs : list Qc.
Variable quad : list Qc -> Qc.
Variables (np nq : nat) (cholesky : list (list Qc) -> bool)
  (curve_fit : list Qc -> list Qc -> list num -> errors -> option (list num * list num))
  (vspline : list Qc -> list num -> list num -> option (list num)).
Variable write_ok : string -> bool.
Variable iter_suffix : nat -> string.
Variable n : nat.
Hypothesis Hn : 1 <= n.
Hypothesis Hsize : g_size g = n.
Hypothesis Hw : (g_w1 g < g_w2 g)%Qc.
Hypothesis Hnw : 1 <= g_nw g.
Hypothesis Hnv : 1 <= g_nv g.
Hypothesis He : good_edges (g_nv g) (g_edges g).
Hypothesis Hsp : forall x y w r, vspline x y w = Some r -> length r = g_nw g.

Notation tables l t := (fitted_tables g np nq nsqrt cholesky curve_fit vspline n l t).

Lemma stored_tables l y e T t : result_of g nsqrt np nq cholesky curve_fit vspline n l y e -> refs_ok T ->
  set_tvfit None t = store_fit g y e T -> tables l t /\ refs_ok (store_fit g y e T).
Proof.
  intros (arms & gs & HA & HF) (R1 & R2 & R3) Et.
  assert (t_heap t = t_heap (store_fit g y e T) /\ t_var t = t_var T /\ t_eta t = t_eta T) as (E1 & E2 & E3).
  { assert (forall A (h : fitter -> A), (forall x, h (set_tvfit None x) = h x) -> h t = h (store_fit g y e T)) as K by (intros A h K; now rewrite <- Et, K).
    rewrite (K _ t_heap), (K _ t_var), (K _ t_eta) by reflexivity. unfold store_fit. now destruct (g_fit_eta g). }
  split.
  - exists arms, gs, y, e. split; [exact HA|]. split; [exact HF|]. unfold ModelFitter.deref. rewrite E1, E2, E3. unfold store_fit, column.
    destruct (g_fit_eta g); cbn [t_heap set_theap t_eta].
    + rewrite !nth_upd by (rewrite ?upd_length; assumption).
      replace (t_var T =? t_eta T) with false by (symmetry; now apply Nat.eqb_neq).
      replace (t_eta T =? t_var T) with false by (symmetry; apply Nat.eqb_neq; congruence).
      rewrite !Nat.eqb_refl. cbn. auto.
    + rewrite !nth_upd by (rewrite ?upd_length; assumption). rewrite Nat.eqb_refl. cbn. repeat split; discriminate.
  - unfold refs_ok, store_fit. destruct (g_fit_eta g); cbn; rewrite ?upd_length; auto.
Qed.

Lemma mean_cont_exact (t : nat -> fitter) (l : nat -> list specx) T : (forall r, r < n -> set_tvfit None (t r) = T) ->
  together n (fun r => update_mean_cont g nsqrt uspline xs quad (l r) (t r))
    (fun f => exists k cb, forall r, r < n -> f r = (set_tcont (fst cb) (set_tstack k (t r)), snd cb)).
Proof.
  intro Ht. unfold update_mean_cont.
  assert (forall r, r < n -> t_stack (t r) = t_stack T) as Es by (intros r Hr; now rewrite <- (Ht r Hr)).
  assert (forall r, r < n -> t_cont (t r) = t_cont T) as Ec by (intros r Hr; now rewrite <- (Ht r Hr)).
  apply (together_bind n _ _ (fun f => exists k, forall r, r < n -> f r = k)); [assumption| |].
  - apply together_lift; [reflexivity|].
    apply together_ext with (fun r => stack_all nsqrt (residual g) (map fst (l r)) (t_stack T)).
    { intros r Hr. now rewrite Es. }
    now apply stack_together.
  - intros h (k & Hk).
    apply (together_bind n _ _ (fun f => exists cb, forall r, r < n -> f r = cb)); [assumption| |].
    + apply together_ext with (fun _ => of_res (new_meancont g uspline xs quad k (t_cont T))).
      { intros r Hr. now rewrite Ec, Hk. }
      apply together_same; [assumption|]. intros a _. now exists a.
    + intros c (cb & Hc). apply together_ret. exists k, cb. intros r Hr. now rewrite (Hc r Hr), (Hk r Hr).
Qed.

Definition ready (T : fitter) (t : nat -> fitter) : Prop :=
  forall r, r < n -> set_tvfit None (t r) = T /\ begins g r (t r).

Lemma iterations_tables m : forall it (t : nat -> fitter) (l : nat -> list specx) log T, refs_ok T -> ready T t ->
  together n (fun r => iterations g ev (meanflux r) slope (minimizer r) input_cont true_cont nsqrt uspline xs quad
      np nq cholesky curve_fit vspline write_ok iter_suffix r m it (t r) (l r) log)
    (fun f => (exists T', refs_ok T' /\ ready T' (fun r => fst (fst (f r)))) /\
       (m <> 0 -> forall r, r < n -> tables (fun q => map fst (snd (fst (f q)))) (fst (fst (f r))))).
Proof.
  induction m as [|m IH]; intros it t l log T HT Ht; cbn [iterations].
  { apply together_ret. split; [|easy]. exists T. now split. }
  apply (together_bind n _ _ (fun _ => True)); [assumption| |].
  { apply together_local; [assumption| |easy]. intros. apply safe_save. }
  intros _ _. eapply (together_bind n); [assumption|now apply fit_continua_together|]. intros l1 Hl1.
  eapply (together_bind n); [assumption|apply (mean_cont_exact t l1 T); intros r Hr; now destruct (Ht r Hr)|]. intros tb (k & cb & Hb).
  set (T1 := set_tcont (fst cb) (set_tstack k T)).
  assert (ready T1 (fun r => fst (tb r))) as H1.
  { intros r Hr. rewrite (Hb r Hr). destruct (Ht r Hr) as [<- B]. split; [reflexivity|exact B]. }
  assert (refs_ok T1) as HT1 by exact HT.
  eapply (together_bind n).
  { assumption. }
  { apply together_ext with (fun r => update_var_lss_eta g nsqrt np nq cholesky curve_fit vspline (l1 r) (fst (tb r))).
    { intros r Hr. destruct (H1 r Hr) as [_ (v & -> & _)]. reflexivity. }
    apply (update_tables g nsqrt np nq cholesky curve_fit vspline n Hn Hsize Hw Hnw Hnv He Hsp (fun r => fst (tb r)) l1 T1 H1). }
  intros t2 (y & e & HR & H2).
  assert (forall r, r < n -> tables (fun q => map fst (l1 q)) (t2 r)) as Htab.
  { intros r Hr. destruct (H2 r Hr) as [_ E]. exact (proj1 (stored_tables _ _ _ _ _ HR HT1 E)). }
  assert (refs_ok (store_fit g y e T1)) as HT2.
  { destruct (H2 0 ltac:(lia)) as [_ E]. exact (proj2 (stored_tables _ _ _ _ _ HR HT1 E)). }
  assert (ready (store_fit g y e T1) t2) as Hr2.
  { intros r Hr. destruct (H2 r Hr). now split. }
  apply together_ext with (fun r => if snd cb then Ret (t2 r, l1 r, log ++ [snd cb])
     else iterations g ev (meanflux r) slope (minimizer r) input_cont true_cont nsqrt uspline xs quad
            np nq cholesky curve_fit vspline write_ok iter_suffix r m (S it) (t2 r) (l1 r) (log ++ [snd cb])).
  { intros r Hr. now rewrite (Hb r Hr). }
  destruct (snd cb).
  - apply together_ret. split; [eexists; split; eassumption|]. intros _. exact Htab.
  - destruct m as [|m].
    + cbn [iterations]. apply together_ret. split; [eexists; split; eassumption|]. intros _. exact Htab.
    + eapply together_weaken; [|exact (IH (S it) t2 l1 _ _ HT2 Hr2)]. intros f [A B]. split; [exact A|]. intros _. now apply B.
Qed.

Lemma final_tables (t : nat -> fitter) (l : nat -> list specx) T : (forall r, r < n -> set_tvfit None (t r) = T) ->
  together n (fun r => fit_final_varlss g nsqrt uspline xs quad np nq cholesky curve_fit vspline r (l r) (t r))
    (fun f => forall r, r < n -> tables (fun q => map fst (l q)) (f r)).
Proof.
  intro Ht. unfold fit_final_varlss.
  apply (together_bind n _ _ (fun f => exists i, forall r, r < n -> f r = i)); [assumption| |].
  { apply together_ext with (fun _ => of_res (construct_interp (fq 1 10) (new_vfit g 0))); [reflexivity|].
    apply together_same; [assumption|]. intros a _. now exists a. }
  intros f1 (iv & H1). apply (together_bind n _ _ (fun f => exists i, forall r, r < n -> f r = i)); [assumption| |].
  { apply together_ext with (fun _ => of_res (construct_interp 1 (new_vfit g 0))); [reflexivity|].
    apply together_same; [assumption|]. intros a _. now exists a. }
  intros f2 (ie & H2).
  set (T1 := set_trefs (length (t_heap T)) (S (length (t_heap T))) (set_theap (t_heap T ++ [iv; ie]) T)).
  set (t1 := fun r => set_trefs (length (t_heap (t r))) (S (length (t_heap (t r))))
       (set_theap (t_heap (t r) ++ [f1 r; f2 r]) (set_tvfit (Some (new_vfit g r)) (t r)))).
  assert (ready T1 t1) as R1.
  { intros r Hr. unfold t1, T1. rewrite (H1 r Hr), (H2 r Hr), <- (Ht r Hr). split; [reflexivity|]. exists (new_vfit g r). split; [reflexivity|apply reset_init]. }
  assert (refs_ok T1) as HT1 by (unfold refs_ok, T1; cbn; rewrite app_length; cbn; lia).
  eapply (together_bind n); [assumption| |].
  { exact (update_tables g nsqrt np nq cholesky curve_fit vspline n Hn Hsize Hw Hnw Hnv He Hsp t1 l T1 R1). }
  intros t2 (y & e & HR & H3).
  eapply (together_bind n); [assumption|apply (mean_cont_exact t2 l (store_fit g y e T1)); intros r Hr; now destruct (H3 r Hr)|].
  intros tb (k & cb & Hb). apply together_ret. intros r Hr. rewrite (Hb r Hr). cbn [fst].
  destruct (H3 r Hr) as [_ E]. exact (proj1 (stored_tables _ _ _ _ _ HR HT1 E)).
Qed.

(** ** iterate *)
Lemma iterate_tables (t : nat -> fitter) (l : nat -> list specx) T :
  (forall r, r < n -> set_tvfit None (t r) = T) ->
  ((forall r, r < n -> begins g r (t r)) /\ refs_ok T /\ g_norm g = false /\ g_etacal g = false /\ n_iterations g <> 0 \/
   (forall r, r < n -> t_vfit (t r) = None)) ->
  together n (fun r => iterate g ev ev_stack (meanflux r) slope (minimizer r) input_cont true_cont nsqrt uspline xs quad
      np nq cholesky curve_fit vspline write_ok iter_suffix r (t r) (l r))
    (fun f => forall r, r < n -> tables (fun q => map fst (snd (fst (f q)))) (fst (fst (f r)))).
Proof.
  intros Ht Hc. unfold iterate.
  apply (together_bind n _ _ (fun _ => True)); [assumption| |].
  { apply together_local; [assumption| |easy]. intros. apply safe_rseq_map. intro. apply safe_init_one. }
  intros l0 _.
  destruct Hc as [(Hb & HT & C1 & C2 & C3)|Hb].
  - eapply (together_bind n); [assumption|apply (iterations_tables (n_iterations g) 1 t l0 [] T HT)|].
    { intros r Hr. split; [now apply Ht|now apply Hb]. }
    intros f ((T' & HT' & Hr') & Htab). specialize (Htab C3).
    unfold normalize_flux, eta_calibrate. rewrite C1, C2.
    apply together_ext with (fun r => pbind (of_res (save g write_ok r "" (fst (fst (f r))))) (fun _ =>
       pbind (of_res (write_vfit g write_ok r (fst (fst (f r))))) (fun _ => Ret (fst (fst (f r)), snd (fst (f r)), snd (f r))))).
    { intros r Hr. destruct (Hr' r Hr) as [_ (v & E & _)]. destruct (f r) as [[t1 l1] log]. cbn [fst snd of_res pbind] in E |- *. rewrite E.
      destruct (save g write_ok r "" t1); reflexivity. }
    apply (together_bind n _ _ (fun _ => True)); [assumption| |].
    { apply together_local; [assumption| |easy]. intros. apply safe_save. }
    intros _ _. apply (together_bind n _ _ (fun _ => True)); [assumption| |].
    { apply together_local; [assumption| |easy]. intros. apply safe_write_vfit. }
    intros _ _. apply together_ret. exact Htab.
  - eapply (together_bind n); [assumption|eapply (iterations_together g ev meanflux slope minimizer input_cont true_cont nsqrt uspline xs quad np nq cholesky
        curve_fit vspline write_ok iter_suffix n Hn (fun _ _ => True) (fun _ _ _ _ _ _ => I) (n_iterations g) 1 t l0 [] T None)|].
    { intros r Hr. split; [now apply Ht|now rewrite Hb]. }
    { intros r Hr. apply Forall_forall. easy. }
    intros f (_ & T' & log & _ & _ & _ & _ & _ & _ & Hf).
    apply together_ext with (fun r =>
       pbind (of_res (normalize_flux g ev_stack (fst (fst (f r))) (snd (fst (f r))))) (fun l2 =>
       pbind (of_res (eta_calibrate g ev (fst (fst (f r))) l2)) (fun l3 =>
       pbind (of_res (save g write_ok r "" (fst (fst (f r))))) (fun _ =>
       pbind (match t_vfit (fst (fst (f r))) with
         | Some _ => Ret (fst (fst (f r)))
         | None => pbind (fit_final_varlss g nsqrt uspline xs quad np nq cholesky curve_fit vspline r l3 (fst (fst (f r)))) (fun t2 => pbind (of_res (save g write_ok r "-fit" t2)) (fun _ => Ret t2))
         end) (fun t2 =>
       pbind (of_res (write_vfit g write_ok r t2)) (fun _ => Ret (t2, l3, snd (f r)))))))).
    { intros r Hr. now destruct (f r) as [[t1 l1] log']. }
    apply (together_bind n _ _ (fun _ => True)); [assumption| |].
    { apply together_local; [assumption| |easy]. intros. apply safe_normalize_flux. }
    intros l2 _. apply (together_bind n _ _ (fun _ => True)); [assumption| |].
    { apply together_local; [assumption| |easy]. intros. apply safe_eta_calibrate. }
    intros l3 _. apply (together_bind n _ _ (fun _ => True)); [assumption| |].
    { apply together_local; [assumption| |easy]. intros. apply safe_save. }
    intros _ _. apply (together_bind n _ _ (fun h => forall r, r < n -> tables (fun q => map fst (l3 q)) (h r))); [assumption| |].
    + apply together_ext with (fun r => pbind (fit_final_varlss g nsqrt uspline xs quad np nq cholesky curve_fit vspline r (l3 r) (fst (fst (f r)))) (fun t2 => pbind (of_res (save g write_ok r "-fit" t2)) (fun _ => Ret t2))).
      { intros r Hr. destruct (Hf r Hr) as [[_ K] _]. destruct (t_vfit (fst (fst (f r)))); [discriminate|reflexivity]. }
      eapply (together_bind n); [assumption|apply (final_tables (fun r => fst (fst (f r))) l3 T')|].
      { intros r Hr. now destruct (Hf r Hr) as [[E _] _]. }
      intros t2 H2. apply (together_bind n _ _ (fun _ => True)); [assumption| |].
      { apply together_local; [assumption| |easy]. intros. apply safe_save. }
      intros _ _. apply together_ret. exact H2.
    + intros t2 H2. apply (together_bind n _ _ (fun _ => True)); [assumption| |].
      { apply together_local; [assumption| |easy]. intros. apply safe_write_vfit. }
      intros _ _. apply together_ret. exact H2.
Qed.
End Tables.
