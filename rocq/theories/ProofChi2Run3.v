(** The chi2 catalog of mpi_continuum_fitting (C75): the theorems. *)
From Coq Require Import ZArith String List Bool Arith Lia Qcanon.
From Verif Require Import Num NpList NpListFacts Exn Dict ProofGroup Mpi ModelSpectrum ProofSpectrum1 ModelMasks ModelContinuum ModelStack ModelSubsample ModelVarFit ModelFitter ModelDelta ModelChi2 ModelChi2Run
  SpecSpectrum SpecMpi SpecFinal SpecChi2 SpecChi2Run ProofMpi ProofMpi2 ProofLock ProofSafe ProofAttributes ProofRanks ProofRanks4 ProofPixels6 ProofFitter ProofFinal ProofChi2 ProofChi2Run ProofChi2Run2.
Import ListNotations.
Local Open Scope nat_scope.

Lemma real_size s : get_real_size s = unmasked s.
Proof.
  unfold get_real_size, unmasked, dvals. generalize (fivar (s_f s)) as d. intro d.
  assert (forall n, fold_left (fun acc iv => acc + count npos iv) (map snd d) n = n + fold_right (fun (a : string * list num) m => length (filter npos (snd a)) + m) 0 d) as H.
  { induction d as [|a d IH]; intro n; cbn [map fold_left fold_right]; [lia|]. rewrite IH. unfold count. lia. }
  rewrite H. lia.
Qed.
Lemma filter_Forall2 {A B} (p : A -> bool) (q : B -> bool) (R : A -> B -> Prop) l l' : (forall a b, R a b -> q b = p a) ->
  Forall2 R l l' -> Forall2 R (filter p l) (filter q l').
Proof.
  intros H F. induction F as [|a b l l' E F IH]; cbn; [constructor|]. rewrite (H _ _ E). destruct (p a); [constructor|]; assumption.
Qed.

Section Run.
Variable g : config.
Variable ev : interp -> Qc -> num.
Variable ev_stack : stacker -> Qc -> num.
Variable slope : Qc -> num.
Variable minimizer : interp -> interp -> interp -> interp -> spec -> num -> option minres.
Variable input_cont : spec -> option (Qc -> num).
Variable true_cont : spec -> Qc -> num.
Variable nsqrt : num -> num.
Variable uspline : list Qc -> list num -> list num -> option (list num).
Variable xs : list Qc.
Variable quad : list Qc -> Qc.
Variables (min_num_pix min_num_qso : nat) (cholesky : list (list Qc) -> bool)
  (curve_fit : list Qc -> list Qc -> list num -> errors -> option (list num * list num))
  (vspline : list Qc -> list num -> list num -> option (list num)).
Variable write_ok : string -> bool.
Variable iter_suffix : nat -> string.
Variable smooth : arr -> Qc -> arr.
Variable junk : nat -> num.
Variable dwave : Qc.
Notation steps := (fit_steps g ev ev_stack slope minimizer input_cont true_cont nsqrt uspline xs quad
      min_num_pix min_num_qso cholesky curve_fit vspline write_ok iter_suffix smooth junk dwave).
Notation fitting := (continuum_fitting g ev ev_stack slope minimizer input_cont true_cont nsqrt uspline xs quad
      min_num_pix min_num_qso cholesky curve_fit vspline write_ok iter_suffix smooth junk dwave).
Notation fitting_c := (continuum_fitting_c g ev ev_stack slope minimizer input_cont true_cont nsqrt uspline xs quad
      min_num_pix min_num_qso cholesky curve_fit vspline write_ok iter_suffix smooth junk dwave).

(** ** what leaves the steps before the catalog *)
Lemma steps_rel rank o l : n_iterations g <> 0 ->
  leaf (fun x => Forall2 (rel_done g) l (snd (fst (fst x))) /\ Forall2 (rel_out o) (valid_spectra (map fst (snd (fst (fst x))))) (snd (fst x))) (steps rank o l).
Proof.
  intro Hn. unfold fit_steps. apply leaf_bind_any. intros [mf t0]. cbn [fst snd].
  eapply leaf_bind; [apply (iterate_rel g ev ev_stack (ev mf) slope (minimizer mf) input_cont true_cont nsqrt uspline xs quad
    min_num_pix min_num_qso cholesky curve_fit vspline write_ok iter_suffix rank t0 l Hn)|].
  intros [[t l1] log] F. cbn [fst snd] in F. cbv zeta. set (va := valid_spectra (map fst l1)).
  apply (leaf_bind (fun v1 => Forall2 (rel_last false) va v1 /\ (o_additive o = None -> v1 = va))).
  { destruct (o_additive o) as [file|].
    - apply leaf_bind_any. intro vl. apply leaf_res. intros v1 E. split; [exact (noise_rel ev smooth dwave _ _ _ _ E)|discriminate].
    - split; [|reflexivity]. apply Forall2_refl. intro a. split; [reflexivity|]. split; [auto|]. intros _ P. split; [exact P|discriminate]. }
  intros v1 [G1 G2].
  apply (leaf_bind (fun v2 => Forall2 (rel_last (o_coadd_after o)) v1 v2 /\ (o_coadd_after o = false -> v2 = v1))).
  { destruct (o_coadd_after o).
    - apply leaf_res. intros v2 E. split; [exact (coadd_rel ev nsqrt smooth junk dwave _ _ _ E)|discriminate].
    - split; [|reflexivity]. apply Forall2_refl. intro a. split; [reflexivity|]. split; [auto|]. intros _ P. split; [exact P|discriminate]. }
  intros v2 [G3 G4]. cbn [leaf fst snd]. split; [exact F|]. fold va. pose proof (valid_Forall (map fst l1)) as V. fold va in V. clearbody va.
  assert (Forall2 (fun a b => rel_last (o_coadd_after o) a b /\ (o_additive o = None -> o_coadd_after o = false -> b = a)) va v2) as G.
  { destruct (o_additive o) as [file|]; [|destruct (o_coadd_after o)].
    - refine (Forall2_trans _ _ _ _ _ _ _ G1 G3). intros a b c (A1 & A2 & A3) (B1 & B2 & B3). split; [|discriminate].
      split; [congruence|]. split; [auto|]. intros Va P. apply B3; [auto|]. exact (proj1 (A3 Va P)).
    - rewrite (G2 eq_refl) in G3. apply (Forall2_weaken _ _ _ _) with (2 := G3). intros a b H. split; [exact H|discriminate].
    - rewrite (G4 eq_refl), (G2 eq_refl) in *. apply Forall2_refl. intro a. split; [|reflexivity]. split; [reflexivity|]. split; [auto|]. intros _ P. split; [exact P|discriminate]. }
  refine (Forall2_both _ _ _ _ _ _ V G). intros a b Va ((A1 & A2 & A3) & A4). split; [exact A1|]. split; [auto|].
  split; [|exact A4]. intros Hc P. destruct (A3 Va P) as [_ X]. auto.
Qed.
(** spectra whose CONT_chi2 is that of their final values *)
Definition current (o : fitopts) : Prop := o_coadd_after o = true \/ (o_additive o = None /\ g_norm g = false /\ g_etacal g = false).
Lemma entries_rel o l l1 v : Forall2 (rel_done g) l l1 -> Forall2 (rel_out o) (valid_spectra (map fst l1)) v ->
  Forall2 (fun a b : specx => s_cat (fst b) = s_cat (fst a) /\ (s_valid (fst b) = false -> s_chi2 (fst b) = Fin (- (1))) /\
     (s_valid (fst b) = true -> plain_forest (fst a) -> current o -> good (fst b))) l (merge l1 v) /\
  valid_spectra (map fst (merge l1 v)) = v.
Proof.
  intros F G. destruct (merge_spec (rel_out o) ltac:(now intros a b (_ & H & _)) l1 v G) as [M1 M2]. split; [|exact M2].
  refine (Forall2_trans _ _ _ _ _ _ _ F M1). intros a b c (A1 & A2 & A3 & A4) H. destruct (s_valid (fst b)) eqn:V.
  - destruct H as (B1 & B2 & B3 & B4). split; [congruence|]. split; [congruence|]. intros _ P [C|(C1 & C2 & C3)]; [auto|].
    destruct (o_coadd_after o) eqn:Ec; [auto|]. rewrite (B4 C1 eq_refl). auto.
  - subst c. split; [exact A1|]. split; [intros _; exact (A3 eq_refl)|]. congruence.
Qed.

(** ** the ranks *)
Lemma steps_together n o (l : nat -> list specx) : 1 <= n -> together n (fun r => steps r o (l r)) (fun _ => True).
Proof.
  intros Hn. unfold fit_steps. eapply (together_bind n); [assumption|now apply fitter_init_together|]. intros f (mf & T & sh & HS & HO & Hf).
  apply together_ext with (fun r => pbind (iterate g ev ev_stack (ev mf) slope (minimizer mf) input_cont true_cont nsqrt uspline xs quad
         min_num_pix min_num_qso cholesky curve_fit vspline write_ok iter_suffix r (snd (f r)) (l r)) (fun x =>
    let '(t, l1, log) := x in
    pbind (match o_additive o with
         | Some file =>
             pbind (read_interp r "Error loading NoiseCalibrator from file" file)
               (fun vl => of_res (add_noise ev smooth dwave vl t (valid_spectra (map fst l1))))
         | None => Ret (valid_spectra (map fst l1))
         end) (fun v1 =>
    pbind (if o_coadd_after o then of_res (coadd_after ev nsqrt smooth junk dwave t v1) else Ret v1) (fun v2 =>
    Ret (t, l1, v2, log))))).
  { intros r Hr. destruct (Hf r Hr) as [<- _]. reflexivity. }
  eapply (together_bind n); [assumption|apply (iterate_together g ev ev_stack (fun r => ev mf) slope (fun r => minimizer mf)
    input_cont true_cont nsqrt uspline xs quad min_num_pix min_num_qso cholesky curve_fit vspline write_ok iter_suffix n Hn
    (fun _ _ => True) ltac:(easy) ltac:(easy) (fun r => snd (f r)) l T sh)|].
  { intros r Hr. now destruct (Hf r Hr). }
  { intros r Hr. now apply Forall_forall. }
  intros h _. set (valid := fun r => valid_spectra (map fst (snd (fst (h r))))).
  apply together_ext with (fun r =>
    pbind (match o_additive o with
         | Some file =>
             pbind (read_interp r "Error loading NoiseCalibrator from file" file)
               (fun vl => of_res (add_noise ev smooth dwave vl (fst (fst (h r))) (valid r)))
         | None => Ret (valid r)
         end) (fun v1 =>
    pbind (if o_coadd_after o then of_res (coadd_after ev nsqrt smooth junk dwave (fst (fst (h r))) v1) else Ret v1) (fun v2 =>
    Ret (fst (fst (h r)), snd (fst (h r)), v2, snd (h r))))).
  { intros r Hr. unfold valid. now destruct (h r) as [[t1 l0] lg]. }
  apply (together_bind n _ _ (fun _ => True)); [assumption| |].
  { destruct (o_additive o) as [file|]; [|now apply together_ret].
    eapply (together_bind n); [assumption|now apply read_interp_together|]. intros vl _.
    apply together_local; [assumption| |easy]. intros; apply safe_add_noise. }
  intros v1 _. apply (together_bind n _ _ (fun _ => True)); [assumption| |].
  { destruct (o_coadd_after o); [|now apply together_ret]. apply together_local; [assumption| |easy]. intros; apply safe_coadd_after. }
  intros v2 _. now apply together_ret.
Qed.

(** the parts of a run *)
Lemma parts n o (l : nat -> list specx) f : 1 <= n -> finishes n (fun r => fitting_c r o (l r)) f ->
  exists y, finishes n (fun r => steps r o (l r)) y /\
    exists rows, finishes n (fun r => save_contchi2_catalog (g_outdir g) (o_catalog o) (S (eff_order g)) r (entries g (l r) (snd (fst (fst (y r)))) (snd (fst (y r))))) rows /\
    forall r, r < n -> f r = (fst (fst (fst (y r))), snd (fst (y r)), snd (y r), rows r).
Proof.
  intros Hn H. unfold continuum_fitting_c in H.
  eapply bind_inv in H; [|exact Hn|apply together_lift; [reflexivity|]; apply steps_together; exact Hn].
  destruct H as (y & _ & Fy & H). exists y. split; [unfold finishes in *; rewrite <- Fy; symmetry; now apply lift_spmd|].
  apply (finishes_ext n _ (fun r => pbind (lift inr rows_of (save_contchi2_catalog (g_outdir g) (o_catalog o) (S (eff_order g)) r
     (entries g (l r) (snd (fst (fst (y r)))) (snd (fst (y r)))))) (fun rows => Ret (fst (fst (fst (y r))), snd (fst (y r)), snd (y r), rows)))) in H.
  2:{ intros r Hr. now destruct (y r) as [[[t l1] v] log]. }
  eapply bind_inv in H; [|exact Hn|apply together_lift; [reflexivity|]].
  2:{ apply (together_weaken n _ (fun _ => True) (fun _ => True)); [auto|]. unfold save_contchi2_catalog. destruct (g_outdir g); [|now apply together_ret].
      apply (together_bind n _ _ (fun _ => True)); [exact Hn| |].
      - apply together_local; [exact Hn| |easy]. intros r _. apply safe_rseq. intro. apply safe_row.
      - intros rows _. apply together_allreduce; [exact Hn|].
        apply (together_ext n _ (fun r => of_res (if Nat.eqb r 0 then if o_catalog o then Ok (Some (fold_left (@app chi2row) (map rows (seq 1 (n - 1))) (rows 0))) else Err (OtherExn "OSError") else Ok None))).
        { intros r _. destruct (Nat.eqb r 0); [|reflexivity]. now destruct (o_catalog o). }
        apply together_local; [exact Hn| |easy]. intros r _. destruct (Nat.eqb r 0); [|exact I]. now destruct (o_catalog o). }
  destruct H as (rows & _ & Fr & H). exists rows. split; [unfold finishes in *; rewrite <- Fr; symmetry; now apply lift_spmd|].
  exact (finishes_ret n _ _ H).
Qed.
Lemma catalog_parts n writes np (l : nat -> list entry) f : 1 <= n -> finishes n (fun r => save_contchi2_catalog true writes np r (l r)) f ->
  exists rows, (forall r, r < n -> Forall2 (fun e row => chi2_row r np e = Ok row) (l r) (rows r)) /\ writes = true /\
    f 0 = Some (concat (map rows (seq 0 n))) /\ forall r, 0 < r < n -> f r = None.
Proof.
  intros Hn H. unfold save_contchi2_catalog in H. apply finishes_res in H as (rows & E & H); [|exact Hn].
  apply finishes_all in H; [|exact Hn]. rewrite gather_concat in H by exact Hn. exists rows.
  split; [intros r Hr; apply rseq_Forall2; exact (E r Hr)|].
  set (all := concat _) in *. clearbody all. clear E.
  assert (finishes n (fun r => pbind (of_res (if Nat.eqb r 0 then if writes then Ok (Some all) else Err (OtherExn "OSError") else Ok None)) (fun x => @Ret (list chi2row) _ x)) f) as H'.
  { apply finishes_ext with (2 := H). intros r _. destruct (Nat.eqb r 0); [destruct writes|]; reflexivity. }
  apply finishes_res in H' as (y & E & H'); [|exact Hn]. pose proof (finishes_ret n _ _ H') as R.
  split; [|split].
  - specialize (E 0 ltac:(lia)). cbn in E. destruct writes; [reflexivity|discriminate].
  - rewrite (R 0) by lia. specialize (E 0 ltac:(lia)). cbn in E. destruct writes; congruence.
  - intros r Hr. rewrite (R r) by lia. specialize (E r ltac:(lia)). destruct (Nat.eqb_spec r 0); [lia|congruence].
Qed.
Lemma row_about r np e row : chi2_row r np e = Ok row ->
  about r (e_spec e) row /\ r_valid row = s_valid (e_spec e) /\ r_chi2 row = s_chi2 (e_spec e) /\ r_dof row = e_dof e /\ assign np (s_x (e_spec e)) = Ok (r_x row).
Proof.
  unfold chi2_row. intro E. do 2 apply rbind_Ok in E as (? & _ & E). apply rbind_Ok in E as (? & Ex & E). apply rbind_Ok in E as (? & _ & E). injection E as <-. now repeat split.
Qed.
Definition rows_thm_stmt n o (l : nat -> list specx) (f : nat -> fitter * list spec * list bool * option (list chi2row)) : Prop :=
  exists rows, snd (f 0) = Some (concat (map rows (seq 0 n))) /\ (forall r, 0 < r < n -> snd (f r) = None) /\
    forall r, r < n ->
      Forall2 (fun sx row => about r (fst sx) row /\ (r_valid row = false -> r_chi2 row = Fin (- (1))) /\
        r_dof row = (Z.of_nat (unmasked (fst sx)) - match g_model g with Picca => Z.of_nat (g_order g) + 1 | _ => 0 end)%Z) (l r) (rows r) /\
      Forall2 (fun s row => about r s row /\ r_chi2 row = s_chi2 s /\ assign (S (eff_order g)) (s_x s) = Ok (r_x row)) (snd (fst (fst (f r)))) (filter r_valid (rows r)) /\
      (Forall (fun sx => plain_forest (fst sx)) (l r) -> current o -> Forall (fun s => s_valid s = true /\ good s) (snd (fst (fst (f r))))).
Lemma rows_thm n o (l : nat -> list specx) f : 1 <= n -> n_iterations g <> 0 -> g_outdir g = true ->
  finishes n (fun r => fitting_c r o (l r)) f -> rows_thm_stmt n o l f.
Proof.
  intros Hn Hi Ho H. destruct (parts n o l f Hn H) as (y & Fy & rs & Fr & Ef). clear H. rewrite Ho in Fr.
  apply catalog_parts in Fr as (rows & R & _ & R0 & RN); [|exact Hn].
  pose proof (leaf_finishes n _ y (fun r x => Forall2 (rel_done g) (l r) (snd (fst (fst x))) /\ Forall2 (rel_out o) (valid_spectra (map fst (snd (fst (fst x))))) (snd (fst x)))
    (fun r _ => steps_rel r o (l r) Hi) Fy) as S. clear Fy.
  exists rows. split; [rewrite (Ef 0 ltac:(lia)); exact R0|]. split; [intros r Hr; rewrite (Ef r ltac:(lia)); apply RN; exact Hr|].
  intros r Hr. rewrite (Ef r Hr). cbn [fst snd]. destruct (S r Hr) as [S1 S2]. destruct (entries_rel o _ _ _ S1 S2) as [M1 M2]. specialize (R r Hr). clear S S1 S2 R0 RN Ef.
  unfold entries in R. set (m := merge _ _) in *. clearbody m.
  assert (Forall2 (fun ab row => about r (fst (snd ab)) row /\ r_valid row = s_valid (fst (snd ab)) /\ r_chi2 row = s_chi2 (fst (snd ab)) /\ r_dof row = dof_of g (fst (fst ab)) /\ assign (S (eff_order g)) (s_x (fst (snd ab))) = Ok (r_x row))
    (combine (l r) m) (rows r)) as C.
  { clear M2. revert R. generalize (rows r). induction M1 as [|a b la lb H M1 IH]; intros rw F; cbn in F; inversion F as [|e row le lr E F']; subst; cbn; constructor; [|now apply IH].
    apply row_about in E. exact E. }
  clear R. split; [|split].
  - clear M2. revert C. generalize (rows r). induction M1 as [|a b la lb (H1 & H2 & _) M1 IH]; intros rw F; cbn in F; inversion F as [|e row le lr E F']; subst; constructor; [|now apply IH].
    cbn [fst snd] in E. destruct E as ((E1 & E2 & E3 & E4) & E5 & E6 & E7 & _). split; [unfold about; rewrite <- H1; repeat split; assumption|]. split.
    + intro V. rewrite E6. apply H2. congruence.
    + rewrite E7. unfold dof_of. now rewrite real_size.
  - assert (Forall2 (fun s row => (about r s row /\ r_chi2 row = s_chi2 s /\ assign (S (eff_order g)) (s_x s) = Ok (r_x row)) /\ r_valid row = s_valid s) (map fst m) (rows r)) as F.
    { clear M2. revert C. generalize (rows r). induction M1 as [|a b la lb _ M1 IH]; intros rw F; cbn in F; inversion F as [|e row le lr E F']; subst; cbn; constructor; [|now apply IH].
      cbn [fst snd] in E. destruct E as (E1 & E5 & E6 & E7 & E8). split; [split; [exact E1|]; split; [exact E6|exact E8]|exact E5]. }
    rewrite <- M2. apply (filter_Forall2 s_valid r_valid) in F; [|now intros a b [_ ->]].
    apply (Forall2_weaken _ _ _ _) with (2 := F). now intros a b [X _].
  - intros P Cu. rewrite <- M2. clear M2 C. induction M1 as [|a b la lb (H1 & H2 & H3) M1 IH]; [constructor|].
    unfold valid_spectra in *. cbn [map filter]. inversion P as [|? ? P1 P2]; subst. destruct (s_valid (fst b)) eqn:V; [constructor|]; auto.
Qed.

Theorem catalog_run_thm n o (l : nat -> list specx) f : 1 <= n -> n_iterations g <> 0 -> g_outdir g = true ->
  finishes n (fun r => fitting_c r o (l r)) f ->
  exists rows, snd (f 0) = Some (concat (map rows (seq 0 n))) /\ (forall r, 0 < r < n -> snd (f r) = None) /\
    forall r, r < n ->
      Forall2 (fun sx row => about r (fst sx) row /\ (r_valid row = false -> r_chi2 row = Fin (- (1))) /\
        r_dof row = (Z.of_nat (unmasked (fst sx)) - match g_model g with Picca => Z.of_nat (g_order g) + 1 | _ => 0 end)%Z) (l r) (rows r) /\
      Forall2 (fun s row => about r s row /\ r_chi2 row = s_chi2 s) (snd (fst (fst (f r)))) (filter r_valid (rows r)).
Proof.
  intros Hn Hi Ho H. destruct (rows_thm n o l f Hn Hi Ho H) as (rows & A & B & C). exists rows. split; [exact A|]. split; [exact B|].
  intros r Hr. destruct (C r Hr) as (X & Y & _). split; [exact X|]. apply (Forall2_weaken _ _ _ _) with (2 := Y). intros s row (E1 & E2 & _). now split.
Qed.
Theorem chi2_run_thm mr rd st n o (l : nat -> list specx) f : 1 <= n -> n_iterations g <> 0 -> g_outdir g = true ->
  (forall r, r < n -> Forall (fun sx => plain_forest (fst sx)) (l r)) ->
  o_coadd_after o = true \/ (o_additive o = None /\ g_norm g = false /\ g_etacal g = false) ->
  finishes n (fun r => fitting_c r o (l r)) f ->
  exists rows, snd (f 0) = Some (concat (map rows (seq 0 n))) /\
    forall r, r < n -> Forall2 (fun s row => about r s row /\
      forall hs tables q, (s_sscale s <= 0)%Qc -> zero_is_masked s ->
        spec_write mr rd st s = Ok hs -> length hs = length (fw (s_f s)) -> hs <> [] ->
        Forall2 (fun h t => delta_weight h (fst t) (snd t)) hs tables ->
        r_chi2 row = Fin q -> q = SpecChi2Run.total tables) (snd (fst (fst (f r)))) (filter r_valid (rows r)).
Proof.
  intros Hn Hi Ho P Cu H. destruct (rows_thm n o l f Hn Hi Ho H) as (rows & A & B & C). exists rows. split; [exact A|].
  intros r Hr. destruct (C r Hr) as (_ & Y & Z). specialize (Z (P r Hr) Cu). refine (Forall2_both _ _ _ _ _ _ Z Y).
  intros s row (V & G1 & G2 & G3) (E1 & E2 & _). split; [exact E1|]. intros hs tables q H1 H2 H3 H4 H5 H6 H7.
  rewrite E2 in H7. eapply squares_thm; [exact G3|exact V|exact G1|exact H1|exact G2|exact H2|exact H3|exact H4|exact H5|exact H6|exact H7].
Qed.

(** ** the program of the other properties *)
Definition files_ok (o : fitopts) : fitopts := mkOpts (o_meanflux o) (o_varlss o) (o_additive o) (o_coadd_after o) (fun _ => true) true.
Theorem same_program_thm n o (l : nat -> list specx) f : 1 <= n ->
  finishes n (fun r => fitting_c r o (l r)) f ->
  finishes n (fun r => fitting r (mkOpts (o_meanflux o) (o_varlss o) (o_additive o) (o_coadd_after o) (fun _ => true) true) (l r)) (fun r => fst (f r)).
Proof.
  intros Hn H. destruct (parts n o l f Hn H) as (y & Fy & rs & _ & Ef). clear H.
  apply (finishes_peq n (fun r => pbind (steps r o (l r)) (fun x => let '(t, l1, v, log) := x in pbind (save_catalog g r (files_ok o) l1) (fun _ => Ret (t, v, log))))).
  - intros r Hr. unfold continuum_fitting, fit_steps.
    eapply peq_trans; [apply pbind_assoc|]. apply peq_bind2. intros [mf t0]. eapply peq_trans; [apply pbind_assoc|]. apply peq_bind2. intros [[t l1] log].
    cbv zeta. eapply peq_trans; [apply pbind_assoc|]. cbn [o_additive o_coadd_after]. apply peq_bind2. intro v1. eapply peq_trans; [apply pbind_assoc|].
    apply peq_bind2. intro v2. apply peq_refl.
  - unfold finishes in *. rewrite (spmd_bind n _ _ y Fy).
    rewrite (spmd_ext n _ (fun r => pbind (save_catalog g r (files_ok o) (snd (fst (fst (y r))))) (fun _ => Ret (fst (f r))))).
    2:{ intros r Hr. rewrite (Ef r Hr). now destruct (y r) as [[[t l1] v] log]. }
    unfold save_catalog. destruct (g_outdir g).
    + cbn [o_rows files_ok o_catalog negb pbind]. rewrite spmd_allreduce by exact Hn.
      rewrite (spmd_ext n _ (fun r => Ret (fst (f r)))); [apply spmd_ret|]. intros r _. now rewrite andb_false_r.
    + apply spmd_ret.
Qed.
End Run.
