(** The coefficients in the chi2 catalog (C78): the run. *)
From Coq Require Import ZArith String List Bool Arith Lia Qcanon.
From Verif Require Import Num NpList NpListFacts Exn Dict ProofGroup Mpi ModelSpectrum ProofSpectrum1 ModelMasks ModelContinuum ModelStack ModelSubsample ModelVarFit ModelFitter ModelDelta ModelChi2 ModelChi2Run
  SpecSpectrum SpecMpi SpecFinal SpecChi2 SpecChi2Run SpecCoefs ProofMpi ProofMpi2 ProofLock ProofSafe ProofAttributes ProofRanks ProofRanks4 ProofPixels6 ProofFitter ProofFinal ProofChi2 ProofChi2Run ProofChi2Run2 ProofChi2Run3 ProofCoefs.
Import ListNotations.
Local Open Scope nat_scope.

Section Run.
Variable g : config.
Variable ev : interp -> Qc -> num.
Variable ev_stack : stacker -> Qc -> num.
Variable slope : Qc -> num.
Variable minimizer : interp -> interp -> interp -> interp -> spec -> num -> option minres.
Variable input_cont : spec -> option (Qc -> num).
Variable true_cont : spec -> Qc -> num.
Variable nsqrt : num -> num.
Variable uspline : list Qc -> list num -> list num -> option (list num).
Variable xs : list Qc.
Variable quad : list Qc -> Qc.
Variables (min_num_pix min_num_qso : nat) (cholesky : list (list Qc) -> bool)
  (curve_fit : list Qc -> list Qc -> list num -> errors -> option (list num * list num))
  (vspline : list Qc -> list num -> list num -> option (list num)).
Variable write_ok : string -> bool.
Variable iter_suffix : nat -> string.
Variable smooth : arr -> Qc -> arr.
Variable junk : nat -> num.
Variable dwave : Qc.
Notation steps := (fit_steps g ev ev_stack slope minimizer input_cont true_cont nsqrt uspline xs quad
      min_num_pix min_num_qso cholesky curve_fit vspline write_ok iter_suffix smooth junk dwave).
Notation fitting_c := (continuum_fitting_c g ev ev_stack slope minimizer input_cont true_cont nsqrt uspline xs quad
      min_num_pix min_num_qso cholesky curve_fit vspline write_ok iter_suffix smooth junk dwave).
Hypothesis Hg : g_model g = Picca.

Definition final_x (a b : specx) : Prop :=
  s_cat (fst b) = s_cat (fst a) /\ ((s_valid (fst b) = false /\ began g a b) \/ exists mf, holds (minimizer mf) b).
Lemma final_untouched a b c : final_x a b -> untouched b c -> final_x a c.
Proof.
  intros (A1 & [A2|(mf & A2)]) U.
  - destruct (ended_untouched g (fun _ _ _ _ _ => None) a b c (conj A1 (or_introl A2)) U) as (C1 & [C2|(? & ? & ? & ? & ? & ? & C2 & _)]); [|discriminate]. split; [exact C1|now left].
  - destruct (ended_untouched g (minimizer mf) a b c (conj A1 (or_intror A2)) U) as (C1 & [C2|C2]); (split; [exact C1|]); [now left|right; now exists mf].
Qed.
Lemma steps_x rank o l : n_iterations g <> 0 ->
  leaf (fun x => Forall2 final_x l (snd (fst (fst x))) /\ Forall2 (fun a b => kept_x a b /\ s_valid b = true) (valid_spectra (map fst (snd (fst (fst x))))) (snd (fst x))) (steps rank o l).
Proof.
  intro Hn. unfold fit_steps. apply leaf_bind_any. intros [mf t0]. cbn [fst snd].
  eapply leaf_bind; [apply (iterate_ended g ev ev_stack (ev mf) slope (minimizer mf) input_cont true_cont nsqrt uspline xs quad
    min_num_pix min_num_qso cholesky curve_fit vspline write_ok iter_suffix Hg rank t0 l Hn)|].
  intros [[t l1] log] F. cbn [fst snd] in F. cbv zeta. set (va := valid_spectra (map fst l1)).
  apply (leaf_bind (Forall2 kept_x va)).
  { destruct (o_additive o) as [file|].
    - apply leaf_bind_any. intro vl. apply leaf_res. intros v1 E. exact (noise_x ev smooth dwave _ _ _ _ E).
    - apply Forall2_refl. now repeat split. }
  intros v1 G1. apply (leaf_bind (Forall2 kept_x v1)).
  { destruct (o_coadd_after o).
    - apply leaf_res. intros v2 E. exact (coadd_x ev nsqrt smooth junk dwave _ _ _ E).
    - apply Forall2_refl. now repeat split. }
  intros v2 G2. cbn [leaf fst snd]. split.
  - apply (Forall2_weaken _ _ _ _) with (2 := F). intros a b (A1 & [A2|A2]); (split; [exact A1|]); [now left|right; now exists mf].
  - fold va. pose proof (valid_Forall (map fst l1)) as V. fold va in V. refine (Forall2_both _ _ _ _ _ _ V (Forall2_trans _ _ _ _ _ _ kept_x_trans G1 G2)).
    intros a b Va K. split; [exact K|]. destruct K as (_ & K & _). congruence.
Qed.
Lemma merge_x (l : list specx) : forall v, Forall2 (fun a b => kept_x a b /\ s_valid b = true) (valid_spectra (map fst l)) v -> Forall2 untouched l (merge l v).
Proof.
  induction l as [|[s c] l IH]; intros v F; cbn in F; [constructor|]. cbn [merge]. destruct (s_valid s) eqn:V.
  - inversion F as [|a b ? v' ((H1 & H2 & H3) & _) F']; subst. constructor; [|now apply IH]. now repeat split.
  - constructor; [apply untouched_refl|now apply IH].
Qed.
Lemma eye_size n : length (concat (eye n)) = n * n.
Proof.
  unfold eye. assert (forall l : list nat, length (concat (map (fun i => map (fun j => if Nat.eqb i j then n1 else n0) (seq 0 n)) l)) = length l * n) as H.
  { induction l as [|a l IH]; cbn; [reflexivity|]. rewrite app_length, map_length, seq_length, IH. reflexivity. }
  rewrite H. now rewrite seq_length.
Qed.
Lemma assign_same n v : length v = n -> assign n v = Ok v.
Proof. intro H. unfold assign. rewrite H, Nat.eqb_refl. reflexivity. Qed.

Theorem coefs_thm n o (l : nat -> list specx) f : answers_sized (g_order g) minimizer ->
  1 <= n -> n_iterations g <> 0 -> g_outdir g = true ->
  finishes n (fun r => fitting_c r o (l r)) f ->
  exists rows, snd (f 0) = Some (concat (map rows (seq 0 n))) /\
    forall r, r < n -> Forall2 (fun sx row => about r (fst sx) row /\
      (one_answer minimizer (s_cat (fst sx)) (r_x row) (r_xcov row) \/
       (r_valid row = false /\ start_values (g_order g) (fst sx) (r_x row) (r_xcov row)))) (l r) (rows r).
Proof.
  intros Hs Hn Hi Ho H.
  destruct (parts g ev ev_stack slope minimizer input_cont true_cont nsqrt uspline xs quad
      min_num_pix min_num_qso cholesky curve_fit vspline write_ok iter_suffix smooth junk dwave n o l f Hn H) as (y & Fy & rs & Fr & Ef). clear H. rewrite Ho in Fr.
  apply catalog_parts in Fr as (rows & R & _ & R0 & RN); [|exact Hn].
  pose proof (leaf_finishes n _ y (fun r x => Forall2 final_x (l r) (snd (fst (fst x))) /\
     Forall2 (fun a b => kept_x a b /\ s_valid b = true) (valid_spectra (map fst (snd (fst (fst x))))) (snd (fst x)))
    (fun r _ => steps_x r o (l r) Hi) Fy) as S0. clear Fy.
  exists rows. split; [rewrite (Ef 0 ltac:(lia)); exact R0|]. intros r Hr. destruct (S0 r Hr) as [S1 S2]. specialize (R r Hr). clear S0 R0 RN Ef.
  unfold entries in R. apply merge_x in S2. pose proof (Forall2_trans _ _ _ _ _ _ final_untouched S1 S2) as M. clear S1 S2.
  set (m := merge _ _) in *. clearbody m.
  revert R. generalize (rows r). induction M as [|a b la lb H M IH]; intros rw F; cbn in F; inversion F as [|e row le lr E F']; subst; constructor; [|now apply IH].
  clear IH M F F'. unfold chi2_row in E. cbn [e_spec e_xcov e_dof] in E.
  apply rbind_Ok in E as (msnr & _ & E). apply rbind_Ok in E as (snr & _ & E). apply rbind_Ok in E as (xx & Ex & E). apply rbind_Ok in E as (xcov & Exc & E).
  assert (eff_order g = g_order g) as EO by (unfold eff_order; now rewrite Hg). rewrite EO in *.
  injection E as <-. destruct H as (C & H). split; [unfold about; cbn; rewrite <- C; now repeat split|]. cbn [r_x r_xcov r_valid].
  destruct H as [(V & x0 & rest & X1 & X2 & X3)|(mf & cont & var & eta & s & a0 & mm & M1 & M2 & M3 & M4 & M5)].
  - right. split; [exact V|]. rewrite X2, assign_same in Ex by (cbn; now rewrite repeat_length). rewrite X3, assign_same in Exc by apply eye_size.
    exists x0, rest. split; [exact X1|]. split; [congruence|]. assert (xcov = concat (eye (S (g_order g)))) as -> by congruence. reflexivity.
  - left. destruct (Hs _ _ _ _ _ _ _ M1 M2) as [L1 L2]. rewrite M4, assign_same in Ex by exact L1. rewrite M5, assign_same in Exc by exact L2.
    exists mf, cont, var, eta, s, a0, mm. split; [exact M1|]. split; [exact M2|]. split; [congruence|]. split; congruence.
Qed.
End Run.
