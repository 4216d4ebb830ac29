(** The qsonic-calib run. *)
From Coq Require Import ZArith String List Bool Arith Lia Qcanon Field Permutation.
From Verif Require Import Num NpList NpListFacts Exn Dict Mpi ModelMpiUtils ModelSpectrum ModelDelta ModelStack ModelSubsample ModelVarFit ModelFitter
  ModelCatalog ModelIO ModelPipeline ModelCalib SpecCatalog SpecVarFit SpecCalib SpecMpi SpecFinal.
From Verif Require Import ProofCatalog ProofCoadd ProofStack ProofVarFit3 ProofVarFit4 ProofLock ProofSafe ProofFitter ProofPipeline2 ProofCalib ProofCalib2 ProofCalib3.
Import ListNotations.
Local Open Scope nat_scope.

Lemma together_done {V A} n (p : nat -> prog V A) Q : together n p Q -> together n p (fun f => finishes n p f /\ Q f).
Proof.
  unfold together, finishes. destruct (spmd n p) as [l| |]; try easy. intros [H|[H|(f & E & H)]]; [now left|right; now left|].
  right. right. exists f. subst l. auto.
Qed.
Lemma finishes_unique {V A} n (p : nat -> prog V A) f g : finishes n p f -> finishes n p g -> forall r, r < n -> f r = g r.
Proof.
  unfold finishes. intros H1 H2 r Hr. rewrite H1 in H2.
  assert (map (fun r => Finished (f r)) (seq 0 n) = map (fun r => Finished (g r)) (seq 0 n)) as E by congruence.
  apply (f_equal (fun l => nth r l (Finished (f r)))) in E.
  rewrite (map_nth (fun r => Finished (f r))) in E. rewrite (nth_indep _ _ (Finished (g r))) in E by (rewrite map_length, seq_length; exact Hr).
  rewrite (map_nth (fun r => Finished (g r))), seq_nth in E by exact Hr. cbn in E. congruence.
Qed.

Section Run.
Variable ang2pix : Z -> num -> num -> Z.
Variables (np nq : nat) (nsqrt : num -> num) (cholesky : list (list Qc) -> bool)
  (curve_fit : list Qc -> list Qc -> list num -> errors -> option (list num * list num))
  (spline : list Qc -> list num -> list num -> option (list num)).
Variable y : calworld.
Variable n : nat.
Hypothesis Hn : 1 <= n.
Notation run := (calib_run ang2pix np nq nsqrt cholesky curve_fit spline y).

Lemma safe_access r k : safe (access y r k). Proof. unfold access. now destruct (_ && _). Qed.
Lemma safe_lss_item d : safe (lss_item d). Proof. unfold lss_item. safe. Qed.

Notation calib_output := (calib_output np nq nsqrt cholesky curve_fit spline y n).
Lemma calib_together : together n (fun r => run r n) calib_output.
Proof.
  unfold calib_run.
  eapply (together_bind n); [exact Hn| |].
  { apply together_lift; [reflexivity|]. apply (parse_together n (calib_parse y) (fun _ => true)); [exact Hn|].
    intro m. unfold calib_parse. now destruct (y_parse y). }
  intros fa (a & Ha & _ & Hfa).
  assert (y_parse y = CalParsed a) as Ha' by (unfold calib_parse in Ha; destruct (y_parse y); congruence).
  apply (together_bind n _ _ (fun _ => True)); [exact Hn| |].
  { apply together_local; [exact Hn| |easy]. intros r Hr. now destruct (_ && _). }
  intros _ _.
  apply (together_bind n _ _ (fun f => forall r, r < n -> calib_fitter a r n = Ok (f r))); [exact Hn| |].
  { apply together_local; [exact Hn| |].
    - intros r Hr. unfold calib_fitter. now destruct (Z.ltb _ _).
    - intros g Hg r Hr. rewrite <- (Hg r Hr). now rewrite (Hfa r Hr). }
  intros v0 Hv0.
  apply (together_bind n _ _ (fun f => exists ids, (forall i, id_in i ids = true <-> removed y a i) /\ forall r, r < n -> f r = ids)); [exact Hn| |].
  { apply together_ext with (fun r => removal_list ang2pix y a r); [|now apply removal_together].
    intros r Hr. now rewrite (Hfa r Hr). }
  intros fids (ids & Hids & Hfids).
  eapply (together_bind n); [exact Hn|apply read_together; exact Hn|]. intros ll (files & Hfiles & Hll).
  set (D := fun r => filter (is_kept a ids) (concat (ll r))).
  assert (forall r, r < n -> rank_deltas y a n r (D r)) as HD.
  { intros r Hr. exists files, (ll r), (is_kept a ids). split; [exact Hfiles|]. split; [now apply Hll|].
    split; [now apply kept_wanted|reflexivity]. }
  cbv zeta.
  apply (together_bind n _ _ (fun f => forall r, r < n -> rbind (rseq (map lss_item (D r))) (fun items => vfit_add_all items (v0 r)) = Ok (f r))); [exact Hn| |].
  { apply together_local; [exact Hn| |].
    - intros r Hr. apply safe_bind; [apply safe_rseq_map, safe_lss_item|]. intro. apply safe_vfit_add_all.
    - intros g Hg r Hr. rewrite <- (Hg r Hr). unfold D. now rewrite (Hfa r Hr), (Hfids r Hr). }
  intros v1 Hv1.
  assert (exists nw, calib_bins a = Z.of_nat nw /\ forall r, r < n -> v0 r = vfit_init (k_w1 a) (k_w2 a) nw (k_nv a) (k_edges a) None (k_usecov a) r n) as (nw & Hnw & Ev0).
  { exists (Z.to_nat (calib_bins a)). pose proof (Hv0 0 ltac:(lia)) as H0. unfold calib_fitter in H0. fold (calib_bins a) in H0.
    destruct (Z.ltb_spec (calib_bins a) 0); [discriminate|]. split; [lia|]. intros r Hr. specialize (Hv0 r Hr).
    unfold calib_fitter in Hv0. fold (calib_bins a) in Hv0. destruct (Z.ltb_spec (calib_bins a) 0); [lia|]. congruence. }
  assert (forall r, r < n -> fresh (v1 r) /\ shape (v1 r) = shape (v0 0)) as Hfresh.
  { intros r Hr. specialize (Hv1 r Hr). destruct (rseq (map lss_item (D r))) as [items|]; [|discriminate]. cbn [rbind] in Hv1.
    rewrite (Ev0 r Hr) in Hv1. destruct (add_all_fresh _ _ _ (init_fresh _ _ _ _ _ _ _ _ _) Hv1) as [F Sh]. split; [exact F|].
    rewrite Sh, (Ev0 0) by lia. reflexivity. }
  assert (forall r, r < n -> v_nw (v1 r) = nw) as Enw.
  { intros r Hr. destruct (Hfresh r Hr) as [_ Sh]. rewrite (Ev0 0) in Sh by lia. unfold shape in Sh. cbn [v_nw vfit_init] in Sh. congruence. }
  set (fitp := fun r => vfit_fit np nq nsqrt cholesky curve_fit spline (v1 r) 2 (repeat [Fin (fq 1 10); n1] (v_nw (v1 r))) true).
  apply (together_bind n _ _ (fun f => finishes n fitp f)); [exact Hn| |].
  { apply together_lift; [reflexivity|]. eapply together_weaken; [|apply together_done with (Q := fun _ => True)]; [now intros f [H _]|].
    unfold fitp. apply together_ext with (fun r => vfit_fit np nq nsqrt cholesky curve_fit spline (v1 r) 2 (repeat [Fin (fq 1 10); n1] nw) true).
    { intros r Hr. now rewrite Enw. }
    eapply together_weaken; [|exact (fit_together np nq nsqrt cholesky curve_fit spline n v1 (shape (v0 0)) 2 _ true Hn Hfresh)]. easy. }
  intros fr Hfr.
  apply together_ext with (fun r =>
    pbind (of_res (rbind (access y r 0) (fun _ => rbind (access y r 1) (fun _ => access y r 2)))) (fun _ =>
    pbind (stack_fluxes y a (D r)) (fun s =>
    pbind (of_res (access y r 3)) (fun _ =>
    Ret (on_root r [VarStats (fst (fr r)) (k_minsnr a) (k_maxsnr a); VarFunc (v_wave (fst (fr r))) (fst (snd (fr r))) (snd (snd (fr r)));
                     StackedFlux (fst s) (snd s)]))))).
  { intros r Hr. unfold D. rewrite (Hfa r Hr), (Hfids r Hr). destruct (fr r) as [v [p s]]. reflexivity. }
  apply (together_bind n _ _ (fun _ => True)); [exact Hn| |].
  { apply together_local; [exact Hn| |easy]. intros r Hr. apply safe_bind; [apply safe_access|]. intro.
    apply safe_bind; [apply safe_access|]. intro. apply safe_access. }
  intros _ _.
  eapply (together_bind n); [exact Hn|apply stack_together; exact Hn|]. intros s (HD0 & Hs).
  apply (together_bind n _ _ (fun _ => True)); [exact Hn| |].
  { apply together_local; [exact Hn| |easy]. intros r Hr. apply safe_access. }
  intros _ _. apply together_ret.
  exists a, D, (fst (fr 0)), (fst (snd (fr 0))), (snd (snd (fr 0))), (fst (s 0)), (snd (s 0)).
  split; [now split|]. split; [exact HD0|]. split.
  { split; [|reflexivity]. intros r Hr. unfold on_root. destruct (Nat.eqb_spec r 0); [lia|reflexivity]. }
  split.
  - intros nw' Enw' Hnw1 Hw He Hv Hspl. assert (nw' = nw) as -> by lia.
    destruct (fit_step np nq nsqrt cholesky curve_fit spline n Hn a nw v0 v1 D Ev0 Hv1 Hw Hnw1 He Hv Hspl) as (vs & C & E).
    fold fitp in E. cbv zeta in E. cbv zeta.
    set (res := fit_result _ _ _ _ _ _ _ _ _ _ _ _ _ _ _ _ _ _ _) in E |- *.
    destruct res as [pr|x].
    2:{ exfalso. unfold finishes in Hfr. rewrite Hfr in E. clear - E Hn. destruct n; [lia|]. cbn in E. discriminate. }
    pose proof (finishes_unique n fitp fr _ Hfr E) as U. rewrite (U 0) by lia. cbn [fst snd].
    destruct (C 0 ltac:(lia)) as (_ & _ & Wv & _ & _ & Sh). split; [|split; [exact Sh|now destruct pr]].
    rewrite Wv. now apply centers_map.
  - intros step P W H. cbn beta. now apply Hs.
Qed.
End Run.
