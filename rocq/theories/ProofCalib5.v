(** When the qsonic-calib run finishes. *)
From Coq Require Import ZArith String List Bool Arith Lia Qcanon Field Permutation.
From Verif Require Import Num NpList NpListFacts Exn Dict Mpi ModelMpiUtils ModelSpectrum ModelDelta ModelStack ModelSubsample ModelVarFit ModelFitter
  ModelCatalog ModelIO ModelPipeline ModelCalib SpecCatalog SpecVarFit SpecCalib SpecMpi SpecFinal.
From Verif Require Import ProofCatalog ProofCoadd ProofStack ProofMpi ProofVarFit2 ProofVarFit3 ProofVarFit4 ProofLock ProofSafe ProofFitter ProofPipeline2 ProofCalib ProofCalib2 ProofCalib3 ProofCalib4.
Import ListNotations.
Local Open Scope nat_scope.

Definition succeeds {V A} n (p : nat -> prog V A) (Q : (nat -> A) -> Prop) : Prop := exists f, finishes n p f /\ Q f.
Section Rules.
Context {V : Type}.
Variable n : nat.
Hypothesis Hn : 1 <= n.
Lemma succeeds_bind {A B} (p : nat -> prog V A) (f : nat -> A -> prog V B) Q R :
  succeeds n p Q -> (forall g, Q g -> succeeds n (fun r => f r (g r)) R) -> succeeds n (fun r => pbind (p r) (f r)) R.
Proof.
  intros (g & Hg & HQ) H. destruct (H g HQ) as (h & Hh & HR). exists h. split; [|exact HR].
  unfold finishes. rewrite (spmd_bind _ _ _ _ Hg). exact Hh.
Qed.
Lemma succeeds_ret {A} (f : nat -> A) (Q : (nat -> A) -> Prop) : Q f -> succeeds n (fun r => @Ret V A (f r)) Q.
Proof. intro H. exists f. split; [|exact H]. apply spmd_ret. Qed.
Lemma succeeds_ext {A} (p q : nat -> prog V A) Q : (forall r, r < n -> p r = q r) -> succeeds n q Q -> succeeds n p Q.
Proof. intros H (f & Hf & HQ). exists f. split; [|exact HQ]. unfold finishes. now rewrite (spmd_ext n p q H). Qed.
Lemma succeeds_ok {A} (x : nat -> res A) (g : nat -> A) (Q : (nat -> A) -> Prop) :
  (forall r, r < n -> x r = Ok (g r)) -> Q g -> succeeds n (fun r => @of_res V A (x r)) Q.
Proof.
  intros H HQ. apply succeeds_ext with (fun r => Ret (g r)); [|now apply succeeds_ret]. intros r Hr. now rewrite H.
Qed.
Lemma succeeds_allreduce {A} op (v : nat -> V) (k : nat -> V -> prog V A) Q :
  (forall x, succeeds n (fun r => k r x) Q) -> succeeds n (fun r => Allreduce op (v r) (k r)) Q.
Proof.
  intro H. destruct (H (fold_left op (map v (seq 1 (n - 1))) (v 0))) as (f & Hf & HQ). exists f. split; [|exact HQ].
  unfold finishes. now rewrite spmd_allreduce by exact Hn.
Qed.
End Rules.
Lemma succeeds_lift {W V A} (inj : W -> V) (prj : V -> W) n (p : nat -> prog W A) Q :
  (forall w, prj (inj w) = w) -> succeeds n p Q -> succeeds n (fun r => lift inj prj (p r)) Q.
Proof. intros Hi (f & Hf & HQ). exists f. split; [|exact HQ]. unfold finishes. now rewrite lift_spmd. Qed.
Lemma succeeds_fnc {T} n msg (x : nat -> res T) a : 1 <= n -> x 0 = Ok a ->
  succeeds n (fun r => mpi_fnc_bcast true r msg (x r)) (fun f => forall r, f r = a).
Proof.
  intros Hn E. exists (fun _ => a). split; [|reflexivity]. unfold finishes.
  rewrite (spmd_ext n _ (fun r => Bcast (if Nat.eqb r 0 then Some a else None) (fun b => finish_bcast msg b))).
  - rewrite spmd_bcast by exact Hn. cbn. apply spmd_ret.
  - intros r Hr. unfold mpi_fnc_bcast. cbn [negb]. rewrite orb_false_r. destruct r; cbn; [now rewrite E|reflexivity].
Qed.

Section Run.
Variable ang2pix : Z -> num -> num -> Z.
Variables (np nq : nat) (nsqrt : num -> num) (cholesky : list (list Qc) -> bool)
  (curve_fit : list Qc -> list Qc -> list num -> errors -> option (list num * list num))
  (spline : list Qc -> list num -> list num -> option (list num)).
Variable y : calworld.
Variable n : nat.
Hypothesis Hn : 1 <= n.
Notation run := (calib_run ang2pix np nq nsqrt cholesky curve_fit spline y).

Variables (a : calargs) (D : nat -> list delta) (step : Qc) (nw : nat) (fit std : list (list num)).
Hypothesis Ha : y_parse y = CalParsed a.
Hypothesis HD : forall r, r < n -> rank_deltas y a n r (D r) /\ D r <> [].
Hypothesis Hmk : y_makedirs y = true.
Hypothesis Hwr : forall k, y_write y k = true.
Hypothesis Hids : k_remove a = true -> exists l, y_ids y = Some (Ids l).
Hypothesis Hcat : k_catalog a = true -> exists c,
  y_catalog y = Some c /\ columns_ok (k_mock a) false (colnames c) /\ unique_ids false (rows c) /\
  (exists r, In r (rows c) /\ z_selected 0 (zq 100) r) /\
  (k_bal a = true -> y_balcols y = true) /\
  (forall s ss, k_surveys a = Some (s :: ss) -> In "SURVEY"%string (colnames c)).
Hypothesis Hstep : (0 < step)%Qc.
Hypothesis Hd : forall r d, r < n -> In d (D r) ->
  y_dlambda y d = Some step /\ on_grid (k_w1 a) step d /\
  exists iv, d_ivar d = map Fin iv /\ length iv = length (d_wave d).
Hypothesis Hnw : calib_bins a = Z.of_nat nw.
Hypothesis Hnw1 : 1 <= nw.
Hypothesis Hw : (k_w1 a < k_w2 a)%Qc.
Hypothesis He : good_edges (k_nv a) (k_edges a).
Hypothesis Hnv : 1 <= k_nv a.
Hypothesis Hspl : forall x z w r, spline x z w = Some r -> length r = nw.
Hypothesis Hfit : let arms r := map lss_pixels (D r) in
  fit_result (k_w1 a) (k_w2 a) nw (k_nv a) (k_edges a) (k_usecov a) (k_nv a * k_nv a) eps (concat (map arms (seq 0 n)))
    (tagged_pixels n (k_nv a * k_nv a) arms) np nq nsqrt cholesky curve_fit spline 2 (repeat [Fin (fq 1 10); n1] nw) true = Ok (fit, std).

Lemma removal_succeeds : succeeds n (fun r => removal_list ang2pix y a r) (fun f => exists ids, forall r, f r = ids).
Proof.
  unfold removal_list.
  apply (succeeds_bind n _ _ (fun f => exists l, forall r, f r = Ids l)).
  { destruct (k_remove a) eqn:E.
    - destruct (Hids eq_refl) as (l & El). apply succeeds_lift; [reflexivity|].
      destruct (succeeds_fnc n "Error while reading remove_targetid_list." (fun _ => the_file (y_ids y)) (Ids l) Hn) as (f & Hf & HQ); [now rewrite El|].
      exists f. split; [exact Hf|]. now exists l.
    - apply succeeds_ret. now exists []. }
  intros f (l & Hf).
  apply (succeeds_bind n _ _ (fun f => exists cat, (k_catalog a = false -> cat = None) /\ forall r, f r = cat)).
  { destruct (k_catalog a) eqn:E.
    - destruct (Hcat eq_refl) as (c & Ec & Hc & Hu & (r0 & Hr0 & Hz) & _).
      destruct (proj2 (read_quasar_catalog_Ok_iff ang2pix (the_file (y_catalog y)) (k_mock a) false None 0%Qc (zq 100))) as (rs & Ers).
      { exists c. split; [now rewrite Ec|]. split; [exact Hc|]. split; [exact Hu|]. exists r0. split; [exact Hr0|]. split; [exact Hz|exact I]. }
      apply (succeeds_bind n _ _ (fun f => forall r, f r = rs)).
      + apply succeeds_lift; [reflexivity|]. apply (succeeds_fnc n _ (fun _ => _)); [exact Hn|exact Ers].
      + intros g Hg. apply succeeds_ret. exists (Some rs). split; [discriminate|]. intro. now rewrite Hg.
    - apply succeeds_ret. now exists None. }
  intros g (cat & Hn0 & Hg).
  assert (exists ids, add_removals y a (Ids l) cat = Ok ids) as (ids & Eids).
  { unfold add_removals. destruct cat as [rs|]; [|now eexists]. destruct (k_catalog a) eqn:E; [|now specialize (Hn0 eq_refl)].
    destruct (Hcat eq_refl) as (c & Ec & _ & _ & _ & Hb & Hs).
    assert (exists l1, (if k_bal a then if y_balcols y then concat_ids (Ids l) (map TARGETID (filter (is_bal y) rs)) else
       Err (QsonicExn "Input catalog is missing BAL columns.") else Ok (Ids l)) = Ok (Ids l1)) as (l1 & ->).
    { destruct (k_bal a); [rewrite (Hb eq_refl)|]; now eexists. }
    cbn [rbind]. destruct (k_surveys a) as [[|s ss]|]; [now eexists| |now eexists]. rewrite Ec.
    specialize (Hs s ss eq_refl). apply smem_In in Hs. rewrite Hs. now eexists. }
  apply (succeeds_ok n _ (fun _ => ids)); [|now exists ids]. intros r Hr. now rewrite Hf, Hg.
Qed.

Lemma finite_map q : finite_arr (map Fin q) = Ok q.
Proof.
  unfold finite_arr. assert (forallb nfinite (map Fin q) = true) as -> by (induction q; [reflexivity|exact IHq]).
  f_equal. rewrite map_map. cbn. apply map_id.
Qed.
Lemma lss_item_ok r d : r < n -> In d (D r) -> lss_item d = Ok (call_of (lss_pixels d)).
Proof.
  intros Hr Hin. destruct (Hd r d Hr Hin) as (_ & ((x & wt & Ex & _ & Lx & _) & _) & iv & Ei & Li).
  unfold lss_item. rewrite Ex, Ei, !finite_map. cbn [rbind]. f_equal. unfold call_of, lss_pixels. rewrite Ex, Ei, !map_map.
  cbn [l_wave l_delta l_ivar]. clear - Lx Li. revert x iv Lx Li. induction (d_wave d) as [|w l IH]; intros [|b x] [|c iv] Lx Li; try discriminate; [reflexivity|].
  cbn. injection Lx as Lx. injection Li as Li. specialize (IH x iv Lx Li). congruence.
Qed.
Lemma kept_same r ids ll files : r < n -> (forall i, id_in i ids = true <-> removed y a i) -> y_glob y = Some files ->
  Forall2 (fun x c => y_read y r x = Some c) (block files n r) ll -> filter (is_kept a ids) (concat ll) = D r.
Proof.
  intros Hr Hi Eg Hl. destruct (HD r Hr) as [(fs & cs & p & Eg' & Hc & Hp & ->) _].
  assert (fs = files) as -> by congruence.
  assert (ll = cs) as ->.
  { clear - Hl Hc. revert cs Hc. induction Hl as [|x c l ll H Hl IH]; intros cs Hc; inversion Hc; subst; [reflexivity|]. f_equal; [congruence|now apply IH]. }
  apply filter_ext. intro d. pose proof (kept_wanted y a ids Hi d) as K. specialize (Hp d).
  destruct (is_kept a ids d), (p d); try reflexivity; exfalso; [assert (false = true) by tauto|assert (false = true) by tauto]; discriminate.
Qed.

Lemma calib_finishes0 : exists files, finishes n (fun r => run r n) files.
Proof.
  assert (succeeds n (fun r => run r n) (fun _ => True)) as (f & Hf & _); [|now exists f].
  unfold calib_run.
  apply (succeeds_bind n _ _ (fun f => forall r, f r = a)).
  { apply succeeds_lift; [reflexivity|]. exists (fun _ => a). split; [|reflexivity]. unfold finishes, calib_parse. rewrite Ha.
    rewrite (spmd_ext n _ (fun r => Bcast (if Nat.eqb r 0 then Some a else None) (fun r => match r with None => Raise SysExit | Some v => Ret v end))).
    - rewrite spmd_bcast by exact Hn. cbn. apply spmd_ret.
    - intros r Hr. unfold mpi_parse. now destruct (Nat.eqb r 0). }
  intros fa Hfa.
  apply (succeeds_bind n _ _ (fun _ => True)).
  { apply (succeeds_ok n _ (fun _ => tt)); [|exact I]. intros r Hr. rewrite Hmk. cbn. now rewrite andb_false_r. }
  intros _ _.
  set (v0 := fun r => vfit_init (k_w1 a) (k_w2 a) nw (k_nv a) (k_edges a) None (k_usecov a) r n).
  apply (succeeds_bind n _ _ (fun f => forall r, f r = v0 r)).
  { apply (succeeds_ok n _ v0); [|reflexivity]. intros r Hr. rewrite Hfa. unfold calib_fitter. fold (calib_bins a).
    rewrite Hnw. destruct (Z.ltb_spec (Z.of_nat nw) 0); [lia|]. now rewrite Nat2Z.id. }
  intros fv0 Hfv0.
  apply (succeeds_bind n _ _ (fun f => exists ids, (forall i, id_in i ids = true <-> removed y a i) /\ forall r, f r = ids)).
  { apply succeeds_ext with (fun r => removal_list ang2pix y a r); [intros; now rewrite Hfa|].
    destruct removal_succeeds as (f & Hf & ids & Hi). exists f. split; [exact Hf|]. exists ids. split; [|exact Hi].
    pose proof (removal_together ang2pix y n Hn a) as T. unfold together in T. unfold finishes in Hf. rewrite Hf in T.
    destruct T as [(m & C)|[(e & _ & C)|(g & E & ids' & Hr & Hg)]].
    - apply in_map_iff in C as (? & C & _). discriminate.
    - exfalso. destruct n; [lia|]. discriminate.
    - pose proof (finishes_unique n (fun r => removal_list ang2pix y a r) f g Hf) as U.
      assert (f 0 = g 0) as E0 by (apply U; [unfold finishes; rewrite Hf; now rewrite E|lia]).
      rewrite Hi, Hg in E0 by lia. now rewrite E0. }
  intros fids (ids & Hi & Hfids).
  destruct (HD 0 ltac:(lia)) as [(files & _ & _ & Eg & _) _].
  apply (succeeds_bind n _ _ (fun f => forall r, r < n -> filter (is_kept a ids) (concat (f r)) = D r)).
  { unfold read_all_deltas. apply (succeeds_bind n _ _ (fun f => forall r, f r = files)).
    - apply succeeds_lift; [reflexivity|]. apply (succeeds_fnc n _ (fun _ => _)); [exact Hn|]. cbn. now rewrite Eg.
    - intros g Hg. 
      assert (forall r, r < n -> exists cs, rseq (map (fun f => the_file (y_read y r f)) (calib_files_of_rank files n r)) = Ok cs /\
                filter (is_kept a ids) (concat cs) = D r) as Hcs.
      { intros r Hr. destruct (HD r Hr) as [(fs & cs & p & Eg' & Hc & _) _]. assert (fs = files) as -> by congruence.
        exists cs. rewrite block_files. split; [now apply rseq_Forall2|]. exact (kept_same r ids cs files Hr Hi Eg Hc). }
      exists (fun r => match rseq (map (fun f => the_file (y_read y r f)) (calib_files_of_rank files n r)) with Ok cs => cs | Err _ => [] end).
      split.
      + unfold finishes. rewrite (spmd_ext n _ (fun r => Ret (match rseq (map (fun f => the_file (y_read y r f)) (calib_files_of_rank files n r)) with Ok cs => cs | Err _ => [] end))).
        * apply spmd_ret.
        * intros r Hr. rewrite Hg. destruct (Hcs r Hr) as (cs & -> & _). reflexivity.
      + intros r Hr. destruct (Hcs r Hr) as (cs & -> & E). exact E. }
  intros ll Hll. cbv zeta.
  set (arms := fun r => map lss_pixels (D r)).
  assert (1 <= subsamples None (k_nv a)) as Hsub by (cbn; nia).
  assert (forall r, r < n -> exists v, rbind (rseq (map lss_item (D r))) (fun items => vfit_add_all items (v0 r)) = Ok v) as Hadd.
  { intros r Hr. assert (rseq (map lss_item (D r)) = Ok (map call_of (arms r))) as ->.
    { assert (forall l, (forall d, In d l -> In d (D r)) -> rseq (map lss_item l) = Ok (map call_of (map lss_pixels l))) as K.
      { induction l as [|d l IH]; intro H; [reflexivity|]. cbn [map rseq]. rewrite (lss_item_ok r d Hr) by (apply H; now left).
        cbn [rbind]. rewrite IH by (intros; apply H; now right). reflexivity. }
      now apply K. }
    cbn [rbind]. destruct (rank_state_ok (k_w1 a) (k_w2 a) nw (k_nv a) (k_edges a) (k_usecov a) (subsamples None (k_nv a)) Hnw1 He Hsub r n (arms r)) as (s & Es & _).
    eexists. exact Es. }
  apply (succeeds_bind n _ _ (fun f => forall r, r < n -> rbind (rseq (map lss_item (D r))) (fun items => vfit_add_all items (v0 r)) = Ok (f r))).
  { exists (fun r => match rbind (rseq (map lss_item (D r))) (fun items => vfit_add_all items (v0 r)) with Ok v => v | Err _ => v0 0 end).
    split.
    - unfold finishes. rewrite (spmd_ext n _ (fun r => Ret (match rbind (rseq (map lss_item (D r))) (fun items => vfit_add_all items (v0 r)) with Ok v => v | Err _ => v0 0 end))).
      + apply spmd_ret.
      + intros r Hr. rewrite Hfa, Hfids, Hll, Hfv0 by exact Hr. destruct (Hadd r Hr) as (v & ->). reflexivity.
    - intros r Hr. now destruct (Hadd r Hr) as (v & ->). }
  intros v1 Hv1.
  destruct (fit_step np nq nsqrt cholesky curve_fit spline n Hn a nw v0 v1 D (fun _ _ => eq_refl) Hv1 Hw Hnw1 He Hnv Hspl) as (vs & C & E).
  cbv zeta in E, Hfit. rewrite Hfit in E.
  apply (succeeds_bind n _ _ (fun f => forall r, f r = (vs r, (fit, std)))).
  { apply succeeds_lift; [reflexivity|]. exists (fun r => (vs r, (fit, std))). split; [exact E|reflexivity]. }
  intros fr Hfr.
  apply succeeds_ext with (fun r =>
    pbind (of_res (rbind (access y r 0) (fun _ => rbind (access y r 1) (fun _ => access y r 2)))) (fun _ =>
    pbind (stack_fluxes y a (D r)) (fun s =>
    pbind (of_res (access y r 3)) (fun _ =>
    Ret (on_root r [VarStats (vs r) (k_minsnr a) (k_maxsnr a); VarFunc (v_wave (vs r)) fit std; StackedFlux (fst s) (snd s)]))))).
  { intros r Hr. rewrite Hfr, Hfa, Hfids, Hll by exact Hr. reflexivity. }
  assert (forall r k, access y r k = Ok tt) as Hacc.
  { intros r k. unfold access. rewrite Hwr. cbn. now rewrite andb_false_r. }
  apply (succeeds_bind n _ _ (fun _ => True)).
  { apply (succeeds_ok n _ (fun _ => tt)); [|exact I]. intros r Hr. now rewrite !Hacc. }
  intros _ _. apply (succeeds_bind n _ _ (fun _ => True)).
  - unfold stack_fluxes.
    set (m := Z.to_nat (qtrunc ((k_w2 a - k_w1 a) / step)%Qc + 1)).
    set (px := fun r => flat_map flux_pixels (D r)).
    apply (succeeds_bind n _ _ (fun f => True)).
    + apply (succeeds_ok n _ (fun r => (m, (repr m (fun j => 0 + fsum (k_w1 a) step wflux (px r) j)%Qc, repr m (fun j => 0 + fsum (k_w1 a) step f_weight (px r) j)%Qc)))); [|exact I].
      intros r Hr. destruct (HD r Hr) as [_ Hne]. destruct (D r) as [|d0 l'] eqn:El; [now destruct Hne|]. cbn [rfirst rbind].
      assert (In d0 (D r)) as Hin by (rewrite El; now left). unfold px. rewrite <- El. destruct (Hd r d0 Hr Hin) as (-> & _). cbn [of_option rbind]. cbv zeta.
      assert (qeqb step 0 = false) as -> by (apply qeqb_false; now apply Qc_pos_neq).
      assert (0 <= (k_w2 a - k_w1 a) / step)%Qc as Hp by (apply Qcdiv_nonneg; [qlra|exact Hstep]).
      destruct (Z.ltb_spec (qtrunc ((k_w2 a - k_w1 a) / step)%Qc + 1) 0) as [L|_].
      { exfalso. unfold qtrunc in L. assert (qleb 0 ((k_w2 a - k_w1 a) / step)%Qc = true) as Eq by now apply qleb_true. rewrite Eq in L.
        destruct (qfloor_spec ((k_w2 a - k_w1 a) / step)%Qc) as [_ Hf].
        assert (zq 0 < zq (qfloor ((k_w2 a - k_w1 a) / step)%Qc + 1))%Qc as L'.
        { eapply Qcle_lt_trans; [exact Hp|]. rewrite zq_plus, zq_1. qlra. }
        rewrite zq_lt in L'. lia. }
      fold m. rewrite (repeat_repr m), (stack_deltas_spec (k_w1 a) step m Hstep) by (intros d Hdin; exact (proj1 (proj2 (Hd r d Hr Hdin)))).
      reflexivity.
    + intros g _. apply succeeds_ext with (fun r => Allreduce carr_sum (CArr (fst (snd (g r)))) (fun f' =>
        Allreduce carr_sum (CArr (snd (snd (g r)))) (fun e' =>
        Ret (linspace (k_w1 a) (k_w2 a) (fst (g r)), normalised (carr_of f') (carr_of e'))))).
      { intros r Hr. destruct (g r) as [q [f e]]. reflexivity. }
      apply succeeds_allreduce; [exact Hn|]. intro x. apply succeeds_allreduce; [exact Hn|]. intro z. now apply succeeds_ret.
  - intros s _. apply (succeeds_bind n _ _ (fun _ => True)).
    + apply (succeeds_ok n _ (fun _ => tt)); [|exact I]. intros r Hr. now rewrite Hacc.
    + intros _ _. now apply succeeds_ret.
Qed.
End Run.

Section Final.
Variable ang2pix : Z -> num -> num -> Z.
Variables (np nq : nat) (nsqrt : num -> num) (cholesky : list (list Qc) -> bool)
  (curve_fit : list Qc -> list Qc -> list num -> errors -> option (list num * list num))
  (spline : list Qc -> list num -> list num -> option (list num)).
Variable y : calworld.
Variable n : nat.
Hypothesis Hn : 1 <= n.
Notation run := (calib_run ang2pix np nq nsqrt cholesky curve_fit spline y).
Notation calib_output := (calib_output np nq nsqrt cholesky curve_fit spline y n).

Lemma together_finished {V A} m (p : nat -> prog V A) Q f : 1 <= m -> together m p Q -> finishes m p f ->
  exists g, (forall r, r < m -> g r = f r) /\ Q g.
Proof.
  intros Hm T Hf. pose proof Hf as Hf0. unfold together in T. unfold finishes in Hf. rewrite Hf in T. destruct T as [(x & C)|[(e & _ & C)|(g & E & HQ)]].
  - apply in_map_iff in C as (? & C & _). discriminate.
  - exfalso. destruct m; [lia|]. discriminate.
  - exists g. split; [|exact HQ]. intros r Hr. apply (finishes_unique m p g f); [|exact Hf0|exact Hr].
    unfold finishes. rewrite Hf. now rewrite E.
Qed.
Lemma rank_deltas_unique a r D D' : rank_deltas y a n r D -> rank_deltas y a n r D' -> D = D'.
Proof.
  intros (f & c & p & Ef & Hc & Hp & ->) (f' & c' & p' & Ef' & Hc' & Hp' & ->). assert (f' = f) as -> by congruence.
  assert (c' = c) as ->.
  { clear - Hc Hc'. revert c' Hc'. induction Hc as [|x b l ll H Hl IH]; intros cs Hc; inversion Hc; subst; [reflexivity|]. f_equal; [congruence|now apply IH]. }
  apply filter_ext. intro d. specialize (Hp d). specialize (Hp' d). destruct (p d), (p' d); try reflexivity; exfalso; assert (false = true) by tauto; discriminate.
Qed.
(** what a finished run has written, for its sample *)
Lemma calib_written files a D : finishes n (fun r => run r n) files -> calib_sample y n a D ->
  (forall r, r < n -> D r <> []) /\ exists v fit std wave flux,
  calib_file n a files v fit std wave flux /\ fit_output np nq nsqrt cholesky curve_fit spline n a D v fit std /\
  stack_output y n a D wave flux.
Proof.
  intros Hf [Ha HD]. destruct (together_finished n _ _ files Hn (calib_together ang2pix np nq nsqrt cholesky curve_fit spline y n Hn) Hf)
    as (g & Eg & a' & D' & v & fit & std & wave & flux & [Ha' HD'] & Hne & [F1 F2] & Ho & Hs).
  assert (a' = a) as -> by congruence.
  assert (forall r, r < n -> D' r = D r) as ED by (intros r Hr; now apply (rank_deltas_unique a r); auto).
  assert (forall B (h : nat -> list B) (k : nat -> list B), (forall r, r < n -> h r = k r) -> map h (seq 0 n) = map k (seq 0 n)) as Em.
  { intros B h k H. apply map_ext_in. intros r Hr. apply in_seq in Hr. apply H. lia. }
  split; [intros r Hr; rewrite <- ED by exact Hr; now apply Hne|].
  exists v, fit, std, wave, flux. split; [split|split].
  - intros r Hr. rewrite <- Eg by lia. now apply F1.
  - rewrite <- Eg by lia. exact F2.
  - intros nw H1 H2 H3 H4 H5 H6. specialize (Ho nw H1 H2 H3 H4 H5 H6). cbv zeta in Ho |- *.
    rewrite (Em _ (fun r => map lss_pixels (D' r)) (fun r => map lss_pixels (D r))) in Ho by (intros; now rewrite ED).
    assert (tagged_pixels n (k_nv a * k_nv a) (fun r => map lss_pixels (D' r)) = tagged_pixels n (k_nv a * k_nv a) (fun r => map lss_pixels (D r))) as <-; [|exact Ho].
    unfold tagged_pixels. f_equal. apply Em. intros r Hr. now rewrite ED.
  - intros step P W H. rewrite <- (Em _ D' D ED). apply Hs; [exact P|exact W|]. intros r d Hr. rewrite ED by exact Hr. now apply H.
Qed.
Lemma calib_finishes a D step nw fit std : calib_ok np nq nsqrt cholesky curve_fit spline y n a D step nw fit std ->
  exists files, finishes n (fun r => run r n) files.
Proof.
  intros [[Ha HD] Hne Hmk Hwr Hi Hc Hst Hd Hw Hw1 Hr He Hv Hsp Hf].
  apply (calib_finishes0 ang2pix np nq nsqrt cholesky curve_fit spline y n Hn a D step nw fit std); auto.
Qed.
(** a rank with no wanted delta *)
Lemma calib_idle a D r files : calib_sample y n a D -> r < n -> D r = [] -> ~ finishes n (fun r => run r n) files.
Proof. intros H Hr E Hf. now apply (proj1 (calib_written files a D Hf H) r Hr). Qed.

(** one number in the file, and removals from the catalog *)
Lemma calib_one_id a z files : y_parse y = CalParsed a -> k_remove a = true -> y_ids y = Some (OneId z) ->
  k_catalog a = true -> k_bal a = true \/ (exists s ss, k_surveys a = Some (s :: ss)) -> ~ finishes n (fun r => run r n) files.
Proof.
  intros Ha Hr Hz Hc Hb Hf.
  assert (together n (fun r => run r n) (fun _ => False)) as T.
  2:{ destruct (together_finished n _ _ files Hn T Hf) as (? & _ & []). }
  unfold calib_run. eapply (together_bind n); [exact Hn| |].
  { apply together_lift; [reflexivity|]. apply (parse_together n (calib_parse y) (fun _ => true)); [exact Hn|].
    intro m. unfold calib_parse. now destruct (y_parse y). }
  intros fa (a' & Ha' & _ & Hfa). assert (a' = a) as -> by (unfold calib_parse in Ha'; rewrite Ha in Ha'; congruence).
  apply (together_bind n _ _ (fun _ => True)); [exact Hn| |].
  { apply together_local; [exact Hn| |easy]. intros r _. now destruct (_ && _). }
  intros _ _. apply (together_bind n _ _ (fun _ => True)); [exact Hn| |].
  { apply together_local; [exact Hn| |easy]. intros r _. unfold calib_fitter. now destruct (Z.ltb _ _). }
  intros v0 _. apply (together_bind n _ _ (fun _ => False)); [exact Hn| |easy].
  apply together_ext with (fun r => removal_list ang2pix y a r); [intros r R; now rewrite (Hfa r R)|].
  unfold removal_list. rewrite Hr, Hc.
  apply (together_bind n _ _ (fun f => forall r, r < n -> f r = OneId z)); [exact Hn| |].
  { apply together_lift; [reflexivity|]. eapply together_weaken; [|apply fnc_bcast_together; [exact Hn|intros; apply safe_the_file]].
    intros f (ids & E & H). rewrite Hz in E. cbn in E. injection E as <-. exact H. }
  intros f Hf1. apply (together_bind n _ _ (fun f => exists rs, forall r, r < n -> f r = Some rs)); [exact Hn| |].
  { apply (together_bind n _ _ (fun f => exists rs, forall r, r < n -> f r = rs)); [exact Hn| |].
    - apply together_lift; [reflexivity|]. eapply together_weaken; [|apply fnc_bcast_together; [exact Hn|]].
      + intros g (rs & _ & H). now exists rs.
      + intros. apply safe_read_catalog, safe_the_file.
    - intros g (rs & H). apply together_ret. exists rs. intros r R. now rewrite H. }
  intros g (rs & Hg). apply together_ext with (fun _ => of_res (add_removals y a (OneId z) (Some rs))).
  { intros r R. now rewrite Hf1, Hg. }
  apply together_same; [exact Hn|]. intros ids E. unfold add_removals in E.
  destruct (k_bal a).
  - destruct (y_balcols y); discriminate.
  - cbn [rbind] in E. destruct Hb as [|(s & ss & Es)]; [discriminate|]. rewrite Es in E.
    destruct (match y_catalog y with Some c => smem "SURVEY" (colnames c) | None => false end); discriminate.
Qed.
End Final.
