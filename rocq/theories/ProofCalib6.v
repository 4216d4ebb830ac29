(** The statements about qsonic-calib. *)
From Coq Require Import ZArith String List Bool Arith Lia Qcanon Field.
From Verif Require Import Num NpList NpListFacts Exn Dict Mpi ModelMpiUtils ModelSpectrum ModelDelta ModelStack ModelSubsample ModelVarFit ModelFitter
  ModelCatalog ModelIO ModelPipeline ModelCalib SpecCatalog SpecVarFit SpecCalib SpecMpi SpecFinal.
From Verif Require Import ProofMpi ProofLock ProofCalib ProofCalib2 ProofCalib3 ProofCalib4 ProofCalib5.
Import ListNotations.
Local Open Scope nat_scope.
Section Final.
Variable ang2pix : Z -> num -> num -> Z.
Variables (np nq : nat) (nsqrt : num -> num) (cholesky : list (list Qc) -> bool)
  (curve_fit : list Qc -> list Qc -> list num -> errors -> option (list num * list num))
  (spline : list Qc -> list num -> list num -> option (list num)).
Variable y : calworld.
Variable n : nat.
Hypothesis Hn : 1 <= n.
Notation run := (calib_run ang2pix np nq nsqrt cholesky curve_fit spline y).

Lemma calib_ends_together : together n (fun r => run r n)
    (fun files => exists a D, calib_sample y n a D /\ (forall r, r < n -> D r <> []) /\ forall r, 0 < r < n -> files r = []).
Proof.
  eapply together_weaken; [|exact (calib_together ang2pix np nq nsqrt cholesky curve_fit spline y n Hn)].
  intros f (a & D & v & fit & std & wave & flux & Hs & Hne & [F1 _] & _). now exists a, D.
Qed.
Lemma calib_variance a D files : calib_sample y n a D -> finishes n (fun r => run r n) files ->
  exists v fit std wave flux,
    files 0 = [VarStats v (k_minsnr a) (k_maxsnr a); VarFunc (v_wave v) fit std; StackedFlux wave flux] /\
    fit_output np nq nsqrt cholesky curve_fit spline n a D v fit std.
Proof.
  intros Hs Hf. destruct (calib_written ang2pix np nq nsqrt cholesky curve_fit spline y n Hn files a D Hf Hs) as (_ & v & fit & std & wave & flux & [_ F] & Ho & _).
  now exists v, fit, std, wave, flux.
Qed.
Lemma calib_stack a D files step : calib_sample y n a D -> finishes n (fun r => run r n) files ->
  (0 < step)%Qc -> (k_w1 a <= k_w2 a)%Qc ->
  (forall r d, r < n -> In d (D r) -> y_dlambda y d = Some step /\ on_grid (k_w1 a) step d) ->
  let m := Z.to_nat (qtrunc ((k_w2 a - k_w1 a) / step)%Qc) in
  let point (j : nat) := (k_w1 a + zq (Z.of_nat j) * step)%Qc in
  let sample := flat_map flux_pixels (concat (map D (seq 0 n))) in
  exists v fit std wave,
    files 0 = [VarStats v (k_minsnr a) (k_maxsnr a); VarFunc (v_wave v) fit std;
               StackedFlux wave (map (fun j => Fin (mean_flux (filter (around step (point j)) sample))) (seq 0 (S m)))] /\
    ((k_w2 a - k_w1 a = zq (Z.of_nat m) * step)%Qc -> wave = map point (seq 0 (S m))).
Proof.
  intros Hs Hf P W H m point sample.
  destruct (calib_written ang2pix np nq nsqrt cholesky curve_fit spline y n Hn files a D Hf Hs) as (_ & v & fit & std & wave & flux & [_ F] & _ & Ho).
  destruct (Ho step P W H) as (-> & _ & E). exists v, fit, std, wave. split; [exact F|]. exact (E m).
Qed.
Lemma last_map {A B} (f : A -> B) l x b c : last (map f (l ++ [x])) b = f x /\ last (l ++ [x]) c = x.
Proof. rewrite map_app. cbn [map]. now rewrite !last_last. Qed.
Lemma calib_labels a D files step : calib_sample y n a D -> finishes n (fun r => run r n) files ->
  (0 < step)%Qc -> (k_w1 a + step <= k_w2 a)%Qc ->
  (forall r d, r < n -> In d (D r) -> y_dlambda y d = Some step /\ on_grid (k_w1 a) step d) ->
  let m := Z.to_nat (qtrunc ((k_w2 a - k_w1 a) / step)%Qc) in
  let w := (k_w1 a + zq (Z.of_nat m) * step)%Qc in
  (w <> k_w2 a) ->
  exists v fit std wave flux,
    files 0 = [VarStats v (k_minsnr a) (k_maxsnr a); VarFunc (v_wave v) fit std; StackedFlux wave flux] /\
    length wave = S m /\ length flux = S m /\
    last wave 0%Qc = k_w2 a /\ (w < k_w2 a)%Qc /\
    last flux NaN = Fin (mean_flux (filter (around step w) (flat_map flux_pixels (concat (map D (seq 0 n)))))).
Proof.
  intros Hs Hf P W H m w Hw.
  destruct (calib_written ang2pix np nq nsqrt cholesky curve_fit spline y n Hn files a D Hf Hs) as (_ & v & fit & std & wave & flux & [_ F] & _ & Ho).
  assert (step <> 0)%Qc as Hne by now apply Qc_pos_neq.
  assert (k_w1 a <= k_w2 a)%Qc as W0 by qlra.
  destruct (Ho step P W0 H) as (Ef & Ew & _). fold m in Ef, Ew. exists v, fit, std, wave, flux. split; [exact F|].
  set (q := ((k_w2 a - k_w1 a) / step)%Qc) in *.
  assert (k_w2 a = k_w1 a + q * step)%Qc as E2 by (unfold q; field; exact Hne).
  assert (1 <= q)%Qc as Hq.
  { apply Qcnot_lt_le. intro C. assert (q * step < 1 * step)%Qc by (apply Qcmult_lt_compat_r; [exact P|exact C]). qlra. }
  assert ((zq (Z.of_nat m) <= q)%Qc /\ 1 <= m) as [Hm Hm1].
  { unfold m, qtrunc. assert (qleb 0 q = true) as -> by (apply qleb_true; assert (0 < 1)%Qc by reflexivity; qlra).
    destruct (qfloor_spec q) as [H1 H2]. assert (0 < qfloor q)%Z.
    { assert (zq 1 < zq (qfloor q + 1))%Qc as L by (rewrite zq_plus, zq_1; eapply Qcle_lt_trans; [exact Hq|exact H2]). rewrite zq_lt in L. lia. }
    rewrite Z2Nat.id by lia. split; [exact H1|lia]. }
  split; [rewrite Ew, map_length; apply seq_length|]. split; [rewrite Ef, map_length; apply seq_length|].
  rewrite Ew, Ef, seq_S. cbn [plus]. rewrite !map_app. cbn [map]. rewrite !last_last.
  split; [|split; [|reflexivity]].
  - replace (Z.of_nat (S m) - 1)%Z with (Z.of_nat m) by lia. field. clear - Hm1. destruct m; [lia|]. apply Qc_pos_neq. change 0%Qc with (zq 0). apply zq_lt. lia.
  - assert (w <= k_w2 a)%Qc as L.
    { unfold w. rewrite E2. apply Qcplus_le_compat; [apply Qcle_refl|]. apply Qcmult_le_compat_r; [exact Hm|]. now apply Qclt_le_weak. }
    destruct (Qcle_lt_or_eq _ _ L); [assumption|contradiction].
Qed.
End Final.

Lemma calib_halfway (x1 x2 wt1 wt2 : Qc) (y : calworld) (a : calargs) (d : delta) :
  k_w1 a = 0%Qc -> k_w2 a = zq 4 -> y_dlambda y d = Some 1%Qc ->
  d_wave d = [fq 3 2; fq 5 2] -> d_delta d = [Fin x1; Fin x2] -> d_weight d = [Fin wt1; Fin wt2] -> (0 < wt2)%Qc ->
  exists wave flux, spmd 1 (fun _ => stack_fluxes y a [d]) = Done [Finished (wave, flux)] /\
    nth 2 wave 0%Qc = zq 2 /\ map (fun x => this (nval x)) flux = [this 0; this 0; this (1 + x2); this 0; this 0]%Qc.
Proof.
  intros E1 E2 Ed Ew Ex Et P.
  exists (map (fun j => zq (Z.of_nat j)) (seq 0 5)), [n0; n0; Fin (1 + x2)%Qc; n0; n0].
  split; [|split; reflexivity].
  assert (spmd 1 (fun _ => stack_fluxes y a [d]) = spmd 1 (fun _ : nat =>
    Allreduce carr_sum (CArr [n0; n0; Fin ((1 + x2) * wt2)%Qc; n0; n0]) (fun f' =>
    Allreduce carr_sum (CArr [n0; n0; Fin wt2; n0; n0]) (fun e' =>
    Ret (map (fun j => zq (Z.of_nat j)) (seq 0 5), normalised (carr_of f') (carr_of e')))))) as ->.
  { apply spmd_ext. intros r _. unfold stack_fluxes. cbn [rfirst rbind]. rewrite Ed, E1, E2. cbn [of_option rbind].
    assert (pix_index 0 1 (fq 3 2) = 2%Z) as I1 by (vm_compute; reflexivity).
    assert (pix_index 0 1 (fq 5 2) = 2%Z) as I2 by (vm_compute; reflexivity).
    assert ((qtrunc ((zq 4 - 0) / 1) + 1)%Z = 5%Z) as I3 by (vm_compute; reflexivity).
    assert (qeqb 1 0 = false) as I4 by reflexivity.
    cbv zeta. rewrite I3, I4. cbn [for_each]. unfold stack_delta. rewrite Ew, Ex, Et. cbn [map combine length]. rewrite I1, I2.
    change (Z.to_nat 5) with 5. change (5 <? 0)%Z with false. cbv iota. cbn [Nat.eqb negb orb filter fst snd andb Z.leb Z.ltb Z.compare Z.of_nat Pos.of_succ_nat Pos.succ Pos.compare Pos.compare_cont map].
    cbn [fancy_add rbind rmap of_res pbind repeat].
    assert (forall u v : Qc, fancy_add [n0; n0; n0; n0; n0] [2%Z; 2%Z] [Fin u; Fin v] = Ok [n0; n0; Fin v; n0; n0]) as Fa.
    { intros u v. change (fancy_add [n0; n0; n0; n0; n0] [2%Z; 2%Z] [Fin u; Fin v]) with (Ok [n0; n0; Fin (0 + v); n0; n0]%Qc).
      now rewrite Qcplus_0_l. }
    change (nmul (nadd n1 (Fin x1)) (Fin wt1)) with (Fin ((1 + x1) * wt1)%Qc). change (nmul (nadd n1 (Fin x2)) (Fin wt2)) with (Fin ((1 + x2) * wt2)%Qc).
    rewrite !Fa. cbn [rbind rmap of_res pbind].
    assert (linspace 0 (zq 4) 5 = map (fun j => zq (Z.of_nat j)) (seq 0 5)) as -> by (vm_compute; repeat f_equal; now apply Qc_is_canon).
    reflexivity. }
  rewrite spmd_allreduce by lia. cbn [Nat.sub seq map fold_left]. rewrite spmd_allreduce by lia. cbn [Nat.sub seq map fold_left carr_of].
  rewrite spmd_ret. cbn [seq map]. do 3 f_equal.
  f_equal. unfold normalised. cbn [map2].
  assert (npos (Fin wt2) = true) as -> by now apply (proj2 (qltb_true 0 wt2)).
  rewrite ndiv_fin by now apply Qc_pos_neq.
  change (npos n0) with false. cbv iota. assert (((1 + x2) * wt2 / wt2)%Qc = (1 + x2)%Qc) as -> by (field; now apply Qc_pos_neq). reflexivity.
Qed.
