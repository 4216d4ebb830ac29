(** The qsonic-calib run: the steps on all ranks. *)
From Coq Require Import ZArith String List Bool Arith Lia Qcanon Field Permutation.
From Verif Require Import Num NpList NpListFacts Exn Dict Mpi ModelMpiUtils ModelSpectrum ModelDelta ModelStack ModelSubsample ModelVarFit ModelFitter
  ModelCatalog ModelIO ModelPipeline ModelCalib SpecCatalog SpecVarFit SpecCalib SpecMpi SpecFinal.
From Verif Require Import ProofCatalog ProofCoadd ProofStack ProofVarFit3 ProofVarFit4 ProofLock ProofSafe ProofFitter ProofPipeline2 ProofCalib ProofCalib2.
Import ListNotations.
Local Open Scope nat_scope.

Lemma repeat_repr m : repeat n0 m = repr m (fun _ => 0%Qc).
Proof.
  unfold repr. generalize 0. induction m as [|m IH]; intro s; [reflexivity|]. cbn [repeat seq map]. f_equal. apply IH.
Qed.

Section Run.
Variable ang2pix : Z -> num -> num -> Z.
Variables (min_num_pix min_num_qso : nat) (nsqrt : num -> num) (cholesky : list (list Qc) -> bool)
  (curve_fit : list Qc -> list Qc -> list num -> errors -> option (list num * list num))
  (spline : list Qc -> list num -> list num -> option (list num)).
Variable y : calworld.
Variable n : nat.
Hypothesis Hn : 1 <= n.

Lemma safe_the_file {A} (o : option A) : safe (the_file o). Proof. apply safe_of_option. Qed.
Lemma safe_read_catalog file m t k zmin zmax : safe file -> safe (read_quasar_catalog ang2pix file m t k zmin zmax).
Proof.
  intro H. destruct (read_quasar_catalog ang2pix file m t k zmin zmax) as [l|e] eqn:E; [exact I|].
  destruct (read_quasar_catalog_err _ _ _ _ _ _ _ _ E) as [->|(x & ->)]; [exact H|exact I].
Qed.

Lemma removal_together a : together n (fun r => removal_list ang2pix y a r)
  (fun f => exists ids, (forall i, id_in i ids = true <-> removed y a i) /\ forall r, r < n -> f r = ids).
Proof.
  unfold removal_list.
  apply (together_bind n _ _ (fun f => exists ids, (if k_remove a then y_ids y = Some ids else ids = Ids []) /\ forall r, r < n -> f r = ids)); [exact Hn| |].
  { destruct (k_remove a).
    - apply together_lift; [reflexivity|]. eapply together_weaken; [|apply fnc_bcast_together; [exact Hn|intros; apply safe_the_file]].
      intros f (ids & E & Hf). exists ids. split; [|exact Hf]. cbn in E. destruct (y_ids y); [cbn in E; congruence|discriminate].
    - apply together_ret. exists (Ids []). split; reflexivity. }
  intros f (ids & Hids & Hf).
  apply (together_bind n _ _ (fun f => exists cat, (if k_catalog a then exists rs, cat = Some rs /\
      read_quasar_catalog ang2pix (the_file (y_catalog y)) (k_mock a) false None n0 (Fin (zq 100)) = Ok rs else cat = None) /\
      forall r, r < n -> f r = cat)); [exact Hn| |].
  { destruct (k_catalog a).
    - apply (together_bind n _ _ (fun f => exists rs, read_quasar_catalog ang2pix (the_file (y_catalog y)) (k_mock a) false None n0 (Fin (zq 100)) = Ok rs /\
        forall r, r < n -> f r = rs)); [exact Hn| |].
      + apply together_lift; [reflexivity|]. apply fnc_bcast_together; [exact Hn|]. intros. apply safe_read_catalog, safe_the_file.
      + intros g (rs & E & Hg). apply together_ret. exists (Some rs). split; [now exists rs|]. intros r Hr. now rewrite Hg.
    - apply together_ret. exists None. split; reflexivity. }
  intros g (cat & Hcat & Hg).
  apply together_ext with (fun _ => of_res (add_removals y a ids cat)).
  { intros r Hr. now rewrite Hf, Hg. }
  apply together_same; [exact Hn|]. intros ids' E. exists ids'. split; [|reflexivity].
  exact (removal_spec ang2pix y a ids cat ids' Hids Hcat E).
Qed.

Lemma read_together : together n (fun r => read_all_deltas y r n)
  (fun f => exists files, y_glob y = Some files /\ forall r, r < n -> Forall2 (fun x c => y_read y r x = Some c) (block files n r) (f r)).
Proof.
  unfold read_all_deltas.
  apply (together_bind n _ _ (fun f => exists files, y_glob y = Some files /\ forall r, r < n -> f r = files)); [exact Hn| |].
  { apply together_lift; [reflexivity|]. eapply together_weaken; [|apply fnc_bcast_together; [exact Hn|intros; apply safe_the_file]].
    intros f (fs & E & Hf). exists fs. split; [|exact Hf]. cbn in E. destruct (y_glob y); [cbn in E; congruence|discriminate]. }
  intros f (files & E & Hf). apply together_local; [exact Hn| |].
  { intros r Hr. apply safe_rseq_map. intro. apply safe_the_file. }
  intros g Hg. exists files. split; [exact E|]. intros r Hr. specialize (Hg r Hr). rewrite (Hf r Hr), block_files in Hg.
  apply rseq_Forall2. exact Hg.
Qed.

(** ** the stack *)
Lemma safe_stack_delta w1 dw m d acc : safe (stack_delta w1 dw m d acc).
Proof. unfold stack_delta. safe. Qed.
Lemma stack_together a (l : nat -> list delta) :
  together n (fun r => stack_fluxes y a (l r))
    (fun f => (forall r, r < n -> l r <> []) /\
      forall step, (0 < step)%Qc -> (k_w1 a <= k_w2 a)%Qc -> 
        (forall r d, r < n -> In d (l r) -> y_dlambda y d = Some step /\ on_grid (k_w1 a) step d) ->
        forall r, r < n -> stack_of (k_w1 a) (k_w2 a) step (flat_map flux_pixels (concat (map l (seq 0 n)))) (fst (f r)) (snd (f r))).
Proof.
  unfold stack_fluxes.
  set (loc := fun r => rbind (rfirst (l r)) (fun d =>
                 rbind (of_option "KeyError: DELTA_LAMBDA" (y_dlambda y d)) (fun dw =>
                 let n := (qtrunc ((k_w2 a - k_w1 a) / dw)%Qc + 1)%Z in
                 if qeqb dw 0 then Err (OtherExn "ZeroDivisionError")
                 else if Z.ltb n 0 then Err (OtherExn "ValueError")
                 else
                 let n := Z.to_nat n in
                 rmap (pair n) (for_each (l r) (stack_delta (k_w1 a) dw n) (repeat n0 n, repeat n0 n))))).
  apply (together_bind n _ _ (fun f => forall r, r < n -> loc r = Ok (f r))); [exact Hn| |].
  { apply together_local; [exact Hn| |easy]. intros r Hr. unfold loc. safe. apply safe_stack_delta. }
  intros g Hg.
  apply together_ext with (fun r => Allreduce carr_sum (CArr (fst (snd (g r)))) (fun f' =>
    Allreduce carr_sum (CArr (snd (snd (g r)))) (fun e' =>
    Ret (linspace (k_w1 a) (k_w2 a) (fst (g r)), normalised (carr_of f') (carr_of e'))))).
  { intros r Hr. destruct (g r) as [m [f e]]. reflexivity. }
  apply together_allreduce; [exact Hn|]. apply together_allreduce; [exact Hn|]. apply together_ret.
  split.
  { intros r Hr C. specialize (Hg r Hr). unfold loc in Hg. rewrite C in Hg. discriminate. }
  intros step P W H. cbn [fst snd].
  assert (step <> 0)%Qc as Hne by now apply Qc_pos_neq.
  set (m := S (Z.to_nat (qtrunc ((k_w2 a - k_w1 a) / step)%Qc))).
  assert (0 <= qtrunc ((k_w2 a - k_w1 a) / step)%Qc)%Z as Hq0.
  { assert (0 <= (k_w2 a - k_w1 a) / step)%Qc as Hp by (apply Qcdiv_nonneg; [qlra|exact P]).
    unfold qtrunc. assert (qleb 0 ((k_w2 a - k_w1 a) / step)%Qc = true) as -> by now apply qleb_true.
    destruct (qfloor_spec ((k_w2 a - k_w1 a) / step)%Qc) as [_ Hf].
    assert (zq 0 < zq (qfloor ((k_w2 a - k_w1 a) / step)%Qc + 1))%Qc as L.
    { eapply Qcle_lt_trans; [exact Hp|]. rewrite zq_plus, zq_1. qlra. }
    rewrite zq_lt in L. lia. }
  assert (forall r, r < n -> g r = (m, (repr m (fun j => fsum (k_w1 a) step wflux (flat_map flux_pixels (l r)) j),
                                       repr m (fun j => fsum (k_w1 a) step f_weight (flat_map flux_pixels (l r)) j)))) as Eg.
  { intros r Hr. specialize (Hg r Hr). unfold loc in Hg. destruct (l r) as [|d0 l'] eqn:El; [discriminate|]. cbn [rfirst rbind] in Hg.
    rewrite <- El in *. destruct (H r d0 Hr) as [Ed _]; [rewrite El; now left|]. rewrite Ed in Hg. cbn [of_option rbind] in Hg. cbv zeta in Hg.
    assert (qeqb step 0 = false) as E0 by now apply qeqb_false. rewrite E0 in Hg.
    replace (Z.to_nat (qtrunc ((k_w2 a - k_w1 a) / step)%Qc + 1)) with m in Hg by (unfold m; lia).
    destruct (Z.ltb_spec (qtrunc ((k_w2 a - k_w1 a) / step)%Qc + 1) 0); [lia|].
    rewrite (repeat_repr m) in Hg.
    rewrite (stack_deltas_spec (k_w1 a) step m P) in Hg by (intros d Hd; exact (proj2 (H r d Hr Hd))).
    cbn [rmap] in Hg. injection Hg as Hg. rewrite <- Hg. f_equal. f_equal; apply repr_ext; intros; ring. }
  assert (forall (G : nat -> nat -> Qc) l' s, fold_left carr_sum (map (fun r => CArr (repr m (G r))) l') (CArr (repr m s))
          = CArr (repr m (fun b => s b + qsum (map (fun r => G r b) l'))%Qc)) as Hfold.
  { intros G l'. induction l' as [|r l' IH]; intro s; cbn [map fold_left].
    - f_equal. apply repr_ext. intros. cbn. ring.
    - unfold carr_sum at 2. cbn [carr_of]. unfold arr_sum.
      rewrite (map2_repr m s (G r) Qcplus) by reflexivity. rewrite IH. f_equal. apply repr_ext. intros. rewrite qsum_cons. ring. }
  assert (forall (p : arr * arr -> arr) (h : fluxpix -> Qc),
     (forall r, r < n -> p (snd (g r)) = repr m (fun j => fsum (k_w1 a) step h (flat_map flux_pixels (l r)) j)) ->
     fold_left carr_sum (map (fun r => CArr (p (snd (g r)))) (seq 1 (n - 1))) (CArr (p (snd (g 0))))
     = CArr (repr m (fun j => fsum (k_w1 a) step h (flat_map flux_pixels (concat (map l (seq 0 n)))) j))) as Htot.
  { intros p h Hp. rewrite Hp by lia.
    rewrite (map_ext_in _ (fun r => CArr (repr m (fun j => fsum (k_w1 a) step h (flat_map flux_pixels (l r)) j)))).
    2:{ intros r Hr. apply in_seq in Hr. now rewrite Hp by lia. }
    rewrite (Hfold (fun r j => fsum (k_w1 a) step h (flat_map flux_pixels (l r)) j)). f_equal. apply repr_ext. intros j _.
    assert (seq 0 n = 0 :: seq 1 (n - 1)) as -> by (clear - Hn; destruct n; [lia|]; cbn; now rewrite Nat.sub_0_r). cbn [map concat]. rewrite flat_map_app, fsum_app. f_equal.
    generalize (seq 1 (n - 1)). clear. intro s. induction s as [|r s IH]; [reflexivity|].
    cbn [map concat]. rewrite flat_map_app, fsum_app, qsum_cons, IH. reflexivity. }
  intros r Hr. unfold stack_of. fold m.
  rewrite (Htot fst wflux) by (intros q Hq; now rewrite Eg). rewrite (Htot snd f_weight) by (intros q Hq; now rewrite Eg).
  rewrite (Eg r Hr). cbn [fst carr_of].
  split; [|split].
  - unfold normalised. set (px := flat_map flux_pixels (concat (map l (seq 0 n)))).
    unfold repr. rewrite map2_map_l. apply map_ext. intro j. unfold mean_flux, fsum.
    set (q := filter _ px). change (npos (Fin (qsum (map f_weight q)))) with (qltb 0 (qsum (map f_weight q))).
    destruct (qltb 0 (qsum (map f_weight q))) eqn:E; [|reflexivity].
    rewrite ndiv_fin; [reflexivity|]. apply Qc_pos_neq. now apply qltb_true.
  - reflexivity.
  - intros k E. assert ((k_w2 a - k_w1 a) / step = zq (Z.of_nat k))%Qc as Ek by (rewrite E; field; exact Hne).
    assert (m = S k) as Em.
    { unfold m. rewrite Ek. f_equal. unfold qtrunc.
      assert (qleb 0 (zq (Z.of_nat k)) = true) as ->.
      { apply qleb_true. change 0%Qc with (zq 0). apply zq_le. lia. }
      destruct (qfloor_spec (zq (Z.of_nat k))) as [A B]. rewrite <- zq_1, <- zq_plus in B. rewrite zq_lt in B. rewrite zq_le in A. lia. }
    rewrite Em. unfold linspace. apply map_ext_in. intros j Hj. apply in_seq in Hj. rewrite E.
    replace (Z.of_nat (S k) - 1)%Z with (Z.of_nat k) by lia. destruct k as [|k].
    + assert (j = 0) as -> by lia. change (zq (Z.of_nat 0)) with 0%Qc. ring.
    + f_equal. f_equal. field. apply Qc_pos_neq. change 0%Qc with (zq 0). apply zq_lt. lia.
Qed.

(** ** the fit *)
Lemma fit_step a nw (v0 v1 : nat -> vfit) (l : nat -> list delta) (D := fun r => map lss_pixels (l r)) :
  (forall r, r < n -> v0 r = vfit_init (k_w1 a) (k_w2 a) nw (k_nv a) (k_edges a) None (k_usecov a) r n) ->
  (forall r, r < n -> rbind (rseq (map lss_item (l r))) (fun items => vfit_add_all items (v0 r)) = Ok (v1 r)) ->
  (k_w1 a < k_w2 a)%Qc -> 1 <= nw -> good_edges (k_nv a) (k_edges a) -> 1 <= k_nv a ->
  (forall x z w r, spline x z w = Some r -> length r = nw) ->
  let arms := concat (map D (seq 0 n)) in
  let T := tagged_pixels n (k_nv a * k_nv a) D in
  let guess := repeat [Fin (fq 1 10); n1] nw in
  let result := fit_result (k_w1 a) (k_w2 a) nw (k_nv a) (k_edges a) (k_usecov a) (k_nv a * k_nv a) eps arms T
                  min_num_pix min_num_qso nsqrt cholesky curve_fit spline 2 guess true in
  exists vs, (forall r, r < n -> complete (k_w1 a) (k_w2 a) nw (k_nv a) (k_edges a) (k_usecov a) (k_nv a * k_nv a) arms T (vs r)) /\
  spmd n (fun r => vfit_fit min_num_pix min_num_qso nsqrt cholesky curve_fit spline (v1 r) 2 (repeat [Fin (fq 1 10); n1] (v_nw (v1 r))) true)
  = Done (map (fun r => match result with Ok p => Finished (vs r, p) | Err x => Failed x end) (seq 0 n)).
Proof.
  intros H0 H1 Hw Hnw He Hv Hs arms T guess result.
  assert (1 <= subsamples None (k_nv a)) as Hsub by (cbn; nia).
  destruct (fit_all min_num_pix min_num_qso nsqrt cholesky curve_fit spline n (k_w1 a) (k_w2 a) nw (k_nv a) (k_edges a) None (k_usecov a) D 2 guess true
    Hn Hw Hnw He Hsub (or_intror eq_refl)) as (vs & C & E).
  { apply repeat_length. }
  { intros gg Hg. now apply repeat_spec in Hg as ->. }
  { exact Hs. }
  exists vs. split; [exact C|]. etransitivity; [|exact E].
  assert (forall r, r < n -> fit_ranks min_num_pix min_num_qso nsqrt cholesky curve_fit spline n (k_w1 a) (k_w2 a) nw (k_nv a) (k_edges a) None (k_usecov a) D 2 guess true r
    = vfit_fit min_num_pix min_num_qso nsqrt cholesky curve_fit spline (v1 r) 2 (repeat [Fin (fq 1 10); n1] (v_nw (v1 r))) true) as Er.
  { intros r Hr. specialize (H1 r Hr). rewrite (H0 r Hr) in H1. destruct (rseq (map lss_item (l r))) as [items|] eqn:Ei; [|discriminate].
    cbn [rbind] in H1. rewrite (items_calls _ _ Ei (add_all_lengths _ _ _ H1)) in H1. unfold fit_ranks. fold (D r) in H1. rewrite H1.
    cbn [of_res pbind]. destruct (add_all_fresh _ _ _ (init_fresh _ _ _ _ _ _ _ _ _) H1) as [_ Sh]. unfold shape in Sh.
    injection Sh as Sh _ _ _ _ _ _ _ _ _. cbn [v_nw vfit_init] in Sh. now rewrite Sh. }
  apply ProofMpi.spmd_ext. intros r Hr. symmetry. now apply Er.
Qed.
End Run.
