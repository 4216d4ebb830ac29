(** Proofs about VarLSSFitter.fit. *)
From Coq Require Import ZArith String List Bool Arith Lia Qcanon Field.
From Verif Require Import Num NpList NpListFacts Exn Dict Mpi ProofMpi ModelSubsample ModelSpectrum ModelStack
  ProofMpi2 ProofCatalog ModelVarFit SpecStack SpecVarFit ProofCoadd ProofStack ProofVarFit ProofVarFit2 ProofVarFit3.
Import ListNotations.
Local Open Scope nat_scope.

Lemma centers_map a b n : 1 <= n ->
  centers a b n = map (bin_center a b n) (seq 0 n).
Proof.
  intro Hn. unfold centers, linspace. replace (Z.of_nat (S n) - 1)%Z with (Z.of_nat n) by lia.
  set (g := fun i : nat => (a + zq (Z.of_nat i) * ((b - a) / zq (Z.of_nat n)))%Qc).
  rewrite seq_S at 2. rewrite map_app. cbn [map]. rewrite removelast_last.
  replace (tl (map g (seq 0 (S n)))) with (map (fun i => g (S i)) (seq 0 n)).
  - rewrite map2_maps. apply map_ext. intro i. unfold g, bin_center.
    replace (zq (Z.of_nat (S i))) with (zq (Z.of_nat i) + 1)%Qc
      by (rewrite Nat2Z.inj_succ; unfold Z.succ; now rewrite zq_plus, zq_1).
    assert (fq 1 2 = 1 / (1 + 1))%Qc as -> by (apply Qc_is_canon; reflexivity).
    field. split; [|intro K; discriminate].
    apply Qc_pos_neq. change 0%Qc with (zq 0). apply zq_lt. lia.
  - cbn [seq map tl]. rewrite <- seq_shift, map_map. reflexivity.
Qed.

Section Fit.
Variables (w1 w2 : Qc) (nw nv : nat) (e : list Qc) (usecov : bool) (n : nat) (arms : list (list lsspix)) (T : list (nat * lsspix)).
Variables (np nq : nat) (nsqrt : num -> num) (cholesky : list (list Qc) -> bool)
  (curve_fit : list Qc -> list Qc -> list num -> errors -> option (list num * list num))
  (spline : list Qc -> list num -> list num -> option (list num)).
Notation fits := (wave_fits w1 w2 nw nv e usecov n eps arms T np nq nsqrt cholesky curve_fit).
Notation wfit := (wave_fit w1 w2 nw nv e usecov n eps arms T np nq nsqrt cholesky curve_fit).
Notation interp := (interpolated w1 w2 nw nv e usecov n eps arms T np nq nsqrt cholesky curve_fit spline).
Notation good := (good_wave w1 w2 nw nv e usecov n eps arms T np nq nsqrt cholesky curve_fit).

Notation fit_spec := (fit_result w1 w2 nw nv e usecov n eps arms T np nq nsqrt cholesky curve_fit spline).
Lemma smooth_col v npar guess j : complete w1 w2 nw nv e usecov n arms T v -> 1 <= nw -> 1 <= npar ->
  let fit := map (fitted npar) (fits guess) in let std := map (fitted_error npar) (fits guess) in
  let w := map npos (column 0 fit) in
  spline (select w (v_wave v)) (select w (column j fit)) (map (fun e => ndiv n1 e) (select w (column j std))) = interp guess j.
Proof.
  intros C Hnw Hp. cbv zeta. unfold wave_fits, column. rewrite !map_map.
  destruct C as (_ & _ & -> & _). rewrite centers_map by assumption. unfold select. rewrite !compress_map.
  unfold interpolated.
  assert (forall iw, npos (nth 0 (fitted npar (wfit (nth iw guess []) iw)) NaN) = good guess iw) as G.
  { intro iw. unfold good_wave, fitted. destruct (wfit (nth iw guess []) iw); [easy|]. destruct npar; [lia|]. reflexivity. }
  rewrite (filter_ext _ _ G). rewrite !map_map.
  f_equal; apply map_ext_in; intros iw Hi; apply filter_In in Hi; destruct Hi as [_ Hi]; unfold good_wave in Hi;
    unfold fitted, fitted_error; destruct (wfit (nth iw guess []) iw); easy.
Qed.

Lemma ratio_test f : 1 <= nw ->
  qltb (fq 2 5) (zq (Z.of_nat f) / zq (Z.of_nat nw))%Qc = Nat.ltb (2 * nw) (5 * f).
Proof.
  intro Hnw. assert (0 < zq (Z.of_nat nw))%Qc as P by (change 0%Qc with (zq 0); apply zq_lt; lia).
  assert (zq (Z.of_nat f) / zq (Z.of_nat nw) * zq (Z.of_nat nw) = zq (Z.of_nat f))%Qc as E
    by (field; apply Qc_pos_neq; assumption).
  assert (fq 2 5 * zq 5 = zq 2)%Qc as F by (apply Qc_is_canon; reflexivity).
  assert (zq (Z.of_nat (2 * nw)) = zq 2 * zq (Z.of_nat nw))%Qc as A by (rewrite Nat2Z.inj_mul; apply zq_mult).
  assert (zq (Z.of_nat (5 * f)) = zq 5 * zq (Z.of_nat f))%Qc as B by (rewrite Nat2Z.inj_mul; apply zq_mult).
  assert (0 < zq 5)%Qc as P5 by reflexivity.
  set (x := (zq (Z.of_nat f) / zq (Z.of_nat nw))%Qc) in *.
  destruct (Nat.ltb_spec (2 * nw) (5 * f)) as [H|H].
  - apply qltb_true. assert (zq (Z.of_nat (2 * nw)) < zq (Z.of_nat (5 * f)))%Qc as K by (apply zq_lt; lia).
    rewrite A, B, <- E in K. apply Qcnot_le_lt. intro L.
    apply (Qclt_not_le _ _ K). rewrite <- F. replace (fq 2 5 * zq 5 * zq (Z.of_nat nw))%Qc with (fq 2 5 * (zq 5 * zq (Z.of_nat nw)))%Qc by ring.
    replace (zq 5 * (x * zq (Z.of_nat nw)))%Qc with (x * (zq 5 * zq (Z.of_nat nw)))%Qc by ring.
    apply Qcmult_le_compat_r; [assumption|]. apply Qclt_le_weak. replace 0%Qc with (0 * zq (Z.of_nat nw))%Qc by ring. apply Qcmult_lt_compat_r; assumption.
  - apply qltb_false. assert (zq (Z.of_nat (5 * f)) <= zq (Z.of_nat (2 * nw)))%Qc as K by (apply zq_le; lia).
    rewrite A, B, <- E in K. apply Qcnot_lt_le. intro L. apply (Qcle_not_lt _ _ K). rewrite <- F.
    replace (fq 2 5 * zq 5 * zq (Z.of_nat nw))%Qc with (fq 2 5 * (zq 5 * zq (Z.of_nat nw)))%Qc by ring.
    replace (zq 5 * (x * zq (Z.of_nat nw)))%Qc with (x * (zq 5 * zq (Z.of_nat nw)))%Qc by ring.
    apply Qcmult_lt_compat_r; [|assumption]. replace 0%Qc with (0 * zq (Z.of_nat nw))%Qc by ring. apply Qcmult_lt_compat_r; assumption.
Qed.

Lemma fit_local_spec v npar guess smooth : complete w1 w2 nw nv e usecov n arms T v -> 1 <= nw -> npar = 1 \/ npar = 2 ->
  (forall x y w r, spline x y w = Some r -> length r = nw) ->
  fit_local np nq nsqrt cholesky curve_fit spline v npar guess smooth = fit_spec npar guess smooth.
Proof.
  intros C Hnw Hp Hl. unfold fit_local. rewrite (proj1 C).
  rewrite (rseq_all_ok _ (fun iw => match wfit (nth iw guess []) iw with
      | None => (true, (repeat n0 npar, repeat n0 npar)) | Some r => (false, r) end))
    by (intros iw Hi; apply in_seq in Hi; apply fit_bin_spec; [assumption|lia]).
  cbn [rbind]. replace (Nat.eqb nw 0) with false by (symmetry; apply Nat.eqb_neq; lia).
  rewrite ratio_test by assumption. rewrite !map_map, !count_map.
  unfold fit_result, wave_fits. rewrite !map_map, !count_map.
  assert (count (fun x => fst (match wfit (nth x guess []) x with
      | None => (true, (repeat n0 npar, repeat n0 npar)) | Some r => (false, r) end)) (seq 0 nw)
    = count (fun x => is_none (wfit (nth x guess []) x)) (seq 0 nw)) as ->
    by (apply count_ext; intro x; destruct (wfit (nth x guess []) x); reflexivity).
  destruct (Nat.ltb (2 * nw) _); [reflexivity|].
  rewrite (map_ext (fun x => fst (snd (match wfit (nth x guess []) x with
      | None => (true, (repeat n0 npar, repeat n0 npar)) | Some r => (false, r) end)))
      (fun x => fitted npar (wfit (nth x guess []) x))) by (intro x; destruct (wfit (nth x guess []) x); reflexivity).
  rewrite (map_ext (fun x => snd (snd (match wfit (nth x guess []) x with
      | None => (true, (repeat n0 npar, repeat n0 npar)) | Some r => (false, r) end)))
      (fun x => fitted_error npar (wfit (nth x guess []) x))) by (intro x; destruct (wfit (nth x guess []) x); reflexivity).
  destruct smooth; [|reflexivity].
  assert (1 <= npar) as Hp1 by lia.
  unfold smooth_fit_results. pose proof (smooth_col v npar guess 0 C Hnw Hp1) as S0. pose proof (smooth_col v npar guess 1 C Hnw Hp1) as S1'.
  unfold wave_fits in S0, S1'. cbv zeta in S0, S1'. rewrite !map_map in S0, S1'. rewrite S0, S1'.
  destruct Hp as [-> | ->]; cbn [Nat.eqb].
  - destruct (interp guess 0); reflexivity.
  - destruct (interp guess 0) as [a|] eqn:Ea; [|reflexivity]. cbn [of_option rbind].
    destruct (interp guess 1) as [b|] eqn:Eb; [|reflexivity]. cbn [of_option rbind].
    unfold zip2. apply Hl in Ea, Eb. rewrite Ea, Eb, Nat.eqb_refl. reflexivity.
Qed.
End Fit.

Lemma fit_all_from np nq nsqrt cholesky curve_fit spline size w1 w2 nw nv e nsub usecov (arms : nat -> list (list lsspix)) npar guess smooth :
  1 <= size -> (w1 < w2)%Qc -> 1 <= nw -> good_edges nv e -> 1 <= subsamples nsub nv -> npar = 1 \/ npar = 2 ->
  length guess = nw -> (forall g, In g guess -> length g = npar) ->
  (forall x y w r, spline x y w = Some r -> length r = nw) ->
  exists vs : nat -> vfit,
  (forall r, r < size -> complete w1 w2 nw nv e usecov (subsamples nsub nv) (concat (map arms (seq 0 size)))
        (tagged_pixels size (subsamples nsub nv) arms) (vs r) /\
        vfit_reset (vs r) = vfit_init w1 w2 nw nv e nsub usecov r size) /\
  spmd size (fit_ranks np nq nsqrt cholesky curve_fit spline size w1 w2 nw nv e nsub usecov arms npar guess smooth)
  = Done (map (fun r => match fit_result w1 w2 nw nv e usecov (subsamples nsub nv) eps (concat (map arms (seq 0 size)))
        (tagged_pixels size (subsamples nsub nv) arms) np nq nsqrt cholesky curve_fit spline npar guess smooth with
        | Ok a => Finished (vs r, a) | Err x => Failed x end) (seq 0 size)).
Proof.
  intros Hs Hw Hnw He Hn Hp Hg Hgl Hl.
  destruct (spmd_continue_from size w1 w2 nw nv e nsub usecov arms
    (fun _ v' => pbind (of_res (fit_local np nq nsqrt cholesky curve_fit spline v' npar guess smooth)) (fun r => Ret (v', r))) Hs Hw Hnw He Hn) as (vs & E & C).
  exists vs. split; [exact C|].
  transitivity (spmd size (fun r => pbind (collect size w1 w2 nw nv e nsub usecov arms r)
    (fun v' => pbind (of_res (fit_local np nq nsqrt cholesky curve_fit spline v' npar guess smooth)) (fun r => Ret (v', r))))).
  - apply spmd_ext. intros r Hr. unfold fit_ranks, collect.
    assert (vfit_init w1 w2 nw nv e nsub usecov r size = vfit_init w1 w2 nw nv e (Some (subsamples nsub nv)) usecov r size) as ->
      by (unfold subsamples; now destruct nsub).
    destruct (rank_state_ok w1 w2 nw nv e usecov (subsamples nsub nv) Hnw He Hn r size (arms r)) as (s & -> & _).
    cbn [of_res pbind]. unfold vfit_fit.
    assert ((Nat.eqb npar 1 || Nat.eqb npar 2) && Nat.eqb (length guess) (v_nw (fitter w1 w2 nw nv e usecov (concat (arms r)) (arms r) s))
           && forallb (fun g : list num => Nat.eqb (length g) npar) guess = true) as ->.
    { cbn [fitter v_nw]. rewrite Hg, Nat.eqb_refl, andb_true_r. apply andb_true_intro. split.
      - destruct Hp as [-> | ->]; reflexivity.
      - apply forallb_forall. intros g Hi. apply Nat.eqb_eq. now apply Hgl. }
    reflexivity.
  - rewrite E. destruct (fit_result w1 w2 nw nv e usecov (subsamples nsub nv) eps (concat (map arms (seq 0 size)))
        (tagged_pixels size (subsamples nsub nv) arms) np nq nsqrt cholesky curve_fit spline npar guess smooth) as [a|x] eqn:F.
    + rewrite <- (@spmd_ret vval). apply spmd_ext. intros r Hr.
      rewrite (fit_local_spec _ _ _ _ _ _ _ _ _ _ _ _ _ _ _ _ _ _ _ (proj1 (C r Hr)) Hnw Hp Hl), F. reflexivity.
    + rewrite (map_seq_const _ (Failed x)) by easy. rewrite <- (@spmd_raise vval) by assumption.
      apply spmd_ext. intros r Hr. rewrite (fit_local_spec _ _ _ _ _ _ _ _ _ _ _ _ _ _ _ _ _ _ _ (proj1 (C r Hr)) Hnw Hp Hl), F. reflexivity.
Qed.
Lemma fit_all np nq nsqrt cholesky curve_fit spline size w1 w2 nw nv e nsub usecov (arms : nat -> list (list lsspix)) npar guess smooth :
  1 <= size -> (w1 < w2)%Qc -> 1 <= nw -> good_edges nv e -> 1 <= subsamples nsub nv -> npar = 1 \/ npar = 2 ->
  length guess = nw -> (forall g, In g guess -> length g = npar) ->
  (forall x y w r, spline x y w = Some r -> length r = nw) ->
  exists vs : nat -> vfit,
  (forall r, r < size -> complete w1 w2 nw nv e usecov (subsamples nsub nv) (concat (map arms (seq 0 size)))
        (tagged_pixels size (subsamples nsub nv) arms) (vs r)) /\
  spmd size (fit_ranks np nq nsqrt cholesky curve_fit spline size w1 w2 nw nv e nsub usecov arms npar guess smooth)
  = Done (map (fun r => match fit_result w1 w2 nw nv e usecov (subsamples nsub nv) eps (concat (map arms (seq 0 size)))
        (tagged_pixels size (subsamples nsub nv) arms) np nq nsqrt cholesky curve_fit spline npar guess smooth with
        | Ok a => Finished (vs r, a) | Err x => Failed x end) (seq 0 size)).
Proof.
  intros H1 H2 H3 H4 H5 H6 H7 H8 H9.
  destruct (fit_all_from np nq nsqrt cholesky curve_fit spline size w1 w2 nw nv e nsub usecov arms npar guess smooth H1 H2 H3 H4 H5 H6 H7 H8 H9) as (vs & C & E).
  exists vs. split; [|exact E]. intros r Hr. now apply C.
Qed.

(** ** statements about the bins *)
Lemma collect_all size w1 w2 nw nv e nsub usecov (arms : nat -> list (list lsspix)) :
  1 <= size -> (w1 < w2)%Qc -> 1 <= nw -> good_edges nv e -> 1 <= subsamples nsub nv ->
  exists vs : nat -> vfit,
    spmd size (collect size w1 w2 nw nv e nsub usecov arms) = Done (map (fun r => Finished (vs r)) (seq 0 size)) /\
    forall r, r < size ->
      shows w1 w2 nw nv e usecov (subsamples nsub nv) eps (concat (map arms (seq 0 size)))
        (tagged_pixels size (subsamples nsub nv) arms) (vs r) /\
      list_sum (v_npix (vs r)) = length (concat (concat (map arms (seq 0 size)))).
Proof.
  intros Hs Hw Hnw He Hn.
  destruct (spmd_continue size w1 w2 nw nv e nsub usecov arms (fun _ v => Ret v) Hs Hw Hnw He Hn) as (vs & E & C).
  exists vs. split.
  - rewrite <- (@spmd_ret vval). rewrite <- E. symmetry. apply spmd_peq. intros r Hr. apply pbind_ret.
  - intros r Hr. destruct (C r Hr) as (_ & _ & _ & _ & L & S). now split.
Qed.

Lemma masked_no_bin w1 w2 nw nv e iw iv p : good_edges nv e -> iv < nv -> (l_ivar p <= 0)%Qc ->
  in_lss_bin w1 w2 nw e iw iv p = false.
Proof.
  intros (L & P & A) H N. unfold in_lss_bin, in_ivar_bin. apply andb_false_intro2, andb_false_intro1.
  apply qltb_false. apply Qcle_trans with 0%Qc; [assumption|].
  destruct iv as [|i]; [now apply Qclt_le_weak|].
  apply Qclt_le_weak. apply Qclt_trans with (nth 0 e 0%Qc); [assumption|]. apply A. lia.
Qed.
Lemma one_ivar_bin nv e x : good_edges nv e -> (nth 0 e 0 < x)%Qc -> (x <= nth nv e 0)%Qc ->
  exists iv, iv < nv /\ forall i, i < nv -> (in_ivar_bin e i x = true <-> i = iv).
Proof.
  intros (L & P & A) Hl Hu.
  assert (exists iv, iv < nv /\ (nth iv e 0 < x)%Qc /\ (x <= nth (S iv) e 0)%Qc) as (iv & H & H1 & H2).
  { assert (forall m, m <= nv -> (x <= nth m e 0)%Qc -> exists iv, iv < m /\ (nth iv e 0 < x)%Qc /\ (x <= nth (S iv) e 0)%Qc) as K.
    { induction m as [|m IH]; intros Hm Hx.
      - exfalso. exact (Qcle_not_lt _ _ Hx Hl).
      - destruct (qltb (nth m e 0%Qc) x) eqn:E.
        + apply (proj1 (qltb_true _ _)) in E. exists m. auto.
        + apply (proj1 (qltb_false _ _)) in E. destruct (IH ltac:(lia) E) as (iv & ? & ?). exists iv. split; [lia|assumption]. }
    destruct (K nv (le_n _) Hu) as (iv & ? & ? & ?). exists iv. auto. }
  assert (forall i j, i <= j < length e -> (nth i e 0 <= nth j e 0)%Qc) as M.
  { intros i j Hij. destruct (Nat.eq_dec i j) as [->|Ne]; [apply Qcle_refl|]. apply Qclt_le_weak, A. lia. }
  exists iv. split; [assumption|]. intros i Hi. unfold in_ivar_bin. rewrite andb_true_iff, qltb_true, qleb_true. split.
  - intros [I1 I2]. destruct (Nat.lt_trichotomy i iv) as [Lt|[Eq|Gt]]; [|assumption|]; exfalso.
    + apply (Qclt_not_le _ _ H1). apply Qcle_trans with (nth (S i) e 0%Qc); [assumption|]. apply M. lia.
    + apply (Qclt_not_le _ _ I1). apply Qcle_trans with (nth (S iv) e 0%Qc); [assumption|]. apply M. lia.
  - intros ->. now split.
Qed.
Lemma one_lss_bin w1 w2 nw nv e p : 1 <= nw -> good_edges nv e ->
  (w1 <= l_wave p)%Qc -> (l_wave p < w2)%Qc -> (nth 0 e 0 < l_ivar p)%Qc -> (l_ivar p <= nth nv e 0)%Qc ->
  exists iw iv, iw < nw /\ iv < nv /\
    forall i j, j < nv -> (in_lss_bin w1 w2 nw e i j p = true <-> i = iw /\ j = iv).
Proof.
  intros Hnw He H1 H2 H3 H4. destruct (in_bin_exists w1 w2 nw (l_wave p) Hnw H1 H2) as (iw & Hw & Ew).
  destruct (one_ivar_bin nv e (l_ivar p) He H3 H4) as (iv & Hv & Ev).
  exists iw, iv. split; [assumption|]. split; [assumption|]. intros i j Hj. unfold in_lss_bin.
  rewrite andb_true_iff, Ew, (Ev j Hj). reflexivity.
Qed.
Lemma wave_slices w1 w2 nw nv e usecov n arms T v iw :
  shows w1 w2 nw nv e usecov n eps arms T v -> iw < nw ->
  let at_wave {A} (l : list A) := slice (iw * nv) (iw * nv + nv) l in
  let b := the_bin w1 w2 nw e arms iw in
  at_wave (num_pixels v) = map (fun iv => length (b iv)) (seq 0 nv) /\
  at_wave (num_qso v) = map (bin_arms w1 w2 nw e arms iw) (seq 0 nv) /\
  at_wave (var_centers v) = map (fun iv => pix_noise (b iv)) (seq 0 nv) /\
  at_wave (var_delta v) = map (fun iv => pix_variance (b iv)) (seq 0 nv) /\
  at_wave (variance_var_delta v) = map (variance_error2 w1 w2 nw e usecov n eps arms T iw) (seq 0 nv).
Proof.
  intros (D1 & D2 & D3 & D4 & D5 & D6 & D7 & D8) H. cbv zeta. rewrite D1, D2, D4, D6, D7, !slice_by_bin by assumption.
  repeat split.
Qed.
Lemma fit_result_exn w1 w2 nw nv e usecov n arms T np nq nsqrt cholesky curve_fit spline npar guess smooth :
  let o := fit_result w1 w2 nw nv e usecov n eps arms T np nq nsqrt cholesky curve_fit spline npar guess smooth in
  (exists m, o = Err (QsonicExn m)) <->
  2 * nw < 5 * count is_none (wave_fits w1 w2 nw nv e usecov n eps arms T np nq nsqrt cholesky curve_fit guess).
Proof.
  cbv zeta. unfold fit_result.
  destruct (Nat.ltb_spec (2 * nw) (5 * count is_none (wave_fits w1 w2 nw nv e usecov n eps arms T np nq nsqrt cholesky curve_fit guess))) as [H|H].
  - split; [easy|]. intros _. eexists. reflexivity.
  - split; [|lia]. intros (m & E). exfalso.
    destruct smooth; [|discriminate]. destruct (interpolated _ _ _ _ _ _ _ _ _ _ _ _ _ _ _ _ _ _); [|discriminate].
    destruct (Nat.eqb npar 1); [discriminate|]. destruct (interpolated _ _ _ _ _ _ _ _ _ _ _ _ _ _ _ _ _ _); discriminate.
Qed.
Lemma fit_result_length w1 w2 nw nv e usecov n arms T np nq nsqrt cholesky curve_fit spline npar guess smooth p s :
  (forall x y w r, spline x y w = Some r -> length r = nw) ->
  fit_result w1 w2 nw nv e usecov n eps arms T np nq nsqrt cholesky curve_fit spline npar guess smooth = Ok (p, s) ->
  length p = nw /\ length s = nw.
Proof.
  intros Hl. unfold fit_result. destruct (Nat.ltb _ _); [discriminate|].
  assert (length (wave_fits w1 w2 nw nv e usecov n eps arms T np nq nsqrt cholesky curve_fit guess) = nw) as L
    by (unfold wave_fits; now rewrite map_length, seq_length).
  destruct smooth.
  - destruct (interpolated _ _ _ _ _ _ _ _ _ _ _ _ _ _ _ _ _ 0) as [a|] eqn:Ea; [|discriminate]. apply Hl in Ea.
    destruct (Nat.eqb npar 1).
    + intro H. injection H as H1 H2. rewrite <- H1, <- H2. now rewrite !map_length.
    + destruct (interpolated _ _ _ _ _ _ _ _ _ _ _ _ _ _ _ _ _ 1) as [b|] eqn:Eb; [|discriminate]. apply Hl in Eb.
      intro H. injection H as H1 H2. rewrite <- H1, <- H2. rewrite map2_length, map_length. lia.
  - intro H. injection H as H1 H2. rewrite <- H1, <- H2. now rewrite !map_length.
Qed.
