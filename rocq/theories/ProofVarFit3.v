(** Proofs about VarLSSFitter: results in terms of the bins. *)
From Coq Require Import ZArith String List Bool Arith Lia Field Qcanon Sorting.Sorted Permutation.
From Verif Require Import Num NpList NpListFacts Exn Dict Mpi ProofMpi ModelSubsample SpecSubsample ProofSubsample
  ProofSubsample2 ModelSpectrum ModelStack SpecStack ProofStack ModelVarFit SpecVarFit ProofVarFit ProofVarKeep ProofVarFit2.
From Verif Require ProofCatalog.
Import ListNotations.
Local Open Scope nat_scope.

Lemma map_snd_pairs {A B} (c : A) (l : list B) : map snd (map (pair c) l) = l.
Proof. rewrite map_map. cbn. apply map_id. Qed.
Lemma map_snd_tag n first arms : map snd (tag_arms n first arms) = concat arms.
Proof.
  unfold tag_arms. generalize 0. induction arms as [|a arms IH]; intro t; [easy|].
  cbn [length seq combine map concat snd]. now rewrite map_app, map_snd_pairs, IH.
Qed.
Lemma concat_concat_map {A B} (f : A -> list (list B)) l : concat (concat (map f l)) = concat (map (fun r => concat (f r)) l).
Proof. induction l as [|r l IH]; [easy|]. cbn [map concat]. now rewrite concat_app, IH. Qed.
Lemma map_snd_tagged size n arms :
  map snd (tagged_pixels size n arms) = concat (concat (map arms (seq 0 size))).
Proof.
  unfold tagged_pixels. rewrite concat_concat_map. generalize (seq 0 size). intro l.
  induction l as [|r l IH]; [easy|]. cbn [map concat]. now rewrite map_app, map_snd_tag, IH.
Qed.

Lemma zqn_0 k : qeqb (zq (Z.of_nat k)) 0 = Nat.eqb k 0.
Proof.
  destruct (Nat.eqb_spec k 0) as [->|H]; [now apply qeqb_true|].
  apply qeqb_false. apply Qc_pos_neq. rewrite <- zq_0. apply zq_lt. lia.
Qed.
Lemma plain_mean_alt g l :
  plain_mean g l = (if Nat.eqb (length l) 0 then 0 else qsum (map g l) / zq (Z.of_nat (length l)))%Qc.
Proof. destruct l; reflexivity. Qed.
Lemma zqn_pos k : 1 <= k -> (0 < zq (Z.of_nat k))%Qc.
Proof. intro H. rewrite <- zq_0. apply zq_lt. lia. Qed.

Lemma variance_expand l : pix_variance l = (plain_mean sq_delta l - pix_mean l * pix_mean l)%Qc.
Proof.
  unfold pix_variance. destruct l as [|p l]; [cbn; ring|]. rewrite !plain_mean_alt. unfold pix_mean at 3 4. rewrite plain_mean_alt.
  cbn [length Nat.eqb]. set (m := pix_mean (p :: l)).
  assert (zq (Z.of_nat (S (length l))) <> 0)%Qc as N by (apply Qc_pos_neq, zqn_pos; lia).
  change (S (length l)) with (length (p :: l)) in *.
  assert (forall q, qsum (map (fun p => (l_delta p - m) * (l_delta p - m))%Qc q)
    = (qsum (map sq_delta q) - (m + m) * qsum (map l_delta q) + zq (Z.of_nat (length q)) * (m * m))%Qc) as K.
  { induction q as [|x q IH]; [change (0 = 0 - (m + m) * 0 + zq 0 * (m * m))%Qc; rewrite zq_0; ring|]. cbn [map]. rewrite !qsum_cons, IH. cbn [length].
    rewrite Nat2Z.inj_succ, <- Z.add_1_r, zq_plus, zq_1. unfold sq_delta. ring. }
  rewrite K. assert (m = qsum (map l_delta (p :: l)) / zq (Z.of_nat (length (p :: l))))%Qc as Em by reflexivity.
  assert (qsum (map l_delta (p :: l)) = m * zq (Z.of_nat (length (p :: l))))%Qc as ->.
  { rewrite Em. field. exact N. }
  field. exact N.
Qed.

Section Bin.
Variables (w1 w2 : Qc) (nw nv : nat) (e : list Qc) (usecov : bool) (n : nat).
Hypotheses (Hw : (w1 < w2)%Qc) (Hnw : 1 <= nw) (He : good_edges nv e) (Hn : 1 <= n).
Variables (arms : list (list lsspix)) (T : list (nat * lsspix)).
Hypothesis HT : map snd T = concat arms.

Notation atk := (at_k w1 w2 nw nv e).
Notation B := (in_lss_bin w1 w2 nw e).
Lemma atk_bin iw iv p : iw < nw -> iv < nv -> atk (flat nv iw iv) p = B iw iv p.
Proof. intros H1 H2. unfold at_k. now apply pidx_bin. Qed.
Lemma xs_bin l j iw iv : iw < nw -> iv < nv -> xs w1 w2 nw nv e l j (flat nv iw iv) = bin_total (gq j) (B iw iv) l.
Proof. intros H1 H2. unfold xs, bin_total. rewrite (filter_ext _ (B iw iv)); [easy|]. intro. now apply atk_bin. Qed.
Lemma count_bin l iw iv : iw < nw -> iv < nv -> count (atk (flat nv iw iv)) l = count (B iw iv) l.
Proof. intros H1 H2. apply count_ext. intro. now apply atk_bin. Qed.
Lemma cs_bin l iw iv : iw < nw -> iv < nv -> cs w1 w2 nw nv e l (flat nv iw iv) = bin_count (B iw iv) l.
Proof. intros H1 H2. unfold cs, bin_count. now rewrite count_bin. Qed.
Lemma M_bin j iw iv : iw < nw -> iv < nv ->
  M w1 w2 nw nv e T j (flat nv iw iv) = plain_mean (gq j) (the_bin w1 w2 nw e arms iw iv).
Proof.
  intros H1 H2. unfold M. rewrite !cs_bin, xs_bin, HT by easy. unfold bin_count, bin_total, the_bin, count.
  rewrite zqn_0, plain_mean_alt. reflexivity.
Qed.
Lemma loo_bin i j iw iv : iw < nw -> iv < nv ->
  loo w1 w2 nw nv e T i j (flat nv iw iv) = leave_one_out eps (gq j) (B iw iv) T i.
Proof.
  intros H1 H2. unfold loo, leave_one_out. rewrite !cs_bin, xs_bin by easy. unfold bin_count. now rewrite zqn_0.
Qed.
Lemma J_bin j iw i i' : iw < nw -> i < nv -> i' < nv ->
  J w1 w2 nw nv e n T j (flat nv iw i) (flat nv iw i') = jack w1 w2 nw e n eps T (gq j) iw i i'.
Proof.
  intros H1 H2 H3. unfold J, jack, jack_covariance, dev, sumn, qnat.
  rewrite !(map_ext (fun q => loo w1 w2 nw nv e T q j (flat nv iw i)) (leave_one_out eps (gq j) (B iw i) T)) by (intro; now apply loo_bin).
  rewrite !(map_ext (fun q => loo w1 w2 nw nv e T q j (flat nv iw i')) (leave_one_out eps (gq j) (B iw i') T)) by (intro; now apply loo_bin).
  match goal with |- (qsum (map ?f _) * _ / _ = _ / _ * qsum (map ?g _))%Qc => rewrite (map_ext f g) by (intro; now rewrite !loo_bin) end.
  unfold Qcdiv. ring.
Qed.
Lemma noise_bin iw iv : iw < nw -> iv < nv ->
  M w1 w2 nw nv e T 3 (flat nv iw iv) = pix_noise (the_bin w1 w2 nw e arms iw iv).
Proof.
  intros H1 H2. rewrite M_bin by easy. unfold pix_noise. rewrite !plain_mean_alt. destruct (Nat.eqb _ 0); [easy|].
  do 2 f_equal. apply map_ext_in. intros p Hp. apply filter_In in Hp. destruct Hp as (_ & Hp).
  unfold in_lss_bin, in_ivar_bin in Hp. apply andb_true_iff in Hp. destruct Hp as (_ & Hp). apply andb_true_iff in Hp.
  destruct Hp as (Hp & _). apply qltb_true in Hp. cbn [gq]. unfold qvar'.
  assert (qltb 0 (l_ivar p) = true) as ->; [|easy]. apply qltb_true. destruct He as (Le & P0 & Inc).
  destruct iv as [|iv]; [qlra|]. assert (nth 0 e 0 < nth (S iv) e 0)%Qc by (apply Inc; lia). qlra.
Qed.
Lemma S1_bin iw iv : iw < nw -> iv < nv ->
  S1 w1 w2 nw nv e T (flat nv iw iv) = pix_variance (the_bin w1 w2 nw e arms iw iv).
Proof. intros H1 H2. unfold S1. rewrite !M_bin by easy. now rewrite variance_expand. Qed.
Lemma S2_bin iw iv : iw < nw -> iv < nv ->
  S2 w1 w2 nw nv e T (fun k => count (atk k) (concat arms)) (flat nv iw iv) = pix_var2 (the_bin w1 w2 nw e arms iw iv).
Proof.
  intros H1 H2. unfold S2. rewrite S1_bin, count_bin, M_bin by easy.
  change (count (B iw iv) (concat arms)) with (length (the_bin w1 w2 nw e arms iw iv)).
  destruct (the_bin w1 w2 nw e arms iw iv) as [|p l]; [cbn; ring|]. reflexivity.
Qed.
Lemma V1_bin iw iv : iw < nw -> iv < nv ->
  V1 w1 w2 nw nv e usecov n T (fun k => count (atk k) (concat arms)) (flat nv iw iv)
  = variance_error2 w1 w2 nw e usecov n eps arms T iw iv.
Proof.
  intros H1 H2. unfold V1, variance_error2. rewrite S2_bin, !J_bin, M_bin by easy. change (gq 1) with sq_delta. change (gq 0) with l_delta.
  destruct usecov; [easy|]. fold (pix_mean (the_bin w1 w2 nw e arms iw iv)). unfold qmax.
  match goal with |- (if qltb ?a ?b then _ else _) = (if qleb ?c ?d then _ else _) => set (x := a); set (y := b) end.
  destruct (qltb x y) eqn:E1, (qleb y x) eqn:E2; try easy; qcase_in E1; qcase_in E2; apply Qcle_antisym; qlra.
Qed.
Lemma C1_bin iw i j : iw < nw -> i < nv -> j < nv ->
  C1 w1 w2 nw nv e n T (flat nv iw i) (flat nv iw j) = variance_cov w1 w2 nw e n eps arms T iw i j.
Proof.
  intros H1 H2 H3. unfold C1, variance_cov. rewrite !J_bin, !M_bin by easy. reflexivity.
Qed.

Lemma by_bin_ext {A} (g h : nat -> nat -> A) : (forall iw iv, iw < nw -> iv < nv -> g iw iv = h iw iv) ->
  by_bin nw nv g = by_bin nw nv h.
Proof.
  intro H. unfold by_bin. assert (forall l, (forall iw, In iw l -> iw < nw) ->
    flat_map (fun iw => map (g iw) (seq 0 nv)) l = flat_map (fun iw => map (h iw) (seq 0 nv)) l) as K.
  { induction l as [|iw l IH]; intro Hl; [easy|]. cbn [flat_map]. rewrite IH by (intros; apply Hl; now right).
    f_equal. apply map_ext_in. intros iv Hi. apply in_seq in Hi. apply H; [apply Hl; now left|lia]. }
  apply K. intros iw Hi. apply in_seq in Hi. lia.
Qed.
Lemma compress_row m j (g : nat -> nat -> Qc) : (forall iw iv, iw < nw -> iv < nv -> m j (flat nv iw iv) = g iw iv) ->
  compress (valid_bins nw nv) (row (Some m) j ((nv + 2) * (nw + 2))) = by_bin nw nv g.
Proof. intro H. cbn [row]. rewrite compress_valid. now apply by_bin_ext. Qed.

Lemma existsb_count {A} (p : A -> bool) l : (0 <? count p l) = existsb p l.
Proof.
  unfold count. induction l as [|x l IH]; [easy|]. cbn [filter existsb]. destruct (p x); [easy|]. exact IH.
Qed.
Lemma list_sum_count {A} (f : A -> nat) m l : (forall x, In x l -> f x < m) ->
  list_sum (map (fun k => count (fun x => Nat.eqb (f x) k) l) (seq 0 m)) = length l.
Proof.
  induction l as [|x l IH]; intro H.
  - cbn [length]. rewrite (zero_counts _ (fun _ => eq_refl)). clear. induction m as [|m IHm]; [easy|exact IHm].
  - cbn [length]. rewrite <- IH by (intros; apply H; now right).
    assert (f x < m) as Hx by (apply H; now left).
    assert (forall s q, list_sum (map (fun k => count (fun y => Nat.eqb (f y) k) (x :: l)) (seq s q))
      = list_sum (map (fun k => count (fun y => Nat.eqb (f y) k) l) (seq s q)) + (if (s <=? f x) && (f x <? s + q) then 1 else 0)) as K.
    { intros s q. revert s. induction q as [|q IHq]; intro s; cbn [seq map list_sum fold_right].
      - destruct (Nat.leb_spec s (f x)), (Nat.ltb_spec (f x) (s + 0)); cbn; lia.
      - unfold list_sum in *. cbn [fold_right]. rewrite IHq. unfold count at 1. cbn [filter].
        fold (count (fun y => f y =? s) l).
        destruct (Nat.eqb_spec (f x) s) as [E|E].
        + cbn [length]. fold (count (fun y => f y =? s) l).
          destruct (Nat.leb_spec (S s) (f x)), (Nat.leb_spec s (f x)), (Nat.ltb_spec (f x) (S s + q)), (Nat.ltb_spec (f x) (s + S q)); cbn; lia.
        + fold (count (fun y => f y =? s) l).
          destruct (Nat.leb_spec (S s) (f x)), (Nat.leb_spec s (f x)), (Nat.ltb_spec (f x) (S s + q)), (Nat.ltb_spec (f x) (s + S q)); cbn; lia. }
    rewrite K. cbn [Nat.leb andb Nat.add]. apply Nat.ltb_lt in Hx. rewrite Hx. lia.
Qed.

Definition complete (v : vfit) : Prop :=
  v_nw v = nw /\ v_nv v = nv /\ v_wave v = centers w1 w2 nw /\ v_usecov v = usecov /\
  list_sum (v_npix v) = length (concat arms) /\ shows w1 w2 nw nv e usecov n eps arms T v.

Lemma local_complete s : sub_inv w1 w2 nw nv e n T s ->
  exists v, local_stats (fitter w1 w2 nw nv e usecov (concat arms) arms s) = Ok v /\ complete v.
Proof.
  intro I. destruct (local_stats_ok w1 w2 nw nv e usecov n Hnw He Hn T s I (concat arms) arms)
    as (s' & m & var & E & Em & Ev & M0 & M1 & M2 & M3 & Hv & Hc & Hc').
  rewrite E. eexists. split; [reflexivity|]. unfold complete. cbn [v_nw v_nv v_wave v_usecov v_npix].
  do 4 (split; [reflexivity|]). split.
  { unfold npix_of. apply list_sum_count. intros p _. now apply pidx_range. }
  unfold shows, num_pixels, num_qso, mean_delta, var_delta, var2_delta, var_centers, variance_var_delta, minlength.
  cbn [v_nw v_nv v_valid v_npix v_nqso v_sub]. rewrite Em, Ev. unfold npix_of, nqso_of. split; [|split].
  - rewrite compress_valid. apply by_bin_ext. intros iw iv H1 H2. now apply count_bin.
  - rewrite compress_valid. apply by_bin_ext. intros iw iv H1 H2. unfold bin_arms. apply count_ext. intro a.
    rewrite existsb_count. induction a as [|p a IH]; [easy|]. cbn [existsb]. now rewrite IH, atk_bin.
  - split; [apply compress_row; intros iw iv H1 H2; rewrite M0; now apply M_bin|].
    split; [apply compress_row; intros iw iv H1 H2; rewrite M1; now apply S1_bin|].
    split; [apply compress_row; intros iw iv H1 H2; rewrite M2; now apply S2_bin|].
    split; [apply compress_row; intros iw iv H1 H2; rewrite M3; now apply noise_bin|].
    split; [apply compress_row; intros iw iv H1 H2; rewrite Hv; now apply V1_bin|].
    intros iw i j H1 H2 H3. unfold cov_var_delta. cbn [v_sub]. destruct usecov eqn:Uc.
    + destruct (Hc eq_refl) as (c0 & nb & c & r & -> & HC). f_equal. rewrite HC.
      rewrite <- C1_bin by easy. unfold flat. f_equal; lia.
    + now rewrite Hc'.
Qed.
End Bin.

(** ** all ranks *)
Lemma spmd_continue_from size w1 w2 nw nv e nsub usecov (arms : nat -> list (list lsspix)) {B} (k : nat -> vfit -> prog vval B) :
  1 <= size -> (w1 < w2)%Qc -> 1 <= nw -> good_edges nv e -> 1 <= subsamples nsub nv ->
  exists vs : nat -> vfit,
    spmd size (fun r => pbind (collect size w1 w2 nw nv e nsub usecov arms r) (k r)) = spmd size (fun r => k r (vs r)) /\
    forall r, r < size ->
      complete w1 w2 nw nv e usecov (subsamples nsub nv) (concat (map arms (seq 0 size)))
        (tagged_pixels size (subsamples nsub nv) arms) (vs r) /\
      vfit_reset (vs r) = vfit_init w1 w2 nw nv e nsub usecov r size.
Proof.
  intros Hs Hw Hnw He Hn. set (n := subsamples nsub nv) in *.
  assert (forall r, vfit_init w1 w2 nw nv e nsub usecov r size = vfit_init w1 w2 nw nv e (Some n) usecov r size) as En.
  { intro r. unfold n, subsamples. now destruct nsub. }
  assert (exists st : nat -> sub, forall r,
    vfit_add_all (map call_of (arms r)) (vfit_init w1 w2 nw nv e nsub usecov r size)
      = Ok (fitter w1 w2 nw nv e usecov (concat (arms r)) (arms r) (st r)) /\
    sub_inv w1 w2 nw nv e n (tag_arms n ((r * n) / size) (arms r)) (st r)) as (st & Hst).
  { exists (fun r => match vfit_add_all (map call_of (arms r)) (vfit_init w1 w2 nw nv e nsub usecov r size) with
                     | Ok v => v_sub v | Err _ => sub_init 0 0 0 0 end).
    intro r. rewrite En. destruct (rank_state_ok w1 w2 nw nv e usecov n Hnw He Hn r size (arms r)) as (s & E & I).
    rewrite E. cbn [v_sub fitter]. now split. }
  set (P' := concat (map (fun r => concat (arms r)) (seq 0 size))).
  destruct (stats_reduced w1 w2 nw nv e usecov n Hnw Hn k size (fun r => concat (arms r)) arms
              (fun r => tag_arms n ((r * n) / size) (arms r)) st Hs (fun r _ => proj2 (Hst r))) as (Er & I).
  cbn zeta in Er, I. fold P' in Er.
  set (st' := fun r => set_data (reduced_meas size st) (fun i k => reduced_wts size st i 0 k) (st r)) in *.
  set (A := concat (map arms (seq 0 size))) in *.
  assert (P' = concat A) as EP by (unfold P', A; symmetry; apply concat_concat_map). rewrite EP in Er.
  fold (tagged_pixels size n arms) in I.
  assert (map snd (tagged_pixels size n arms) = concat A) as ET by apply map_snd_tagged.
  exists (fun r => match local_stats (fitter w1 w2 nw nv e usecov (concat A) A (st' r)) with
                   | Ok v => v | Err _ => fitter w1 w2 nw nv e usecov [] [] (st r) end).
  split.
  - transitivity (spmd size (fun r => pbind (calculate_stats (fitter w1 w2 nw nv e usecov (concat (arms r)) (arms r) (st r))) (k r))).
    + apply spmd_ext. intros r Hr. unfold collect. rewrite (proj1 (Hst r)). reflexivity.
    + rewrite Er. apply spmd_ext. intros r Hr.
      destruct (local_complete w1 w2 nw nv e usecov n Hw Hnw He Hn A _ ET (st' r) (I r Hr)) as (v & E & _).
      unfold st' in E |- *. rewrite E. reflexivity.
  - intros r Hr. destruct (local_complete w1 w2 nw nv e usecov n Hw Hnw He Hn A _ ET (st' r) (I r Hr)) as (v & E & C).
    rewrite E. split; [exact C|]. rewrite (local_stats_reset _ _ E). destruct (Hst r) as [H _]. apply add_all_rest in H.
    unfold rest in H. cbn [fitter vfit_init v_nw v_nv v_wave v_dw v_edges v_usecov v_valid v_sub] in H.
    assert (sub_reset (st r) = sub_init 4 ((nv + 2) * (nw + 2)) n ((r * n) / size)) as Hsub.
    { transitivity (sub_reset (sub_init 4 ((nv + 2) * (nw + 2)) n ((r * n) / size))); [|reflexivity].
      unfold n, subsamples. destruct nsub; congruence. }
    unfold vfit_reset, vfit_init, fitter, v_set. cbn [v_nw v_nv v_wave v_dw v_edges v_usecov v_valid v_sub v_npix v_nqso].
    change (sub_reset (st' r)) with (sub_reset (st r)). rewrite Hsub. unfold npix_of, nqso_of. rewrite !map_map, !(ProofCatalog.map_seq_const _ 0) by easy.
    unfold n, subsamples. destruct nsub; reflexivity.
Qed.
Lemma spmd_continue size w1 w2 nw nv e nsub usecov (arms : nat -> list (list lsspix)) {B} (k : nat -> vfit -> prog vval B) :
  1 <= size -> (w1 < w2)%Qc -> 1 <= nw -> good_edges nv e -> 1 <= subsamples nsub nv ->
  exists vs : nat -> vfit,
    spmd size (fun r => pbind (collect size w1 w2 nw nv e nsub usecov arms r) (k r)) = spmd size (fun r => k r (vs r)) /\
    forall r, r < size ->
      complete w1 w2 nw nv e usecov (subsamples nsub nv) (concat (map arms (seq 0 size)))
        (tagged_pixels size (subsamples nsub nv) arms) (vs r).
Proof.
  intros H1 H2 H3 H4 H5. destruct (spmd_continue_from size w1 w2 nw nv e nsub usecov arms k H1 H2 H3 H4 H5) as (vs & E & C).
  exists vs. split; [exact E|]. intros r Hr. now apply C.
Qed.

(** ** the fit *)
Section Fit.
Variables (w1 w2 : Qc) (nw nv : nat) (e : list Qc) (usecov : bool) (n : nat) (arms : list (list lsspix)) (T : list (nat * lsspix)).
Variables (np nq : nat) (nsqrt : num -> num) (cholesky : list (list Qc) -> bool)
  (curve_fit : list Qc -> list Qc -> list num -> errors -> option (list num * list num))
  (spline : list Qc -> list num -> list num -> option (list num)).
Variable v : vfit.
Hypothesis C : complete w1 w2 nw nv e usecov n arms T v.

Lemma slice_by_bin {A} (g : nat -> nat -> A) iw : iw < nw ->
  slice (iw * nv) (iw * nv + nv) (by_bin nw nv g) = map (g iw) (seq 0 nv).
Proof.
  intro H. unfold by_bin. assert (forall l, length (flat_map (fun iw => map (g iw) (seq 0 nv)) l) = length l * nv) as L.
  { induction l as [|x l IH]; [easy|]. cbn [flat_map length]. rewrite app_length, map_length, seq_length, IH. lia. }
  replace nw with (iw + (1 + (nw - iw - 1))) by lia. rewrite seq_app, seq_app, !flat_map_app. cbn [seq Nat.add flat_map].
  rewrite app_nil_r. unfold slice. rewrite skipn_app. rewrite L, seq_length, Nat.sub_diag. cbn [skipn].
  rewrite skipn_all2 by (rewrite L, seq_length; lia). cbn [app].
  replace (iw * nv + nv - iw * nv) with nv by lia. rewrite firstn_app, map_length, seq_length, Nat.sub_diag.
  cbn [firstn]. rewrite app_nil_r. apply firstn_all2. now rewrite map_length, seq_length.
Qed.
Lemma count_id_map {A} (f : A -> bool) l : count (fun b : bool => b) (map f l) = length (filter f l).
Proof. rewrite count_map. reflexivity. Qed.
Lemma rseq_all_ok {A B} (f : A -> res B) (g : A -> B) l : (forall x, In x l -> f x = Ok (g x)) ->
  rseq (map f l) = Ok (map g l).
Proof.
  induction l as [|x l IH]; intro H; [easy|]. cbn [map rseq]. rewrite (H x) by now left. cbn [rbind].
  rewrite IH by (intros; apply H; now right). reflexivity.
Qed.

Notation u := (usable w1 w2 nw nv e arms np nq).
Lemma wave_bin_slice_spec iw : iw < nw ->
  wave_bin_slice np nq nsqrt cholesky v iw =
  Ok (if Nat.ltb (length (u iw)) 5 then None
      else Some (iw * nv, iw * nv + nv,
                 map (enough w1 w2 nw e arms (if Nat.ltb (length (filter (enough w1 w2 nw e arms np nq iw) (seq 0 nv))) 5 then np / 2 else np)
                              (if Nat.ltb (length (filter (enough w1 w2 nw e arms np nq iw) (seq 0 nv))) 5 then nq / 2 else nq) iw) (seq 0 nv),
                 fit_errors w1 w2 nw e usecov n eps arms T nsqrt cholesky iw (u iw))).
Proof.
  intro H. destruct C as (C1 & C2 & C3 & C4 & _ & D1 & D2 & D3 & D4 & D5 & D6 & D7 & D8).
  unfold wave_bin_slice. rewrite C2, D1, D2, D7, !slice_by_bin by assumption. rewrite !map2_maps.
  change (fun x => Nat.leb np (length (the_bin w1 w2 nw e arms iw x)) && Nat.leb nq (bin_arms w1 w2 nw e arms iw x))
    with (enough w1 w2 nw e arms np nq iw).
  change (fun x => Nat.leb (np / 2) (length (the_bin w1 w2 nw e arms iw x)) && Nat.leb (nq / 2) (bin_arms w1 w2 nw e arms iw x))
    with (enough w1 w2 nw e arms (np / 2) (nq / 2) iw).
  rewrite count_id_map.
  assert (forall f : nat -> bool, u iw = filter f (seq 0 nv) ->
    (if Nat.ltb (count (fun b : bool => b) (map f (seq 0 nv))) 5 then Ok None
     else
       let diag := Diag (select (map f (seq 0 nv)) (map (fun x => nsqrt (Fin x)) (map (variance_error2 w1 w2 nw e usecov n eps arms T iw) (seq 0 nv)))) in
       if v_usecov v then
         rbind (rseq (map (fun i => rseq (map (fun j => of_option "TypeError" (cov_var_delta v iw i j)) (seq 0 nv))) (seq 0 nv)))
           (fun c => let c := select (map f (seq 0 nv)) (map (select (map f (seq 0 nv))) c) in
              Ok (Some (iw * nv, iw * nv + nv, map f (seq 0 nv), if cholesky c then Full c else diag)))
       else Ok (Some (iw * nv, iw * nv + nv, map f (seq 0 nv), diag)))
    = Ok (if Nat.ltb (length (u iw)) 5 then None
          else Some (iw * nv, iw * nv + nv, map f (seq 0 nv), fit_errors w1 w2 nw e usecov n eps arms T nsqrt cholesky iw (u iw)))) as K.
  { intros f Hu. rewrite count_id_map, <- Hu. destruct (Nat.ltb (length (u iw)) 5); [easy|]. cbv zeta.
    unfold select. rewrite map_map, compress_map, <- Hu. rewrite C4. unfold fit_errors.
    destruct usecov eqn:Uc; [|reflexivity]. cbn [andb].
    rewrite (rseq_all_ok _ (fun i => map (variance_cov w1 w2 nw e n eps arms T iw i) (seq 0 nv))).
    - cbn [rbind]. rewrite map_map.
      rewrite (map_ext (fun x => compress (map f (seq 0 nv)) (map (variance_cov w1 w2 nw e n eps arms T iw x) (seq 0 nv)))
                (fun x => map (variance_cov w1 w2 nw e n eps arms T iw x) (u iw))) by (intro; now rewrite compress_map, Hu).
      rewrite compress_map, <- Hu. reflexivity.
    - intros i Hi. apply in_seq in Hi. apply rseq_all_ok. intros j Hj. apply in_seq in Hj.
      rewrite D8 by lia. reflexivity. }
  destruct (Nat.ltb (length (filter (enough w1 w2 nw e arms np nq iw) (seq 0 nv))) 5) eqn:E.
  - apply K. unfold usable. now rewrite E.
  - apply K. unfold usable. now rewrite E.
Qed.

Lemma fit_bin_spec npar guess iw : iw < nw ->
  fit_bin np nq nsqrt cholesky curve_fit v npar guess iw =
  Ok (match wave_fit w1 w2 nw nv e usecov n eps arms T np nq nsqrt cholesky curve_fit (nth iw guess []) iw with
      | None => (true, (repeat n0 npar, repeat n0 npar))
      | Some r => (false, r)
      end).
Proof.
  intro H. unfold fit_bin. rewrite wave_bin_slice_spec by assumption. cbn [rbind]. unfold wave_fit.
  destruct (Nat.ltb (length (u iw)) 5); [easy|].
  destruct C as (C1 & C2 & C3 & C4 & _ & D1 & D2 & D3 & D4 & D5 & D6 & D7 & D8).
  rewrite D4, D6, !slice_by_bin by assumption. unfold select. rewrite !compress_map.
  match goal with |- context [filter ?f (seq 0 nv)] => replace (filter f (seq 0 nv)) with (u iw) end.
  - match goal with |- context [match ?x with _ => _ end] => destruct x end; reflexivity.
  - unfold usable. destruct (Nat.ltb (length (filter (enough w1 w2 nw e arms np nq iw) (seq 0 nv))) 5); reflexivity.
Qed.
End Fit.
