(** C31: weights; C34: redshift limits; C51: wavelength grid; C52: effective S/N. *)
From Coq Require Import Field ZArith String List Bool Arith Lia Sorted Permutation Qcanon.
From Verif Require Import Num NpList NpListFacts Exn Dict ModelSpectrum ModelMasks ModelFitArgs SpecSpectrum SpecMasks
  SpecWeights ProofSpectrum1 ProofSpectrum2 ProofMasks.
Import ListNotations.
Local Open Scope nat_scope.

(** ** C31 *)
Lemma for_each_dset_total {A B} (d : dict A) (g : string -> A -> res B) acc0 :
  (forall k v, In (k, v) d -> exists r, g k v = Ok r) ->
  exists acc, for_each d (fun kv m => rbind (g (fst kv) (snd kv)) (fun r => Ok (dset (fst kv) r m))) acc0 = Ok acc.
Proof.
  revert acc0. induction d as [|[k v] d IH]; intros acc0 H; cbn.
  - eauto.
  - destruct (H k v) as (r & E); [now left|]. rewrite E. cbn. apply IH. intros; apply H; now right.
Qed.

Lemma weight_arm_nth varlss eta w iv c :
  length iv = length w -> length c = length w ->
  exists r, weight_arm varlss eta w iv c = Ok r /\ length r = length w /\
    forall k x i y, nth_error w k = Some x -> nth_error iv k = Some i -> nth_error c k = Some y ->
      nth_error r k = Some (weight_formula i (eta x) (varlss x) y).
Proof.
  intros L1 L2. unfold weight_arm.
  rewrite zip2_eq by lia. cbn [rbind].
  rewrite zip2_eq by (rewrite map2_length; lia). cbn [rbind].
  rewrite zip2_eq by (rewrite !map2_length; lia). cbn [rbind].
  rewrite zip2_eq by (rewrite !map2_length; lia).
  eexists. split; [reflexivity|]. split; [rewrite !map2_length; lia|].
  intros k x i y Ex Ei Ey. rewrite !nth_error_map2, Ex, Ei, Ey. reflexivity.
Qed.

Lemma weight_formula_rule i c e v :
  (0 < e)%Qc -> (0 <= v)%Qc -> (0 <= i)%Qc ->
  weight_rule i c e v (weight_formula (Fin i) (Fin e) (Fin v) (Fin c)).
Proof.
  intros He Hv Hi. unfold weight_formula. cbn [nsq nmul nadd].
  assert (0 <= c * c)%Qc as Hc by qnra.
  assert (0 <= v * (c * c))%Qc as Hvc by qnra.
  assert (0 <= i * (v * (c * c)))%Qc as Hivc by qnra.
  set (V := (v * (c * c))%Qc) in *.
  assert (0 < e + i * V)%Qc as Hd by qnra.
  assert (e + i * V <> 0)%Qc as Hn by (intro C; rewrite C in Hd; discriminate Hd).
  assert (e <> 0)%Qc as Hen by (intro C; rewrite C in He; discriminate He).
  rewrite ndiv_fin by easy. split.
  - intros ->. unfold n0. f_equal. unfold Qcdiv. ring.
  - intro Hp. exists (i / (e + i * V))%Qc. split; [easy|].
    assert (0 < / (e + i * V))%Qc as Hinv by now apply Qcinv_pos.
    assert (i <> 0)%Qc as Hin by (intro C; rewrite C in Hp; discriminate Hp).
    set (q := (i / (e + i * V))%Qc).
    assert (q * (e + i * V) = i)%Qc as Hq by (unfold q; field; easy).
    assert (0 < q)%Qc as Hqp by (unfold q, Qcdiv; qnra).
    split; [easy|]. split; [|split].
    + intro Hcn. unfold q, V in *. field. repeat split; auto.
      intro C. apply Hn. rewrite <- C. ring.
    + assert (q * e <= i)%Qc as H1 by (assert (0 <= q * (i * V))%Qc by qnra; qlra).
      assert (i / e = i * / e)%Qc as -> by reflexivity.
      assert (0 < / e)%Qc as Hie by now apply Qcinv_pos.
      replace q with (q * e * / e)%Qc by (field; easy).
      apply Qcmult_le_compat_r; [easy|]. now apply Qclt_le_weak.
    + assert (q * V * i <= 1 * i)%Qc as H1 by (assert (0 <= q * e)%Qc by qnra; qlra).
      destruct (Qclt_le_dec 1 (q * V)) as [C|C]; [|easy]. exfalso.
      assert (1 * i < q * V * i)%Qc as H2 by qnra. apply Qclt_not_le in H2. contradiction.
Qed.

Lemma set_forest_weight_spec varlss eta s :
  proper s -> cont_matches s -> s_valid s = true -> s_cont s <> [] ->
  exists s', set_forest_weight varlss eta s = Ok s' /\ proper s' /\ only_weights_changed s s' /\
    forall arm k x i c,
      at_pix (fw (s_f s)) arm k = Some x -> at_pix (fivar_sm (s_f s)) arm k = Some i ->
      at_pix (s_cont s) arm k = Some c ->
      at_pix (fweight (s_f s')) arm k = Some (weight_formula i (eta x) (varlss x) c).
Proof.
  intros P C V Hc. pose proof (proper_wff s P) as W. unfold set_forest_weight. rewrite V.
  assert (dtrue (s_cont s) = true) as -> by now destruct (s_cont s). cbn [negb orb].
  pose (g := fun arm wave =>
      rbind (rget arm (s_cont s)) (fun c =>
      rbind (rget arm (fivar_sm (s_f s))) (fun iv => weight_arm varlss eta wave iv c))).
  assert (forall arm w, dget arm (fw (s_f s)) = Some w ->
    exists c iv r, dget arm (s_cont s) = Some c /\ dget arm (fivar_sm (s_f s)) = Some iv /\
      g arm w = Ok r /\ length r = length w /\
      forall k x i y, nth_error w k = Some x -> nth_error iv k = Some i -> nth_error c k = Some y ->
        nth_error r k = Some (weight_formula i (eta x) (varlss x) y)) as K.
  { intros arm w Ew. specialize (C arm). unfold len_at in C. rewrite Ew in C.
    pose proof (wf_sm _ W arm) as L. unfold len_at, deref in L. rewrite Ew in L.
    fold (fivar_sm (s_f s)) in L.
    assert (Some w <> None) as Q by discriminate. specialize (C Q).
    destruct (dget arm (s_cont s)) as [c|] eqn:Ec; [|discriminate C].
    destruct (dget arm (fivar_sm (s_f s))) as [iv|] eqn:Ei; [|discriminate L].
    injection C as C. injection L as L. exists c, iv. unfold g, rget. rewrite Ec, Ei. cbn [of_option rbind].
    destruct (weight_arm_nth varlss eta w iv c L C) as (r & E & Lr & H). exists r. auto. }
  destruct (for_each_dset_total (fw (s_f s)) g []) as (wts & E).
  { intros arm w Hin. destruct P as (_ & N & _). apply In_pair_dget in Hin; [|easy].
    destruct (K arm w Hin) as (c & iv & r & _ & _ & H & _). eauto. }
  assert (for_each (fw (s_f s)) (fun aw (wts : dict arr) =>
      rbind (rget (fst aw) (s_cont s)) (fun c =>
      rbind (rget (fst aw) (fivar_sm (s_f s))) (fun iv =>
      rbind (weight_arm varlss eta (snd aw) iv c) (fun w =>
      Ok (dset (fst aw) w wts))))) [] = Ok wts) as E'.
  { rewrite <- E. apply for_each_ext. intros x m _. unfold g.
    destruct (rget (fst x) (s_cont s)) as [c|]; cbn; [|easy].
    destruct (rget (fst x) (fivar_sm (s_f s))) as [iv|]; cbn; easy. }
  rewrite E'. cbn [rbind]. eexists. split; [reflexivity|].
  pose proof (for_each_dset (fw (s_f s)) g [] wts (wf_nd _ W) E) as D.
  assert (only_weights_changed s (set_f (new_weight wts (s_f s)) s)) as O.
  { destruct W. unfold only_weights_changed, fivar, fivar_sm.
    cbn [set_f s_f new_weight fw ff fr hp ri rs rw s_cat s_wave s_flux s_ivar s_cont s_valid s_x s_chi2 s_msnr].
    rewrite !app_nth1 by easy. repeat split. }
  split; [|split; [exact O|]].
  - apply wff_proper.
    + apply wff_new_weight; [easy|]. intro a. specialize (D a). unfold len_at.
      destruct (dget a (fw (s_f s))) as [w|] eqn:Ew; [|now rewrite D].
      destruct D as (r & Er & ->). destruct (K a w Ew) as (c & iv & r' & _ & _ & Er' & L & _).
      rewrite Er in Er'. injection Er' as ->. cbn. now rewrite L.
    + destruct P as (_ & _ & S & _). exact S.
  - intros arm k x i c Ex Ei Ec. unfold at_pix in *. unfold fweight.
    cbn [set_f s_f new_weight rw hp]. rewrite nth_middle.
    specialize (D arm). destruct (dget arm (fw (s_f s))) as [w|] eqn:Ew; [|discriminate].
    destruct D as (r & Er & ->). destruct (K arm w Ew) as (c' & iv & r' & E1 & E2 & Er' & L & H).
    rewrite Er in Er'. injection Er' as <-. rewrite E1 in Ec. rewrite E2 in Ei. now apply H.
Qed.

Lemma weight_fallback varlss eta s :
  s_valid s = false \/ s_cont s = [] ->
  exists s', set_forest_weight varlss eta s = Ok s' /\ only_weights_changed s s' /\
    fweight (s_f s') = fivar_sm (s_f s).
Proof.
  intro H. unfold set_forest_weight.
  assert (negb (s_valid s) || negb (dtrue (s_cont s)) = true) as ->.
  { destruct H as [-> | ->]; [easy|]. cbn. now rewrite orb_true_r. }
  eexists. split; [reflexivity|]. repeat split.
Qed.

(** ** C34 *)
Lemma gaps_sorted dwave grid :
  (0 < dwave)%Qc -> uniform dwave grid -> StronglySorted (fun a b => (a + dwave <= b)%Qc) grid.
Proof.
  intros H. induction grid as [|a l IH]; intro U; constructor.
  - apply IH. intros k x y E1 E2. apply (U (S k)); easy.
  - assert (uniform dwave l) as Ul by (intros k x y E1 E2; now apply (U (S k))).
    specialize (IH Ul). destruct l as [|b l]; [constructor|].
    assert (b = (a + dwave)%Qc) as -> by (apply (U 0); easy).
    constructor; [apply Qcle_refl|]. inversion IH as [|? ? _ F]; subst.
    eapply Forall_impl; [|exact F]. cbn. intros c Hc. qlra.
Qed.
Lemma filter_sorted {A} (R : A -> A -> Prop) p l : StronglySorted R l -> StronglySorted R (filter p l).
Proof.
  induction 1 as [|x l S IH F]; cbn; [constructor|]. destruct (p x); [|easy]. constructor; [easy|].
  rewrite Forall_forall in *. intros y Hy. apply filter_In in Hy. now apply F.
Qed.
Lemma gaps_span dwave l a :
  StronglySorted (fun a b => (a + dwave <= b)%Qc) (a :: l) ->
  exists b, In b (a :: l) /\ (a + dwave * zq (Z.of_nat (length l)) <= b)%Qc.
Proof.
  revert a. induction l as [|c l IH]; intros a S.
  - exists a. split; [now left|]. cbn. qlra.
  - inversion S as [|? ? S' F]; subst. destruct (IH c S') as (b & Hb & L). exists b. split; [now right|].
    inversion F; subst. cbn [length]. rewrite zq_succ. qlra.
Qed.
Lemma interval_count dwave grid lo hi :
  (0 < dwave)%Qc -> uniform dwave grid ->
  forall p, (forall x, In x grid -> p x = true -> (lo <= x)%Qc /\ (x < hi)%Qc) ->
  (filter p grid = [] \/ zq (Z.of_nat (length (filter p grid))) * dwave < (hi - lo) + dwave)%Qc.
Proof.
  intros H U p Hp. pose proof (filter_sorted _ p _ (gaps_sorted dwave grid H U)) as S.
  assert (forall x, In x (filter p grid) -> (lo <= x)%Qc /\ (x < hi)%Qc) as Q.
  { intros x Hx. apply filter_In in Hx as (A & B). auto. }
  destruct (filter p grid) as [|a l] eqn:E; [now left|]. right.
  destruct (gaps_span dwave l a S) as (b & Hb & L).
  destruct (Q a) as (Q1 & _); [now left|]. destruct (Q b Hb) as (_ & Q2).
  cbn [length]. rewrite zq_succ. qlra.
Qed.

Lemma z_cut_spec wave1 wave2 f1 f2 skip dwave z grid :
  (0 < f1)%Qc -> (f1 < f2)%Qc -> (0 <= skip)%Qc -> (skip <= 1)%Qc -> (0 < dwave)%Qc -> (0 < 1 + z)%Qc ->
  uniform dwave grid ->
  let '(zmin, zmax) := z_limits wave1 wave2 f1 f2 skip in
  (z < zmin)%Qc \/ (zmax < z)%Qc ->
  (zq (Z.of_nat (length (filter (in_forestb z wave1 wave2 f1 f2) grid)))
     < skip * ((1 + z) * (f2 - f1) / dwave) + 1)%Qc.
Proof.
  intros Hf1 Hf Hs0 Hs1 Hd Hz U. unfold z_limits. intro Hcut.
  assert (dwave <> 0)%Qc as Hdn by (intro C; rewrite C in Hd; discriminate Hd).
  assert (0 < / dwave)%Qc as Hdi by now apply Qcinv_pos.
  assert (0 <= (1 + z) * (f2 - f1))%Qc as HL by (assert (0 < f2 - f1)%Qc by qlra; qnra).
  assert (0 <= skip * ((1 + z) * (f2 - f1) / dwave))%Qc as HN.
  { unfold Qcdiv. assert (0 <= (1 + z) * (f2 - f1) * / dwave)%Qc by qnra. qnra. }
  set (n := zq (Z.of_nat (length (filter (in_forestb z wave1 wave2 f1 f2) grid)))).
  assert (forall t, n * dwave < t + dwave -> t <= skip * ((1 + z) * (f2 - f1)) ->
          n < skip * ((1 + z) * (f2 - f1) / dwave) + 1)%Qc as Fin'.
  { intros t A B. assert (n * dwave * / dwave < (skip * ((1 + z) * (f2 - f1)) + dwave) * / dwave)%Qc as C.
    { apply Qcmult_lt_compat_r; [easy|]. eapply Qclt_le_trans; [exact A|]. qlra. }
    replace (n * dwave * / dwave)%Qc with n in C by (field; easy).
    replace ((skip * ((1 + z) * (f2 - f1)) + dwave) * / dwave)%Qc
      with (skip * ((1 + z) * (f2 - f1) / dwave) + 1)%Qc in C by (field; easy). exact C. }
  assert (n = 0%Qc -> n < skip * ((1 + z) * (f2 - f1) / dwave) + 1)%Qc as Zero.
  { intros ->. eapply Qclt_le_trans with (y := 1%Qc); [reflexivity|]. qlra. }
  destruct Hcut as [Hcut|Hcut].
  - assert (0 < f2 - (f2 - f1) * skip)%Qc as Hden by qnra.
    set (den := (f2 - (f2 - f1) * skip)%Qc) in *.
    assert (den <> 0)%Qc as Hdenn by (intro C; rewrite C in Hden; discriminate Hden).
    assert ((1 + z) * den < wave1)%Qc as K.
    { assert ((1 + z) * den < wave1 / den * den)%Qc as K.
      { apply Qcmult_lt_compat_r; [easy|]. qlra. }
      replace (wave1 / den * den)%Qc with wave1 in K by (field; easy). exact K. }
    destruct (interval_count dwave grid wave1 ((1 + z) * f2)%Qc Hd U (in_forestb z wave1 wave2 f1 f2)) as [E|E].
    { intros x _ Hx. unfold in_forestb in Hx. rewrite !andb_true_iff, !qleb_true, !qltb_true in Hx. tauto. }
    + apply Zero. unfold n. now rewrite E.
    + apply (Fin' _ E). unfold den in K. qnra.
  - assert (0 < f1 + (f2 - f1) * skip)%Qc as Hden by qnra.
    set (den := (f1 + (f2 - f1) * skip)%Qc) in *.
    assert (den <> 0)%Qc as Hdenn by (intro C; rewrite C in Hden; discriminate Hden).
    assert (wave2 < (1 + z) * den)%Qc as K.
    { assert (wave2 / den * den < (1 + z) * den)%Qc as K.
      { apply Qcmult_lt_compat_r; [easy|]. qlra. }
      replace (wave2 / den * den)%Qc with wave2 in K by (field; easy). exact K. }
    destruct (interval_count dwave grid ((1 + z) * f1)%Qc wave2 Hd U (in_forestb z wave1 wave2 f1 f2)) as [E|E].
    { intros x _ Hx. unfold in_forestb in Hx. rewrite !andb_true_iff, !qleb_true, !qltb_true in Hx. tauto. }
    + apply Zero. unfold n. now rewrite E.
    + apply (Fin' _ E). unfold den in K. qnra.
Qed.

(** ** C52 *)
Definition snr_eps : Qc := fq 1 100000000.
Lemma effective_snr_fin l :
  effective_snr (map Fin l) =
  Fin (qsum (map (fun v => v * v * v)%Qc l) / (qsum (map (fun v => v * v)%Qc l) + snr_eps))%Qc.
Proof.
  unfold effective_snr.
  assert (forall m n, fold_left (fun acc v =>
      (nadd (fst acc) (nmul (nmul v v) v), nadd (snd acc) (nmul v v))) (map Fin l) (Fin m, Fin n)
    = (Fin (m + qsum (map (fun v => v * v * v) l)), Fin (n + qsum (map (fun v => v * v) l)))%Qc) as H.
  { induction l as [|x l IH]; intros m n; cbn [map fold_left fst snd].
    - cbn. f_equal; f_equal; ring.
    - cbn [nmul nadd]. rewrite IH, !qsum_cons. f_equal; f_equal; ring. }
  unfold n0, nlit. rewrite H.
  assert (0 <= qsum (map (fun v => v * v)%Qc l))%Qc as P.
  { apply qsum_nonneg. apply Forall_map, Forall_forall. intros x _. qnra. }
  rewrite ndiv_fin.
  - unfold snr_eps. f_equal. f_equal; ring.
  - intro C. assert (0 < fq 1 100000000)%Qc by reflexivity. qlra.
Qed.
Lemma snr_norm_pos l : (0 < qsum (map (fun v => v * v)%Qc l) + snr_eps)%Qc.
Proof.
  assert (0 <= qsum (map (fun v => v * v)%Qc l))%Qc as P.
  { apply qsum_nonneg. apply Forall_map, Forall_forall. intros x _. qnra. }
  assert (0 < snr_eps)%Qc by reflexivity. qlra.
Qed.
Lemma cubes_le hi l : (forall v, In v l -> (v <= hi)%Qc) ->
  (qsum (map (fun v => v * v * v) l) <= hi * qsum (map (fun v => v * v) l))%Qc.
Proof.
  induction l as [|x l IH]; intro H; cbn [map].
  - unfold qsum. cbn [fold_right]. qlra.
  - rewrite !qsum_cons. assert (x <= hi)%Qc as Hx by (apply H; now left).
    assert (0 <= x * x)%Qc by qnra.
    assert (x * x * x <= hi * (x * x))%Qc by qnra.
    assert (qsum (map (fun v => v * v * v) l) <= hi * qsum (map (fun v => v * v) l))%Qc
      by (apply IH; intros; apply H; now right). qlra.
Qed.
Lemma cubes_ge lo l : (forall v, In v l -> (lo <= v)%Qc) ->
  (lo * qsum (map (fun v => v * v) l) <= qsum (map (fun v => v * v * v) l))%Qc.
Proof.
  induction l as [|x l IH]; intro H; cbn [map].
  - unfold qsum. cbn [fold_right]. qlra.
  - rewrite !qsum_cons. assert (lo <= x)%Qc as Hx by (apply H; now left).
    assert (0 <= x * x)%Qc by qnra.
    assert (lo * (x * x) <= x * x * x)%Qc by qnra.
    assert (lo * qsum (map (fun v => v * v) l) <= qsum (map (fun v => v * v * v) l))%Qc
      by (apply IH; intros; apply H; now right). qlra.
Qed.
Lemma div_le_iff a b c : (0 < b)%Qc -> (a / b <= c <-> a <= c * b)%Qc.
Proof.
  intro H. assert (b <> 0)%Qc as Hn by (intro C; rewrite C in H; discriminate H).
  split; intro K.
  - replace a with (a / b * b)%Qc by (field; easy). apply Qcmult_le_compat_r; [easy|now apply Qclt_le_weak].
  - replace c with (c * b * / b)%Qc by (field; easy). unfold Qcdiv.
    apply Qcmult_le_compat_r; [easy|]. apply Qclt_le_weak. now apply Qcinv_pos.
Qed.
Lemma le_div_iff a b c : (0 < b)%Qc -> (c <= a / b <-> c * b <= a)%Qc.
Proof.
  intro H. assert (b <> 0)%Qc as Hn by (intro C; rewrite C in H; discriminate H).
  split; intro K.
  - replace a with (a / b * b)%Qc by (field; easy). apply Qcmult_le_compat_r; [easy|now apply Qclt_le_weak].
  - replace c with (c * b * / b)%Qc by (field; easy). unfold Qcdiv.
    apply Qcmult_le_compat_r; [easy|]. apply Qclt_le_weak. now apply Qcinv_pos.
Qed.
Lemma effective_snr_bounds lo hi l :
  (lo <= 0)%Qc -> (0 <= hi)%Qc -> (forall v, In v l -> (lo <= v)%Qc /\ (v <= hi)%Qc) ->
  exists r, effective_snr (map Fin l) = Fin r /\ (lo <= r)%Qc /\ (r <= hi)%Qc.
Proof.
  intros Hlo Hhi H. eexists. split; [apply effective_snr_fin|].
  pose proof (snr_norm_pos l) as P. assert (0 < snr_eps)%Qc as E by reflexivity.
  set (e := snr_eps) in *. split.
  - apply le_div_iff; [easy|].
    pose proof (cubes_ge lo l (fun v Hv => proj1 (H v Hv))) as K. qnra.
  - apply div_le_iff; [easy|].
    pose proof (cubes_le hi l (fun v Hv => proj2 (H v Hv))) as K. qnra.
Qed.
Lemma effective_snr_perm l l' :
  Permutation l l' -> effective_snr (map Fin l) = effective_snr (map Fin l').
Proof.
  intro P. rewrite !effective_snr_fin. f_equal.
  assert (forall f : Qc -> Qc, qsum (map f l) = qsum (map f l')) as E.
  { intro f. apply qsum_perm. now apply Permutation_map. }
  now rewrite !E.
Qed.
Lemma effective_snr_single v : (0 < v)%Qc ->
  exists r, effective_snr [Fin v] = Fin r /\ (v - snr_eps / v <= r)%Qc /\ (r < v)%Qc.
Proof.
  intro H. eexists. split; [apply (effective_snr_fin [v])|]. pose proof (snr_norm_pos [v]) as P.
  cbn [map] in *. unfold qsum in *. cbn [fold_right] in *.
  assert (0 < snr_eps)%Qc as E by reflexivity. set (e := snr_eps) in *.
  assert (v <> 0)%Qc as Hv by (intro C; rewrite C in H; discriminate H).
  assert (v * v + 0 + e <> 0)%Qc as Hn by (intro C; rewrite C in P; discriminate P).
  set (r := ((v * v * v + 0) / (v * v + 0 + e))%Qc).
  assert (v * v + 0 + e = v * v + e)%Qc as E0 by ring. rewrite E0 in Hn.
  assert (r * (v * v + e) = v * v * v)%Qc as Hr by (unfold r; rewrite E0; field; exact Hn).
  assert (0 < v * v)%Qc by qnra.
  split.
  - apply le_div_iff; [easy|].
    replace ((v - e / v) * (v * v + 0 + e))%Qc with (v * v * v - e * e / v)%Qc by (field; easy).
    assert (0 <= e * e / v)%Qc. { unfold Qcdiv. assert (0 < / v)%Qc by now apply Qcinv_pos. qnra. } qlra.
  - destruct (Qclt_le_dec r v) as [|C]; [easy|]. exfalso.
    assert (v * (v * v + e) <= r * (v * v + e))%Qc by (apply Qcmult_le_compat_r; [easy|]; qlra).
    assert (0 < v * e)%Qc by qnra. rewrite Hr in *. qlra.
Qed.

(** ** C51 *)
Lemma spec_init_wave nsqrt st cat wave flux ivar mask reso idx st' s :
  spec_init nsqrt st cat wave flux ivar mask reso idx = Ok (st', s) ->
  set_wave wave false st = Ok st' /\ s_wave s = st_wave st'.
Proof.
  unfold spec_init. intro E. apply rbind_Ok in E as (st1 & E1 & E).
  apply rbind_Ok in E as (acc & E2 & E). apply rbind_Ok in E as (r & E3 & E).
  injection E as <- <-. easy.
Qed.
Lemma set_wave_first wave c st st' :
  st_wave st = [] -> set_wave wave c st = Ok st' ->
  st_wave st' = wave /\ exists arm w0 w1 r rest, wave = (arm, w0 :: w1 :: r) :: rest /\ st_dwave st' = (w1 - w0)%Qc.
Proof.
  intros H E. unfold set_wave in E. rewrite H in E. apply rbind_Ok in E as ((arm, w) & E1 & E).
  destruct wave as [|p wave]; [discriminate E1|]. cbn in E1. injection E1 as ->. cbn [snd] in E.
  destruct w as [|w0 [|w1 r]]; try discriminate E. injection E as <-. cbn. split; [easy|]. repeat eexists.
Qed.
Lemma set_wave_later wave st st' :
  st_wave st <> [] -> set_wave wave false st = Ok st' -> st' = st.
Proof.
  intros H E. unfold set_wave in E. destruct (st_wave st); [easy|]. now injection E.
Qed.
Lemma init_all_later nsqrt st l st' specs :
  st_wave st <> [] -> init_all nsqrt st l = Ok (st', specs) ->
  st' = st /\ forall s, In s specs -> s_wave s = st_wave st.
Proof.
  revert st specs. induction l as [|a l IH]; intros st specs H E; cbn in E.
  - injection E as <- <-. split; [easy|]. intros s [].
  - apply rbind_Ok in E as ((st1, s1) & E1 & E). apply rbind_Ok in E as ((st2, r) & E2 & E).
    injection E as <- <-. cbn [fst snd] in *. apply spec_init_wave in E1 as (E1 & Es).
    apply set_wave_later in E1; [|easy]. subst st1. destruct (IH st r H E2) as (-> & K).
    split; [easy|]. intros s [<-|Hs]; auto.
Qed.
Lemma init_all_shared nsqrt a l st' specs :
  init_all nsqrt statics0 (a :: l) = Ok (st', specs) ->
  length specs = S (length l) /\ st_wave st' = ia_wave a /\
  (exists arm w0 w1 r rest, ia_wave a = (arm, w0 :: w1 :: r) :: rest /\ st_dwave st' = (w1 - w0)%Qc) /\
  forall s, In s specs -> s_wave s = ia_wave a.
Proof.
  intro E. cbn in E. apply rbind_Ok in E as ((st1, s1) & E1 & E).
  apply rbind_Ok in E as ((st2, r) & E2 & E). injection E as <- <-. cbn [fst snd] in *.
  assert (length r = length l) as L.
  { clear - E2. revert st1 st2 r E2. induction l as [|b l IH]; intros st1 st2 r E; cbn in E.
    - now injection E as <- <-.
    - apply rbind_Ok in E as ((x, y) & E1 & E). apply rbind_Ok in E as ((x', y') & E2 & E).
      injection E as <- <-. cbn [fst snd length] in *. f_equal. eapply IH; eauto. }
  apply spec_init_wave in E1 as (E1 & Es). apply set_wave_first in E1 as (Ew & Hd); [|easy].
  pose proof Hd as (arm & w0 & w1 & q & rest & Hw & _).
  apply init_all_later in E2 as (-> & K); [|rewrite Ew, Hw; discriminate].
  split; [cbn; lia|]. split; [easy|]. split; [easy|]. rewrite Ew in *. intros s [<-|H]; [easy|]. now apply K.
Qed.

Lemma allclose_refl l : allclose l l = Ok true.
Proof.
  unfold allclose. rewrite zip2_eq by easy. cbn. f_equal.
  induction l as [|x l IH]; cbn; [easy|]. rewrite IH.
  assert (qleb (qabs' (x - x)) (fq 1 100000000 + fq 1 100000 * qabs' x) = true)%Qc as ->; [|easy].
  apply qleb_true. replace (x - x)%Qc with 0%Qc by ring. unfold qabs' at 1. cbn.
  assert (0 <= qabs' x)%Qc. { unfold qabs'. destruct (qleb 0 x) eqn:E; [now apply qleb_true|].
    apply qleb_false in E. qlra. }
  assert (0 < fq 1 100000000)%Qc by reflexivity. assert (0 < fq 1 100000)%Qc by reflexivity. qnra.
Qed.
Lemma set_wave_check wave st :
  st_wave st <> [] -> NoDup (dkeys (st_wave st)) ->
  (forall arm, In arm (dkeys (st_wave st)) -> In arm (dkeys wave)) -> set_wave wave true st = Ok st.
Proof.
  intros H N K. unfold set_wave.
  assert (forall d, (forall arm w, In (arm, w) d -> In (arm, w) (st_wave st)) ->
    for_each d (fun p s => if dmem (fst p) wave then
            rbind (rget (fst p) (st_wave st)) (fun stored =>
            rbind (allclose stored (snd p)) (fun ok =>
            if ok then Ok s else Err (OtherExn "AssertionError")))
          else Err (OtherExn "AssertionError")) st = Ok st) as F.
  { induction d as [|(arm, w) d IH]; intro Hd; cbn [for_each]; [easy|]. cbn [fst snd].
    assert (In (arm, w) (st_wave st)) as Hin by (apply Hd; now left).
    assert (dmem arm wave = true) as ->.
    { apply dmem_In, K. now apply (in_map fst) in Hin. }
    unfold rget. rewrite (In_pair_dget _ _ _ N Hin). cbn [of_option rbind].
    rewrite allclose_refl. cbn [rbind]. apply IH. intros; apply Hd; now right. }
  destruct (st_wave st) as [|p d] eqn:E; [easy|]. apply F. auto.
Qed.
Lemma set_wave_missing wave st arm :
  st_wave st <> [] -> In arm (dkeys (st_wave st)) -> ~ In arm (dkeys wave) ->
  forall st', set_wave wave true st <> Ok st'.
Proof.
  intros H Hin Hn st'. unfold set_wave. destruct (st_wave st) as [|p d] eqn:E; [easy|].
  intro C.
  assert (forall d s, In arm (dkeys d) ->
    for_each d (fun p s => if dmem (fst p) wave then
            rbind (rget (fst p) (st_wave st)) (fun stored =>
            rbind (allclose stored (snd p)) (fun ok =>
            if ok then Ok s else Err (OtherExn "AssertionError")))
          else Err (OtherExn "AssertionError")) s <> Ok st') as F.
  { induction d0 as [|(a, w) d0 IH]; intros s Hd Q; cbn in Hd, Q; [easy|].
    apply rbind_Ok in Q as (s1 & Q1 & Q2). destruct Hd as [->|Hd]; [|eapply IH; eauto].
    destruct (dmem arm wave) eqn:M; [|discriminate]. apply dmem_In in M. contradiction. }
  rewrite E in F. eapply F; eauto.
Qed.
