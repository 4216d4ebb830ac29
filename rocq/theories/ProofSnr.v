(** C63: signal-to-noise ratios. *)
From Coq Require Import ZArith String List Bool Arith Lia Sorted Qcanon.
From Verif Require Import Num NpList NpListFacts Exn Dict ModelSpectrum SpecSpectrum SpecMasks SpecWeights SpecCoadd SpecSnr
  ProofSpectrum1 ProofSpectrum2 ProofCoadd ProofCoadd2 ProofCoadd3.
Import ListNotations.
Local Open Scope nat_scope.

Section Snr.
Variables (nsqrt : num -> num) (sq : Qc -> Qc).
Hypothesis Hsq : square_root nsqrt sq.

Lemma usable_cons p l : usable (p :: l) -> (exists f i, p_flux p = Fin f /\ p_ivar p = Fin i /\ (0 <= i)%Qc) /\ usable l.
Proof.
  intro H. split; [|intros q Hq; apply H; now right]. destruct (H p (or_introl eq_refl)) as ((f & ?) & i & ? & ?). exists f, i. auto.
Qed.
Lemma npos_fin q : npos (Fin q) = qltb 0 q.
Proof. reflexivity. Qed.
Lemma nonneg_cases i : (0 <= i)%Qc -> qltb 0 i = false -> i = 0%Qc.
Proof. intros H E. apply qltb_false in E. now apply Qcle_antisym. Qed.

Lemma snr_dot l : usable l -> nsum (map2 nmul (map nsqrt (map p_ivar l)) (map p_flux l)) = Fin (snr_sum sq l).
Proof.
  destruct Hsq as (S1 & S2 & _). induction l as [|p l IH]; intro U; [reflexivity|]. apply usable_cons in U as ((f & i & Ef & Ei & Hi) & U).
  cbn [map map2 nsum fold_right]. fold (nsum (map2 nmul (map nsqrt (map p_ivar l)) (map p_flux l))). rewrite (IH U), Ef, Ei, (S1 i Hi). cbn [nmul nadd].
  unfold snr_sum. cbn [filter]. unfold unmasked at 2. rewrite Ei. change (nltb n0 (Fin i)) with (qltb 0 i).
  destruct (qltb 0 i) eqn:E.
  - cbn [map]. rewrite qsum_cons. unfold pixel_snr at 2. rewrite Ef, Ei. cbn [nval]. f_equal. ring.
  - rewrite (nonneg_cases i Hi E), S2. f_equal. ring.
Qed.
Lemma dot_comm a b : map2 nmul a b = map2 nmul b a.
Proof.
  revert b. induction a as [|x a IH]; intros [|y b]; cbn; [easy..|]. rewrite IH. f_equal. destruct x, y; cbn; try reflexivity.
  f_equal. ring.
Qed.
Lemma count_w l : usable l -> ncount npos (map nsqrt (map p_ivar l)) = Fin (snr_count l).
Proof.
  destruct Hsq as (S1 & S2 & S3). unfold ncount, snr_count. intro U. do 3 f_equal. unfold count.
  induction l as [|p l IH]; [reflexivity|]. apply usable_cons in U as ((f & i & Ef & Ei & Hi) & U). cbn [map filter].
  rewrite Ei, (S1 i Hi), npos_fin. unfold unmasked at 1. rewrite Ei. change (nltb n0 (Fin i)) with (qltb 0 i).
  destruct (qltb 0 i) eqn:E.
  - apply qltb_true in E. apply S3, qltb_true in E. rewrite E. cbn. now rewrite (IH U).
  - rewrite (nonneg_cases i Hi E), S2. change (qltb 0 0) with false. exact (IH U).
Qed.
Lemma count_i l : ncount npos (map p_ivar l) = Fin (snr_count l).
Proof.
  unfold ncount, snr_count. do 3 f_equal. unfold count. induction l as [|p l IH]; [reflexivity|]. cbn [map filter]. unfold unmasked at 1, npos at 1.
  destruct (nltb n0 (p_ivar p)); cbn; now rewrite IH.
Qed.

(** redwards of the line *)
Lemma skip_red z w : StronglySorted Qclt w -> forall f i, length f = length w -> length i = length w ->
  pixels (skipn (searchsorted w ((1 + z) * wave_lya)%Qc) w) (skipn (searchsorted w ((1 + z) * wave_lya)%Qc) f) (skipn (searchsorted w ((1 + z) * wave_lya)%Qc) i)
  = filter (redside z) (pixels w f i).
Proof.
  induction 1 as [|x w S IH F]; intros [|y f] [|v i] Lf Li; try discriminate; [reflexivity|].
  injection Lf as Lf. injection Li as Li. cbn [searchsorted pixels filter]. unfold redside at 1. cbn [p_wave]. fold wave_lya.
  destruct (qltb x ((1 + z) * wave_lya)%Qc) eqn:E.
  - cbn [skipn]. rewrite (IH f i Lf Li). apply qltb_true in E.
    destruct (qleb ((1 + z) * wave_lya) x) eqn:E2; [|reflexivity]. apply qleb_true in E2. exfalso. exact (Qcle_not_lt _ _ E2 E).
  - cbn [skipn pixels]. apply qltb_false in E. rewrite (proj2 (qleb_true _ _) E). f_equal.
    assert (G : forall p, In p (pixels w f i) -> redside z p = true).
    { intros p Hp. unfold redside. fold wave_lya. apply qleb_true. apply Qcle_trans with x; [exact E|]. apply Qclt_le_weak.
      rewrite Forall_forall in F. apply F. rewrite <- (proj1 (pixels_wave w f i Lf Li)). now apply in_map. }
    clear - G. induction (pixels w f i) as [|p l IHl]; [reflexivity|]. cbn. rewrite G by now left. f_equal. apply IHl. intros q Hq. apply G. now right.
Qed.

Lemma rsnr_spec z wave flux ivar :
  (forall arm w, In (arm, w) wave -> ascending w /\ exists f i, dget arm flux = Some f /\ dget arm ivar = Some i /\
     length f = length w /\ length i = length w /\ usable (pixels w f i)) ->
  let l := filter (redside z) (flat_map (fun aw => pixels (snd aw) (dlist (fst aw) flux) (dlist (fst aw) ivar)) wave) in
  rsnr_of nsqrt z wave flux ivar = Ok (Fin (snr_sum sq l / (snr_count l + fq 1 1000000))%Qc).
Proof.
  intros H l. unfold rsnr_of. set (body := fun aw (acc : num * num) => _).
  assert (forall d a b, (forall x, In x d -> In x wave) ->
     let l := filter (redside z) (flat_map (fun aw => pixels (snd aw) (dlist (fst aw) flux) (dlist (fst aw) ivar)) d) in
     for_each d body (Fin a, Fin b) = Ok (Fin (a + snr_sum sq l)%Qc, Fin (b + snr_count l)%Qc)) as K.
  { induction d as [|(arm, w) d IH]; intros a b Hd; cbn zeta.
    - cbn. f_equal. f_equal; f_equal; unfold snr_sum, snr_count; cbn; [ring|]. change (zq 0) with 0%Qc. ring.
    - destruct (H arm w (Hd _ (or_introl eq_refl))) as (As & f & i & Ef & Ei & Lf & Li & U).
      cbn [for_each flat_map]. rewrite filter_app. unfold body at 1. cbn [fst snd]. unfold rget. rewrite Ef, Ei. cbn [of_option rbind].
      pose proof (skip_red z w As f i Lf Li) as Sk. set (k := searchsorted w ((1 + z) * wave_lya)%Qc) in *.
      unfold dlist. rewrite Ef, Ei, <- Sk.
      assert (length (skipn k f) = length (skipn k w) /\ length (skipn k i) = length (skipn k w)) as (L1 & L2) by (rewrite !skipn_length; lia).
      destruct (pixels_wave (skipn k w) (skipn k f) (skipn k i) L1 L2) as (_ & P1 & P2). set (r := pixels (skipn k w) (skipn k f) (skipn k i)) in *.
      rewrite <- P1, <- P2. assert (usable r) as Ur.
      { intros p Hp. apply U. rewrite Sk in Hp. now apply filter_In in Hp. }
      unfold ndot. rewrite zip2_eq by now rewrite !map_length. cbn [rmap rbind]. rewrite dot_comm, (snr_dot r Ur), (count_w r Ur). cbn [nadd].
      rewrite (IH _ _ (fun x Hx => Hd x (or_intror Hx))). f_equal. unfold snr_sum, snr_count. rewrite !filter_app, map_app, qsum_app, app_length.
      unfold dlist. rewrite Nat2Z.inj_add. f_equal; f_equal; [ring|]. rewrite zq_plus. ring. }
  change (n0, nlit 1 1000000) with (Fin 0%Qc, Fin (fq 1 1000000)). rewrite (K wave 0%Qc (fq 1 1000000) (fun x Hx => Hx)). cbn zeta. fold l. cbn [rmap fst snd]. f_equal.
  rewrite Qcplus_0_l, (Qcplus_comm (fq 1 1000000)). apply ndiv_fin.
  intro E. assert (0 < snr_count l + fq 1 1000000)%Qc as P.
  { apply Qclt_le_trans with (0 + fq 1 1000000)%Qc; [reflexivity|]. apply Qcplus_le_compat; [|apply Qcle_refl]. unfold snr_count. rewrite <- zq_0. apply zq_le. lia. }
  rewrite E in P. discriminate P.
Qed.

(** the forest *)
Lemma mask_bright l : usable l ->
  mask_get (map npos (map p_flux l)) (map p_flux l) = Ok (map p_flux (filter bright l)) /\
  mask_get (map npos (map p_flux l)) (map p_ivar l) = Ok (map p_ivar (filter bright l)).
Proof.
  intros _. unfold mask_get. rewrite !zip2_eq by now rewrite !map_length. cbn [rmap rbind].
  split; f_equal; (induction l as [|p l IH]; [reflexivity|]); cbn [map map2 flat_map filter fst snd];
    rewrite IH; unfold bright at 2, npos at 1; destruct (nltb n0 (p_flux p)); reflexivity.
Qed.
Lemma usable_filter g l : usable l -> usable (filter g l).
Proof. intros U p Hp. apply U. now apply filter_In in Hp. Qed.
Lemma dot_fi l : usable l -> ndot (map p_flux l) (map p_ivar l) = Ok (Fin (qsum (map (fun p => nval (p_flux p) * nval (p_ivar p))%Qc l))).
Proof.
  intro U. unfold ndot. rewrite zip2_eq by now rewrite !map_length. cbn [rmap rbind]. f_equal.
  induction l as [|p l IH]; [reflexivity|]. apply usable_cons in U as ((f & i & Ef & Ei & _) & U). cbn [map map2 nsum fold_right].
  fold (nsum (map2 nmul (map p_flux l) (map p_ivar l))). rewrite (IH U), qsum_cons, Ef, Ei. reflexivity.
Qed.
Lemma nsum_iv l : usable l -> nsum (map p_ivar l) = Fin (qsum (map (fun p => nval (p_ivar p)) l)).
Proof.
  intro U. induction l as [|p l IH]; [reflexivity|]. apply usable_cons in U as ((f & i & Ef & Ei & _) & U). cbn [map nsum fold_right].
  fold (nsum (map p_ivar l)). rewrite (IH U), qsum_cons, Ei. reflexivity.
Qed.
Definition mean_or_zero (l : list pixel) : num :=
  if Nat.eqb (length (filter unmasked l)) 0 then n0 else Fin (snr_sum sq l / snr_count l)%Qc.
Lemma arm_snr l : usable l -> arm_mean_snr nsqrt (map p_flux l) (map p_ivar l) = Ok (mean_or_zero l).
Proof.
  intro U. unfold arm_mean_snr, mean_or_zero.
  assert (count npos (map p_ivar l) = length (filter unmasked l)) as ->.
  { pose proof (count_i l) as C. unfold ncount, snr_count in C. assert (zq (Z.of_nat (count npos (map p_ivar l))) = zq (Z.of_nat (length (filter unmasked l)))) as C' by congruence.
    apply zq_inj in C'. lia. }
  destruct (Nat.eqb_spec (length (filter unmasked l)) 0) as [E|E]; [reflexivity|].
  unfold ndot. rewrite zip2_eq by now rewrite !map_length. cbn [rmap rbind]. rewrite (snr_dot l U), count_i. f_equal. apply ndiv_fin.
  unfold snr_count. intro C. rewrite <- zq_0 in C. apply zq_inj in C. lia.
Qed.

Lemma related_spec s s' : set_forest_related nsqrt s = Ok s' -> NoDup (dkeys (fivar (s_f s))) ->
  (forall arm, len_at (ff (s_f s)) arm = len_at (fw (s_f s)) arm /\ len_at (fivar (s_f s)) arm = len_at (fw (s_f s)) arm) ->
  usable (forest_pixels s) ->
  s_f s' = s_f s /\ (exists m, s_msnr s' = Some m /\ dkeys m = dkeys (fivar (s_f s)) /\
    forall arm, In arm (dkeys (fivar (s_f s))) -> dget arm m = Some (mean_or_zero (forest_arm s arm))) /\
  s_x s' = upd 0 (fun _ => Fin (ivar_flux_sum (forest_pixels s) / (ivar_sum (forest_pixels s) + fq 1 1000000))%Qc) (s_x s).
Proof.
  intros E Nd L U. unfold set_forest_related in E. apply rbind_Ok in E as (acc & E & E').
  set (body := fun ai (acc : num * num * dict num) => _) in E.
  assert (K : forall d a b ms, (forall x, In x d -> In x (fivar (s_f s))) -> NoDup (dkeys d) -> (forall k, In k (dkeys d) -> ~ In k (dkeys ms)) ->
     let l := flat_map (forest_arm s) (dkeys d) in
     for_each d body (Fin a, Fin b, ms) =
       Ok (Fin (a + ivar_flux_sum l)%Qc, Fin (b + ivar_sum l)%Qc, ms ++ map (fun k => (k, mean_or_zero (forest_arm s k))) (dkeys d))).
  { induction d as [|(arm, iv) d IH]; intros a b ms Hd Nk Fr; cbn zeta.
    - cbn. rewrite app_nil_r. f_equal. f_equal. f_equal; f_equal; unfold ivar_flux_sum, ivar_sum; cbn; ring.
    - cbn [for_each]. unfold body at 1. cbn [fst snd]. inversion Nk as [|? ? N1 N2]; subst.
      assert (dget arm (fivar (s_f s)) = Some iv) as Ei by (apply NoDup_dget; [exact Nd|apply Hd; now left]).
      destruct (L arm) as (L1 & L2). unfold len_at in L1, L2. rewrite Ei in L2.
      destruct (dget arm (fw (s_f s))) as [w|] eqn:Ew; [|discriminate L2]. cbn in L2. injection L2 as L2.
      destruct (dget arm (ff (s_f s))) as [fl|] eqn:Ef; [|discriminate L1]. cbn in L1. injection L1 as L1.
      assert (forest_arm s arm = pixels w fl iv) as Fa by (unfold forest_arm, dlist; now rewrite Ew, Ef, Ei).
      assert (usable (forest_arm s arm)) as Ua.
      { intros p Hp. apply U. unfold forest_pixels. apply in_flat_map. exists arm. split; [|exact Hp]. apply in_map_iff. exists (arm, iv). split; [reflexivity|]. apply Hd. now left. }
      destruct (pixels_wave w fl iv L1 L2) as (_ & P1 & P2). rewrite <- Fa in P1, P2. set (r := forest_arm s arm) in *.
      unfold rget. rewrite Ef. cbn [of_option rbind]. rewrite <- P1, <- P2.
      destruct (mask_bright r Ua) as (-> & ->). cbn [rbind]. rewrite (dot_fi _ (usable_filter bright r Ua)). cbn [rbind].
      rewrite (arm_snr r Ua). cbn [rbind]. rewrite (nsum_iv _ (usable_filter bright r Ua)). cbn [nadd].
      assert (dset arm (mean_or_zero r) ms = ms ++ [(arm, mean_or_zero r)]) as ->.
      { assert (~ In arm (dkeys ms)) as Nm by (apply Fr; now left). clear - Nm. induction ms as [|(k, v) ms IHm]; [reflexivity|].
        cbn in Nm |- *. destruct (String.eqb_spec arm k) as [->|N]; [exfalso; apply Nm; now left|]. f_equal. apply IHm. intro; apply Nm; now right. }
      rewrite IH; [|intros x Hx; apply Hd; now right|exact N2|].
      + cbn [dkeys map flat_map fst]. fold r. rewrite <- app_assoc. cbn [app]. f_equal.
        unfold ivar_flux_sum, ivar_sum. fold (dkeys d). rewrite !filter_app, !map_app, !qsum_app. f_equal. f_equal; f_equal; ring.
      + intros k Hk C. unfold dkeys in C. rewrite map_app in C. apply in_app_or in C as [C|[C|[]]]; [apply (Fr k); [now right|exact C]|].
        cbn in C. subst k. contradiction. }
  pose proof (K (fivar (s_f s)) 0%Qc (fq 1 1000000) [] (fun x H => H) Nd (fun _ _ C => C)) as K0. cbn zeta in K0. fold (forest_pixels s) in K0.
  assert (Ok acc = Ok (Fin (0 + ivar_flux_sum (forest_pixels s))%Qc, Fin (fq 1 1000000 + ivar_sum (forest_pixels s))%Qc,
     map (fun k => (k, mean_or_zero (forest_arm s k))) (dkeys (fivar (s_f s))))) as Ea by (rewrite <- E; exact K0). clear E K0.
  assert (acc = (Fin (0 + ivar_flux_sum (forest_pixels s))%Qc, Fin (fq 1 1000000 + ivar_sum (forest_pixels s))%Qc,
     map (fun k => (k, mean_or_zero (forest_arm s k))) (dkeys (fivar (s_f s))))) as -> by congruence.
  match type of E' with Ok ?t = _ => assert (s' = t) as -> by congruence end. cbn [s_f set_msnr set_x s_msnr s_x].
  split; [reflexivity|]. split.
  - eexists. split; [reflexivity|]. split.
    + unfold dkeys at 1. rewrite map_map. cbn [fst]. apply map_id.
    + intros arm Hin. clear - Hin. induction (dkeys (fivar (s_f s))) as [|k l IH]; [easy|]. cbn. destruct (String.eqb_spec arm k) as [->|N]; [reflexivity|].
      apply IH. destruct Hin as [->|Hin]; [contradiction|exact Hin].
  - rewrite Qcplus_0_l, (Qcplus_comm (fq 1 1000000)). rewrite ndiv_fin; [reflexivity|].
    intro C. assert (0 < ivar_sum (forest_pixels s) + fq 1 1000000)%Qc as P.
    { apply Qclt_le_trans with (0 + fq 1 1000000)%Qc; [reflexivity|]. apply Qcplus_le_compat; [|apply Qcle_refl]. unfold ivar_sum. apply qsum_nonneg.
      apply Forall_map, Forall_forall. intros p Hp. apply filter_In in Hp as (Hp & _). destruct (U p Hp) as (_ & i & -> & Hi). exact Hi. }
    rewrite C in P. discriminate P.
Qed.
End Snr.

Lemma rsnr_thm nsqrt sq st cat wave flux ivar mask reso idx st' s : square_root nsqrt sq ->
  spec_init nsqrt st cat wave flux ivar mask reso idx = Ok (st', s) ->
  NoDup (dkeys (s_wave s)) -> data_matches_grid s -> (forall arm w, dget arm (s_wave s) = Some w -> ascending w) ->
  usable (spectrum_pixels s) ->
  let l := filter (redside (c_z cat)) (spectrum_pixels s) in
  s_rsnr s = Fin (snr_sum sq l / (snr_count l + fq 1 1000000))%Qc.
Proof.
  intros Hsq E Nd D As U l. unfold spec_init in E. apply rbind_Ok in E as (st1 & _ & E). apply rbind_Ok in E as (acc & _ & E).
  apply rbind_Ok in E as (r & Er & E). match type of E with Ok (_, ?t) = _ => assert (s = t) as -> by congruence end.
  cbn [s_wave s_flux s_ivar s_rsnr] in *. unfold spectrum_pixels in *. cbn [s_wave s_flux s_ivar] in *.
  rewrite (rsnr_spec nsqrt sq Hsq) in Er.
  - fold l in Er. congruence.
  - intros arm w Hin. pose proof (NoDup_dget _ _ _ Nd Hin) as Ew. split; [exact (As arm w Ew)|]. destruct (D arm) as (D1 & D2). cbn [s_wave s_flux s_ivar] in *.
    destruct (len_dget _ _ _ _ D1 Ew) as (f & Ef & Lf). destruct (len_dget _ _ _ _ D2 Ew) as (i & Ei & Li). exists f, i. repeat (split; [assumption|]).
    intros p Hp. apply U. apply in_flat_map. exists (arm, w). split; [exact Hin|]. cbn [fst snd]. unfold dlist. rewrite Ef, Ei. exact Hp.
Qed.

Lemma pixels_map l : pixels (map p_wave l) (map p_flux l) (map p_ivar l) = l.
Proof. induction l as [|p l IH]; [reflexivity|]. cbn. rewrite IH. now destruct p. Qed.

Lemma region_nodup nsqrt w1 w2 a b s s' : s_f s = empty_forest -> set_forest_region nsqrt w1 w2 a b s = Ok s' -> NoDup (dkeys (fivar (s_f s'))).
Proof.
  intros He E. unfold set_forest_region in E. destruct (forest_limits (s_z s) w1 w2 a b) as [l1 l2].
  apply rbind_Ok in E as (f & E & E'). apply set_forest_related_forest in E'. rewrite E'. cbn.
  eapply (for_each_inv (fun g => ri g < length (hp g) /\ NoDup (dkeys (fivar g)))) in E.
  - destruct E as (_ & E). exact E.
  - intros (arm, w) g g' _ (H1 & H2) B. cbn in B. apply rbind_Ok in B as (iv & _ & B). destruct (Nat.eqb _ 0) in B; [assert (g' = g) as -> by congruence; auto|].
    apply rbind_Ok in B as (fl & _ & B).
    assert (forall h, ri h = ri g -> hp h = hp (mut_ref (ri g) (dset arm (slice (searchsorted w l1) (searchsorted w l2) iv)) g) -> ri h < length (hp h) /\ NoDup (dkeys (fivar h))) as G.
    { intros h R1 R2. unfold fivar. rewrite R1, R2. cbn. rewrite upd_length. split; [exact H1|]. rewrite nth_upd by exact H1. rewrite Nat.eqb_refl. now apply dset_NoDup. }
    destruct (dtrue (s_reso s)).
    + apply rbind_Ok in B as (m & _ & B). match type of B with Ok ?t = _ => assert (g' = t) as -> by congruence end. now apply G.
    + match type of B with Ok ?t = _ => assert (g' = t) as -> by congruence end. now apply G.
  - rewrite He. cbn. split; [lia|constructor].
Qed.

Lemma forest_snr_thm nsqrt sq w1 w2 lya1 lya2 s s' : square_root nsqrt sq ->
  s_f s = empty_forest -> NoDup (dkeys (s_wave s)) -> data_matches_grid s -> (forall arm w, dget arm (s_wave s) = Some w -> ascending w) ->
  usable (spectrum_pixels s) -> set_forest_region nsqrt w1 w2 lya1 lya2 s = Ok s' ->
  (exists m, s_msnr s' = Some m /\ dkeys m = dkeys (fivar (s_f s')) /\
    forall arm, In arm (dkeys m) -> (0 < snr_count (forest_arm s' arm))%Qc /\
      dget arm m = Some (Fin (snr_sum sq (forest_arm s' arm) / snr_count (forest_arm s' arm))%Qc)) /\
  s_x s' = upd 0 (fun _ => Fin (ivar_flux_sum (forest_pixels s') / (ivar_sum (forest_pixels s') + fq 1 1000000))%Qc) (s_x s).
Proof.
  intros Hsq He Nd D As U E. pose proof (set_forest_region_spec nsqrt w1 w2 lya1 lya2 s s' He Nd D E) as Sp.
  pose proof (region_nodup _ _ _ _ _ _ _ He E) as Nf.
  assert (forall arm, In arm (dkeys (fivar (s_f s'))) -> exists px, forest_arm s' arm = px /\ (exists p, In p px /\ good (p_ivar p)) /\
    (forall p, In p px -> In p (spectrum_pixels s)) /\ len_at (ff (s_f s')) arm = len_at (fw (s_f s')) arm /\ len_at (fivar (s_f s')) arm = len_at (fw (s_f s')) arm) as A.
  { intros arm Hin. destruct (proj1 (Dict.dget_In _ _) Hin) as (iv0 & Hin0). destruct (Sp arm) as (Q & _).
    destruct (dget arm (s_wave s)) as [w|] eqn:Ew; [|destruct Q as (_ & _ & Q); congruence].
    destruct (dget arm (s_flux s)) as [fl|] eqn:Ef; [|destruct Q as (_ & _ & Q); congruence].
    destruct (dget arm (s_ivar s)) as [iv|] eqn:Ei; [|destruct Q as (_ & _ & Q); congruence].
    specialize (Q (As arm w Ew)). cbn zeta in Q. destruct Q as (Q1 & Q2).
    set (px := filter (fun p => in_forestb (s_z s) w1 w2 lya1 lya2 (p_wave p)) (pixels w fl iv)) in *.
    destruct (existsb (fun p => nltb n0 (p_ivar p)) px) eqn:Ex.
    - apply existsb_exists in Ex. destruct (Q1 Ex) as (G1 & G2 & G3). exists px. unfold forest_arm, dlist. rewrite G1, G2, G3, pixels_map.
      split; [reflexivity|]. split; [exact Ex|]. split.
      + intros p Hp. apply filter_In in Hp as (Hp & _). unfold spectrum_pixels. apply in_flat_map. exists (arm, w). split; [now apply dget_In|].
        cbn [fst snd]. unfold dlist. now rewrite Ef, Ei.
      + unfold len_at. rewrite G1, G2, G3. cbn. now rewrite !map_length.
    - destruct Q2 as (_ & _ & Q2); [|congruence]. intros p Hp C. assert (existsb (fun p => nltb n0 (p_ivar p)) px = true) by (apply existsb_exists; eauto). congruence. }
  assert (s_f s' = s_f s' /\ forall arm, len_at (ff (s_f s')) arm = len_at (fw (s_f s')) arm /\ len_at (fivar (s_f s')) arm = len_at (fw (s_f s')) arm) as (_ & Al).
  { split; [reflexivity|]. intro arm. assert (wff (s_f s')) as [_ _ _ _ F I _ _].
    { eapply set_forest_region_wff; eauto. rewrite He. constructor; cbn; try lia; try constructor; auto. }
    split; [apply F|]. unfold fivar. apply I. }
  unfold set_forest_region in E. destruct (forest_limits (s_z s) w1 w2 lya1 lya2) as [l1 l2]. apply rbind_Ok in E as (f & _ & E).
  pose proof (set_forest_related_forest _ _ _ E) as Ef. set (t := set_f (alias_weight_to_ivar (alias_sm_to_ivar f)) s) in *.
  assert (forall arm, forest_arm t arm = forest_arm s' arm) as Fa by (intro; unfold forest_arm; now rewrite Ef).
  assert (forest_pixels t = forest_pixels s') as Fp by (unfold forest_pixels; rewrite Ef; apply flat_map_ext; intro; apply Fa).
  destruct (related_spec nsqrt sq Hsq t s' E) as (_ & (m & Em & Ek & Hm) & Hx).
  - now rewrite <- Ef.
  - now rewrite <- Ef.
  - rewrite Fp. intros p Hp. unfold forest_pixels in Hp. apply in_flat_map in Hp as (arm & Hin & Hp). apply U. destruct (A arm Hin) as (px & Epx & _ & Sub & _).
    apply Sub. now rewrite <- Epx.
  - rewrite <- Ef in Ek, Hm. rewrite Fp in Hx. split; [|exact Hx]. exists m. split; [exact Em|]. split; [exact Ek|]. intros arm Hin. rewrite Ek in Hin.
    destruct (A arm Hin) as (px & Epx & (p & Hp & Gp) & _). specialize (Hm arm Hin). rewrite Fa in Hm. unfold mean_or_zero in Hm. rewrite Epx in *.
    assert (0 < length (filter unmasked px)) as Lp.
    { assert (In p (filter unmasked px)) as I by (apply filter_In; split; [exact Hp|exact Gp]). destruct (filter unmasked px); [easy|cbn; lia]. }
    destruct (Nat.eqb_spec (length (filter unmasked px)) 0) as [C|_]; [lia|]. split; [|exact Hm]. unfold snr_count. rewrite <- zq_0. apply zq_lt. lia.
Qed.

Lemma set_forest_weight_ff varlss eta s s' : set_forest_weight varlss eta s = Ok s' -> fw (s_f s') = fw (s_f s) /\ ff (s_f s') = ff (s_f s) /\
  (ri (s_f s) < length (hp (s_f s)) -> fivar (s_f s') = fivar (s_f s)).
Proof.
  unfold set_forest_weight. destruct (_ || _).
  - intro E. assert (s' = set_f (alias_weight_to_sm (s_f s)) s) as -> by congruence. repeat split.
  - intro E. apply rbind_Ok in E as (w & _ & E). match type of E with Ok ?t = _ => assert (s' = t) as -> by congruence end. repeat split.
    intro H. unfold fivar. cbn. now rewrite app_nth1.
Qed.
Lemma average_nonneg l f i : weights_ok l -> weighted_average l f i -> (0 <= i)%Qc.
Proof.
  intros W (A & B). assert (0 <= qsum (map e_weight l))%Qc as P.
  { apply qsum_nonneg, Forall_map, Forall_forall. intros e He. now apply W. }
  apply Qcle_lt_or_eq in P as [P|P].
  - destruct (B P) as (_ & ->).
    assert (0 <= qsum (map (fun e => if qltb 0 (e_ivar e) then e_weight e * e_weight e / e_ivar e else 0) l))%Qc as Q.
    { apply qsum_nonneg, Forall_map, Forall_forall. intros e He. destruct (qltb 0 (e_ivar e)) eqn:E; [|apply Qcle_refl]. apply qltb_true in E.
      destruct (W e He) as (W1 & _). unfold Qcdiv. apply Qcmult_nonneg; [now apply Qcmult_nonneg|]. now apply Qclt_le_weak, Qcinv_pos. }
    revert Q. match goal with |- (_ <= ?x)%Qc -> _ => generalize x end. intros x Q. unfold Qcdiv. apply Qcmult_nonneg; [apply Qcmult_nonneg; now apply Qclt_le_weak|].
    apply Qcle_lt_or_eq in Q as [Q|Q]; [now apply Qclt_le_weak, Qcinv_pos|]. rewrite <- Q. apply Qcle_refl.
  - destruct (A (eq_sym P)) as (_ & ->). apply Qcle_refl.
Qed.
Lemma coadd_snr_thm nsqrt sq smooth junk dw varlss eta s : square_root nsqrt sq ->
  (forall l q, length (smooth l q) = length l) -> (0 < dw)%Qc -> coaddable dw s ->
  exists s', coadd_arms_forest nsqrt smooth junk dw varlss eta s = Ok s' /\
    ((0 < snr_count (forest_arm s' "brz"))%Qc ->
       s_msnr s' = Some [("brz"%string, Fin (snr_sum sq (forest_arm s' "brz") / snr_count (forest_arm s' "brz"))%Qc)]).
Proof.
  intros Hsq Hs Hd (P & F1 & F2 & F3 & U & Wk & Hc & Hr).
  destruct (coadd_spec nsqrt smooth Hs junk dw varlss eta s P F1 F2 F3 Hd U Wk Hc Hr) as (s' & mn & mx & E & _ & _ & P' & _ & _ & Efw & Px & _).
  exists s'. split; [exact E|]. intro C.
  unfold coadd_arms_forest in E. apply rbind_Ok in E as (fs & _ & E). apply rbind_Ok in E as (ls & _ & E).
  apply rbind_Ok in E as (mn' & _ & E). apply rbind_Ok in E as (mx' & _ & E).
  apply rbind_Ok in E as (a & _ & E). destruct (coadd_finish a) as (cf & ci).
  apply rbind_Ok in E as (c1 & _ & E). apply rbind_Ok in E as (r1 & _ & E).
  set (s1 := set_cont c1 _) in E.
  apply rbind_Ok in E as (s3 & E3 & E). apply rbind_Ok in E as (d & Ed & E).
  apply set_forest_weight_ff in E3 as (G1 & G2 & G3).
  assert (ff (s_f (set_smooth_forestivar smooth dw (s_sscale s) s1)) = [("brz"%string, cf)] /\
     fivar (s_f (set_smooth_forestivar smooth dw (s_sscale s) s1)) = [("brz"%string, ci)] /\
     ri (s_f (set_smooth_forestivar smooth dw (s_sscale s) s1)) < length (hp (s_f (set_smooth_forestivar smooth dw (s_sscale s) s1)))) as (K1 & K2 & K3).
  { unfold set_smooth_forestivar. destruct (qleb (s_sscale s) 0); cbn; (split; [reflexivity|]); unfold fivar; cbn.
    - rewrite app_nth2, Nat.sub_diag by lia. split; [reflexivity|]. rewrite app_length. cbn. lia.
    - rewrite app_nth1 by (rewrite app_length; cbn; lia). rewrite app_nth2, Nat.sub_diag by lia. split; [reflexivity|]. rewrite !app_length. cbn. lia. }
  rewrite K1 in G2. specialize (G3 K3). rewrite K2 in G3.
  assert (s_msnr s' = Some [("brz"%string, ndiv d (ncount npos ci))] /\ s_f s' = s_f s3) as (Em & Es).
  { match type of E with Ok ?t = _ => assert (s' = t) as -> by congruence end. split; reflexivity. }
  rewrite Em. do 4 f_equal.
  rewrite Es in *. set (wv := linspace mn mx (grid_n mn mx dw)) in *.
  destruct P' as (Al & _). destruct (Al "brz"%string) as (A1 & A2 & _). rewrite Es, G2, G3, Efw in *. unfold len_at in A1, A2. cbn in A1, A2.
  injection A1 as A1. injection A2 as A2.
  assert (forest_arm s' "brz" = pixels wv cf ci) as Fa by (unfold forest_arm; rewrite Es, G2, G3, Efw; reflexivity).
  rewrite Fa in *. destruct (pixels_wave wv cf ci A1 A2) as (_ & P1 & P2).
  assert (length wv = grid_n mn mx dw) as Lw by apply linspace_length.
  assert (usable (pixels wv cf ci)) as Us.
  { intros p Hp. apply In_nth_error in Hp as (j & Hj).
    assert (j < grid_n mn mx dw) as Lj by (rewrite <- Lw, <- A1, <- P1, map_length; apply nth_error_Some; congruence).
    destruct (Px j Lj) as (f & i & Q1 & Q2 & Av). unfold at_pix in Q1, Q2. cbn in Q1, Q2. rewrite <- P1, nth_error_map, Hj in Q1. rewrite <- P2, nth_error_map, Hj in Q2.
    cbn in Q1, Q2. split; [exists f; congruence|]. exists i. split; [congruence|]. eapply average_nonneg; [|exact Av]. intros e He. unfold landing in He. apply filter_In in He as (He & _). now apply Wk. }
  unfold ndot in Ed. rewrite zip2_eq in Ed by (rewrite map_length; lia). cbn [rmap rbind] in Ed.
  set (px := pixels wv cf ci) in *. rewrite <- P1, <- P2 in Ed. rewrite (snr_dot nsqrt sq Hsq _ Us) in Ed. assert (d = Fin (snr_sum sq px)) as -> by congruence.
  rewrite <- P2, count_i. apply ndiv_fin. intro Z. rewrite Z in C. discriminate C.
Qed.
