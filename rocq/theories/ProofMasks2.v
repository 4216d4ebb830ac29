(** C27: sky and BAL masks; C28: DLA mask; C29: sequences of masks. *)
From Coq Require Import Field ZArith String List Bool Arith Lia Sorted Permutation Qcanon.
From Verif Require Import Num NpList NpListFacts Exn Dict ModelSpectrum ModelMasks SpecSpectrum
  SpecMasks ProofGroup ProofSpectrum1 ProofSpectrum2 ProofMasks.
Import ListNotations.
Local Open Scope nat_scope.

Lemma mapped_proper g s s' :
  proper s -> wff (s_f s') -> pixels_mapped g s s' -> proper s'.
Proof.
  intros (_ & _ & S & _) W (F & _). apply wff_proper; [easy|]. rewrite F. exact S.
Qed.

(** masks by wavelength *)
Lemma wave_mask_loop (mk : list Qc -> list bool) (b : Qc -> bool) s :
  proper s -> (forall w, ascending w -> mk w = map b w) ->
  exists f', for_each (fw (s_f s)) (fun aw f =>
      with_arm (fst aw) f (zero_pixels (mk (snd aw)))) (s_f s) = Ok f' /\
    proper (set_f f' s) /\ fr f' = fr (s_f s) /\
    pixels_mapped (fun _ _ p => if b (p_wave p) then (n0, n0) else (p_flux p, p_ivar p)) s (set_f f' s).
Proof.
  intros P M.
  destruct (arms_loop_mapped (fun _ _ p => if b (p_wave p) then (n0, n0) else (p_flux p, p_ivar p))
              (fun _ w => zero_pixels (mk w)) s P) as (f' & E & W & F1 & _ & _ & _ & F5 & _ & _ & Q).
  { intros arm w fl iv _ A L1 L2. eexists. split; [apply (zero_pixels_kernel b w fl iv _ L1 L2); auto|].
    exact (kernel_of_ok _ w fl iv L1 L2). }
  exists f'. split; [exact E|]. split; [|easy]. eapply mapped_proper; eauto.
Qed.

Lemma mapped_zeroes (b : Qc -> bool) (masked : Qc -> Prop) s s' :
  (forall x, b x = true <-> masked x) ->
  pixels_mapped (fun _ _ p => if b (p_wave p) then (n0, n0) else (p_flux p, p_ivar p)) s s' ->
  zeroes_exactly masked s s'.
Proof.
  intros B (F & M). split; [easy|]. intros arm k. rewrite M.
  destruct (pixel_at s arm k) as [p|]; [|easy]. cbn.
  destruct (b (p_wave p)) eqn:Eb; cbn.
  - split; [easy|]. intro H. exfalso. apply H. now apply B.
  - split; [intro H; apply B in H; congruence|]. intros _. now destruct p.
Qed.

Lemma in_interval_true a b x : in_interval a b x = true <-> (a <= x)%Qc /\ (x < b)%Qc.
Proof. unfold in_interval. now rewrite andb_true_iff, qleb_true, qltb_true. Qed.

Lemma rest_set_f f s : fr f = fr (s_f s) -> rest_unchanged s (set_f f s).
Proof. intro H. repeat split. exact H. Qed.

Lemma sky_spec rows s :
  proper s -> (0 < 1 + s_z s)%Qc ->
  exists s', skymask_apply (skymask_init rows) s = Ok s' /\ proper s' /\ rest_unchanged s s' /\
    zeroes_exactly (sky_masked rows (s_z s)) s s'.
Proof.
  intros P Z. unfold skymask_apply.
  destruct (wave_mask_loop (fun w => range_mask (length w) (sky_ranges (skymask_init rows) (s_z s) w)) _ s P
              (fun w A => sky_mask_eq rows (s_z s) w Z A)) as (f' & E & P' & R & M).
  exists (set_f f' s). rewrite E. split; [easy|]. split; [easy|]. split; [now apply rest_set_f|].
  apply (mapped_zeroes (sky_b rows (s_z s))); [|exact M]. intro x. unfold sky_b.
  rewrite existsb_exists. unfold sky_masked.
  split; intros (r & Hr & H); exists r; (split; [easy|]); destruct (sk_frame r);
    rewrite ?in_interval_true in *; try easy; try (intuition congruence).
Qed.

Lemma bal_lines_table : bal_lines = bal_line_table.
Proof. unfold bal_lines, bal_line_table. repeat f_equal; apply Qc_is_canon; reflexivity. Qed.

Lemma bal_velocities_spec c vels :
  bal_velocities c = Ok vels ->
  forall v, In v vels <-> In v (combine (c_vmin450 c ++ c_vmin2000 c) (c_vmax450 c ++ c_vmax2000 c)) /\
    (0 < fst v)%Qc /\ (0 < snd v)%Qc.
Proof.
  unfold bal_velocities. intros E v. apply rmap_Ok in E as (l & E & ->).
  apply zip2_Ok in E as (L & ->). rewrite filter_In, andb_true_iff, !qltb_true.
  assert (map2 pair (c_vmin450 c ++ c_vmin2000 c) (c_vmax450 c ++ c_vmax2000 c)
          = combine (c_vmin450 c ++ c_vmin2000 c) (c_vmax450 c ++ c_vmax2000 c)) as ->; [|easy].
  generalize (c_vmin450 c ++ c_vmin2000 c), (c_vmax450 c ++ c_vmax2000 c).
  induction l as [|x l IH]; intros [|y m]; cbn; auto. now rewrite IH.
Qed.

Lemma bal_masked_iff c vels x :
  bal_velocities c = Ok vels ->
  bal_b (bal_intervals (c_z c) vels) x = true <-> bal_masked c x.
Proof.
  intro E. unfold bal_b. rewrite existsb_exists. unfold bal_intervals, bal_masked. rewrite bal_lines_table.
  split.
  - intros ((a, b) & Hin & H). apply in_flat_map in Hin as (line & Hl & Hin).
    apply in_map_iff in Hin as ((v1, v2) & Ev & Hv). injection Ev as <- <-.
    apply (bal_velocities_spec c vels E) in Hv as (Hv & H1 & H2).
    exists v1, v2, line. repeat (split; [easy|]). cbn [fst snd] in *.
    rewrite orb_true_iff, !in_interval_true in H. exact H.
  - intros (v1 & v2 & line & Hc & H1 & H2 & Hl & H). eexists. split.
    + apply in_flat_map. exists line. split; [exact Hl|]. apply in_map_iff.
      exists (v1, v2). split; [reflexivity|]. apply (bal_velocities_spec c vels E). auto.
    + cbn [fst snd]. rewrite orb_true_iff, !in_interval_true. exact H.
Qed.

Lemma zeroes_none s : proper s -> zeroes_exactly (fun _ => False) s s.
Proof. intros _. split; [easy|]. intros arm k. destruct (pixel_at s arm k); easy. Qed.

Lemma bal_spec s :
  proper s ->
  length (c_vmin450 (s_cat s) ++ c_vmin2000 (s_cat s)) = length (c_vmax450 (s_cat s) ++ c_vmax2000 (s_cat s)) ->
  exists s', balmask_apply s = Ok s' /\ proper s' /\ rest_unchanged s s' /\
    zeroes_exactly (bal_masked (s_cat s)) s s'.
Proof.
  intros P L. unfold balmask_apply.
  assert (exists vels, bal_velocities (s_cat s) = Ok vels) as (vels & Ev).
  { unfold bal_velocities. rewrite zip2_eq by easy. cbn. eauto. }
  rewrite Ev. cbn [rbind].
  destruct (wave_mask_loop (fun w => range_mask (length w) (bal_ranges (bal_intervals (s_z s) vels) w)) _ s P
              (fun w A => bal_mask_eq (bal_intervals (s_z s) vels) w A)) as (f' & E & P' & R & M).
  apply (mapped_zeroes (bal_b (bal_intervals (s_z s) vels)) (bal_masked (s_cat s))) in M.
  2: { intro x. now apply bal_masked_iff. }
  destruct vels as [|v vels].
  - exists s. split; [easy|]. split; [easy|]. split; [repeat split|].
    destruct (zeroes_none s P) as (F & H). split; [easy|]. intros arm k.
    specialize (H arm k). destruct (pixel_at s arm k) as [p|]; [|easy].
    split; [|tauto]. intro B. exfalso. apply (bal_masked_iff _ _ _ Ev) in B.
    unfold bal_b, bal_intervals in B. rewrite existsb_exists in B. destruct B as (q & Hq & _).
    apply in_flat_map in Hq as (l & _ & Hq). destruct Hq.
  - exists (set_f f' s). rewrite E. split; [easy|]. split; [easy|]. split; [now apply rest_set_f|]. easy.
Qed.

(** ** Idempotence and commutation *)
Lemma zeroes_twice m s s1 s2 :
  (forall x, m x \/ ~ m x) ->
  zeroes_exactly m s s1 -> zeroes_exactly m s1 s2 -> same_pixels s1 s2.
Proof.
  intros D (F1 & Z1) (F2 & Z2). split; [easy|]. intros arm k.
  specialize (Z1 arm k). specialize (Z2 arm k).
  destruct (pixel_at s arm k) as [p|].
  - destruct Z1 as (A1 & B1). destruct (D (p_wave p)) as [H|H].
    + rewrite (A1 H) in Z2 |- *. cbn in Z2. now apply (proj1 Z2).
    + rewrite (B1 H) in Z2 |- *. now apply (proj2 Z2).
  - rewrite Z1 in Z2 |- *. exact Z2.
Qed.
Lemma zeroes_comm m n s a b c d :
  (forall x, m x \/ ~ m x) -> (forall x, n x \/ ~ n x) ->
  zeroes_exactly m s a -> zeroes_exactly n a b ->
  zeroes_exactly n s c -> zeroes_exactly m c d -> same_pixels b d.
Proof.
  intros Dm Dn (F1 & Z1) (F2 & Z2) (F3 & Z3) (F4 & Z4). split; [congruence|]. intros arm k.
  specialize (Z1 arm k). specialize (Z2 arm k). specialize (Z3 arm k). specialize (Z4 arm k).
  destruct (pixel_at s arm k) as [p|].
  - destruct Z1 as (A1 & B1), Z3 as (A3 & B3).
    destruct (Dm (p_wave p)) as [H|H], (Dn (p_wave p)) as [K|K];
      rewrite ?(A1 H), ?(B1 H) in Z2; rewrite ?(A3 K), ?(B3 K) in Z4; cbn in Z2, Z4;
      destruct Z2 as (A2 & B2), Z4 as (A4 & B4);
      rewrite ?(A2 K), ?(B2 K), ?(A4 H), ?(B4 H); easy.
  - rewrite Z1 in Z2. rewrite Z3 in Z4. congruence.
Qed.

Lemma sky_dec rows z x : sky_masked rows z x \/ ~ sky_masked rows z x.
Proof.
  unfold sky_masked. induction rows as [|r rows IH]; [right; intros (r & [] & _)|].
  destruct IH as [(q & Hq & H)|IH]; [left; exists q; split; [now right|easy]|].
  destruct (in_interval (sk_min r) (sk_max r) x) eqn:E1,
    (in_interval (sk_min r) (sk_max r) (x / (1 + z))%Qc) eqn:E2, (sk_frame r) eqn:Ef;
    try (left; exists r; split; [now left|]; rewrite ?in_interval_true in *; tauto);
    right; intros (q & [<-|Hq] & H); try (apply IH; exists q; tauto);
    destruct H as [(H0 & H1 & H2)|(H0 & H1 & H2)]; try congruence;
    try (assert (in_interval (sk_min r) (sk_max r) x = true) by (now apply in_interval_true); congruence);
    try (assert (in_interval (sk_min r) (sk_max r) (x / (1 + z))%Qc = true)
      by (now apply in_interval_true); congruence).
Qed.
Lemma bal_dec c x :
  length (c_vmin450 c ++ c_vmin2000 c) = length (c_vmax450 c ++ c_vmax2000 c) ->
  bal_masked c x \/ ~ bal_masked c x.
Proof.
  intro L. assert (exists vels, bal_velocities c = Ok vels) as (vels & Ev).
  { unfold bal_velocities. rewrite zip2_eq by easy. cbn. eauto. }
  rewrite <- (bal_masked_iff c vels x Ev).
  match goal with |- ?b = true \/ _ => destruct b; [now left|right; discriminate] end.
Qed.

(** ** DLA mask *)
Lemma ndiv_one f : ndiv f n1 = f.
Proof.
  destruct f as [q| | |]; cbn; try easy. f_equal. field. intro H; discriminate H.
Qed.
Lemma nmul_one i : nmul i (nsq n1) = i.
Proof.
  destruct i as [q| | |]; cbn; try easy. f_equal. ring.
Qed.

Lemma qprod_cons x l : qprod (x :: l) = (x * qprod l)%Qc.
Proof. reflexivity. Qed.
Section DLAproof.
Variable profile : Qc -> Qc -> Qc -> Qc.
Definition pflux (w z n : Qc) : num := Fin (profile w z n).

Lemma all_dlas_fin dlas w :
  all_dlas pflux dlas w = Fin (qprod (map (fun d => profile w (d_z d) (d_nhi d)) dlas)).
Proof.
  unfold all_dlas.
  assert (forall t, fold_left (fun t d => nmul t (pflux w (d_z d) (d_nhi d))) dlas (Fin t)
    = Fin (t * qprod (map (fun d => profile w (d_z d) (d_nhi d)) dlas))%Qc) as H.
  { induction dlas as [|d l IH]; intro t; cbn [fold_left map]; [cbn; f_equal; ring|].
    change (nmul (Fin t) (pflux w (d_z d) (d_nhi d))) with (Fin (t * profile w (d_z d) (d_nhi d))%Qc).
    rewrite IH, qprod_cons. f_equal. ring. }
  unfold n1. rewrite H. f_equal. ring.
Qed.

Definition dla_t (z : Qc) (dlas : list dla) (x : Qc) : Qc :=
  if qltb x ((1 + z) * fq 121567 100)%Qc
  then qprod (map (fun d => profile x (d_z d) (d_nhi d)) dlas) else 1%Qc.

Lemma dla_transmission_eq z dlas wave :
  ascending wave -> dla_transmission pflux z dlas wave = map (fun x => Fin (dla_t z dlas x)) wave.
Proof.
  intro A. apply ascending_le in A. apply list_map_nth.
  - unfold dla_transmission. rewrite app_length, firstn_length, repeat_length, map_length.
    pose proof (searchsorted_le_length wave ((1 + z) * fq 121567 100)%Qc). lia.
  - intros k x E. unfold dla_transmission, dla_t.
    set (lim := ((1 + z) * fq 121567 100)%Qc).
    pose proof (searchsorted_spec wave lim A k x E) as Sp.
    pose proof (searchsorted_le_length wave lim) as Le.
    assert (k < length wave) as Hk by (apply nth_error_Some; congruence).
    rewrite map_length.
    destruct (qltb x lim) eqn:Q.
    + apply qltb_true in Q. apply Sp in Q.
      rewrite nth_error_app1 by (rewrite firstn_length, map_length; lia).
      rewrite nth_error_firstn, nth_error_map, E by lia. cbn. now rewrite all_dlas_fin.
    + apply qltb_false in Q.
      assert (~ k < searchsorted wave lim) as NQ.
      { intro C. apply Sp in C. apply Qclt_not_le in C. contradiction. }
      rewrite nth_error_app2 by (rewrite firstn_length, map_length; lia).
      rewrite firstn_length, map_length, nth_error_repeat.
      destruct (Nat.ltb_spec (k - Nat.min (searchsorted wave lim) (length wave))
                  (length wave - searchsorted wave lim)); [easy|lia].
Qed.

Definition dla_g (z limit : Qc) (dlas : list dla) (p : pixel) : num * num :=
  let T := dla_t z dlas (p_wave p) in
  if qltb T limit then (n0, n0) else (ndiv (p_flux p) (Fin T), nmul (p_ivar p) (nsq (Fin T))).

Lemma dla_arm_kernel z limit dlas w fl iv :
  ascending w -> length fl = length w -> length iv = length w ->
  dla_arm limit (dla_transmission pflux z dlas w) fl iv = Ok (kernel_of (dla_g z limit dlas) w fl iv).
Proof.
  intros A L1 L2. rewrite dla_transmission_eq by easy. clear A. unfold dla_arm, mask_set.
  rewrite zip2_eq by (now rewrite !map_length). cbn [rbind].
  rewrite zip2_eq by (now rewrite !map_length). cbn [rbind].
  rewrite zip2_eq by (now rewrite !map_length). cbn [rbind].
  rewrite zip2_eq by (rewrite !map2_length, !map_length; lia). cbn [rbind].
  rewrite zip2_eq by (rewrite !map2_length, !map_length; lia). cbn [rbind].
  f_equal. unfold kernel_of.
  revert fl iv L1 L2. induction w as [|x w IH]; intros [|y fl] [|q iv]; cbn [length]; try discriminate; [easy|].
  intros L1 L2. injection L1 as L1. injection L2 as L2.
  pose proof (IH fl iv L1 L2) as Q. injection Q as I1 I2.
  cbn [map map2 pixels]. rewrite I1, I2. f_equal; f_equal; unfold dla_g; cbn [p_wave p_flux p_ivar];
    cbn [nltb]; destruct (qltb (dla_t z dlas x) limit); cbn [fst snd]; try easy.
Qed.

Lemma qprod_perm l1 l2 : Permutation l1 l2 -> qprod l1 = qprod l2.
Proof.
  induction 1; rewrite ?qprod_cons; try congruence. ring.
Qed.
Lemma dla_sorted l :
  StronglySorted (fun a b => (d_tid a <= d_tid b)%Z) (isort (fun a b => (d_tid a <=? d_tid b)%Z) l).
Proof.
  eapply StronglySorted_impl; [|apply isort_sorted].
  - intros a b _ _ H. now apply Z.leb_le.
  - intros a b. rewrite !Z.leb_le. lia.
  - intros a b c. rewrite !Z.leb_le. lia.
Qed.

(** the DLAs used for a target *)
Lemma dlamask_lookup catalog local limit tid :
  let cat1 := match local with None => catalog
              | Some l => filter (fun d => zmem (d_tid d) l) catalog end in
  let m := dlamask_init catalog local limit in
  match nonzero (map (fun i => Z.eqb i tid) (dm_ids m)) with
  | [] => target_dlas cat1 tid = []
  | idx :: _ => exists dlas, nth_error (dm_split m) idx = Some dlas /\ Permutation dlas (target_dlas cat1 tid) /\ target_dlas cat1 tid <> []
  end.
Proof.
  cbn zeta. unfold dlamask_init. cbn [dm_ids dm_split].
  set (cat1 := match local with None => catalog | Some l => _ end).
  set (cat2 := isort (fun a b => (d_tid a <=? d_tid b)%Z) cat1).
  assert (Permutation cat2 cat1) as Hp by apply isort_perm.
  assert (Permutation (target_dlas cat2 tid) (target_dlas cat1 tid)) as Ht by now apply Permutation_filter.
  destruct (nonzero _) as [|idx rest] eqn:E.
  - destruct (target_dlas cat1 tid) as [|d l] eqn:Et; [easy|]. exfalso.
    assert (In tid (np_unique (map d_tid cat2))) as Hin.
    { apply np_unique_In, in_map_iff. exists d.
      assert (In d (target_dlas cat1 tid)) as Hd by (rewrite Et; now left).
      apply filter_In in Hd as (Hd & Hk). apply Z.eqb_eq in Hk. split; [easy|].
      eapply Permutation_in; [apply Permutation_sym, Hp|easy]. }
    apply In_nth_error in Hin as (i & Hi).
    assert (In i (nonzero (map (fun j => Z.eqb j tid) (np_unique (map d_tid cat2))))) as Hn.
    { apply nonzero_spec. rewrite nth_error_map, Hi. cbn. now rewrite Z.eqb_refl. }
    rewrite E in Hn. destruct Hn.
  - assert (In idx (nonzero (map (fun j => Z.eqb j tid) (np_unique (map d_tid cat2))))) as Hn
      by (rewrite E; now left).
    apply nonzero_spec in Hn. rewrite nth_error_map in Hn.
    destruct (nth_error (np_unique (map d_tid cat2)) idx) as [t|] eqn:Eu; [|discriminate].
    cbn in Hn. injection Hn as Hn. apply Z.eqb_eq in Hn. subst t.
    assert (In tid (map d_tid cat2)) as Hin.
    { apply np_unique_In. now apply nth_error_In in Eu. }
    assert (cat2 <> []) as Hne by (intro C; rewrite C in Hin; destruct Hin).
    rewrite split_by_key_filter; [|apply dla_sorted|easy].
    exists (target_dlas cat2 tid). rewrite nth_error_map, Eu. split; [easy|]. split; [easy|].
    intro C. rewrite C in Ht. apply Permutation_sym, Permutation_nil in Ht.
    apply in_map_iff in Hin as (d & Hd & Hin).
    assert (In d (target_dlas cat2 tid)) as K by (apply filter_In; split; [easy|now apply Z.eqb_eq]).
    rewrite Ht in K. destruct K.
Qed.

Lemma target_local catalog l tid :
  In tid l -> target_dlas (filter (fun d => zmem (d_tid d) l) catalog) tid = target_dlas catalog tid.
Proof.
  intro H. unfold target_dlas. induction catalog as [|d c IH]; cbn; [easy|].
  destruct (Z.eqb_spec (d_tid d) tid) as [E|E].
  - subst tid. apply zmem_In in H. rewrite H. cbn. rewrite Z.eqb_refl. now rewrite IH.
  - destruct (zmem (d_tid d) l); cbn; [|easy]. apply Z.eqb_neq in E. now rewrite E.
Qed.

Lemma dla_spec catalog local limit s :
  proper s -> (limit <= 1)%Qc ->
  (forall l, local = Some l -> In (c_targetid (s_cat s)) l) ->
  exists s', dlamask_apply pflux (dlamask_init catalog local limit) s = Ok s' /\ proper s' /\
    rest_unchanged s s' /\
    (target_dlas catalog (c_targetid (s_cat s)) = [] -> s' = s) /\
    each_pixel (fun _ _ => dla_pixel profile catalog (c_targetid (s_cat s)) (s_z s) limit) s s'.
Proof.
  intros P Hl Hloc. set (tid := c_targetid (s_cat s)) in *.
  assert (target_dlas (match local with None => catalog
              | Some l => filter (fun d => zmem (d_tid d) l) catalog end) tid = target_dlas catalog tid) as Et.
  { destruct local as [l|]; [|easy]. apply target_local. now apply Hloc. }
  pose proof (dlamask_lookup catalog local limit tid) as L. cbn zeta in L. rewrite Et in L.
  unfold dlamask_apply. fold tid.
  destruct (nonzero _) as [|idx rest].
  - exists s. split; [easy|]. split; [easy|]. split; [repeat split|]. split; [easy|].
    split; [easy|]. intros arm k. destruct (pixel_at s arm k) as [p|]; [|easy]. split; [easy|].
    unfold dla_pixel, transmission. rewrite L. cbn.
    split; [easy|]. split; [easy|]. split.
    + intros _ H. exfalso. apply Qclt_not_le in H. contradiction.
    + intros _ _. fold n1. split; [symmetry; apply ndiv_one|].
      rewrite <- (nmul_one (p_ivar p)) at 1. easy.
  - destruct L as (dlas & En & Hp & Hne). rewrite En. cbn [of_option rbind].
    cbn [dlamask_init dm_limit].
    destruct (arms_loop_mapped (fun _ _ => dla_g (s_z s) limit dlas)
      (fun _ w => dla_arm limit (dla_transmission pflux (s_z s) dlas w)) s P)
      as (f' & E & W & F1 & _ & _ & _ & F5 & _ & _ & Q).
    { intros arm w fl iv _ A L1 L2. eexists. split; [now apply dla_arm_kernel|].
      exact (kernel_of_ok _ w fl iv L1 L2). }
    exists (set_f f' s). rewrite E. split; [easy|]. split; [eapply mapped_proper; eauto|].
    split; [now apply rest_set_f|]. split; [contradiction|].
    destruct Q as (Q1 & Q2). split; [easy|]. intros arm k. rewrite Q2.
    destruct (pixel_at s arm k) as [p|]; [|easy]. cbn [option_map]. split; [easy|].
    assert (qprod (map (fun d => profile (p_wave p) (d_z d) (d_nhi d)) dlas)
            = transmission profile catalog tid (p_wave p)) as HT.
    { apply qprod_perm. now apply Permutation_map. }
    unfold dla_pixel. set (T := transmission _ _ _ _) in *.
    unfold dla_g, dla_t. rewrite HT. cbn [p_wave p_flux p_ivar].
    split; [easy|]. split; [|split].
    + intro H. destruct p as [x f i]. cbn [p_wave p_flux p_ivar] in *.
      assert (qltb x ((1 + s_z s) * fq 121567 100)%Qc = false) as -> by now apply qltb_false.
      assert (qltb 1 limit = false) as -> by now apply qltb_false.
      cbn [fst snd]. fold n1. now rewrite ndiv_one, nmul_one.
    + intros H H1. apply qltb_true in H, H1. now rewrite H, H1.
    + intros H H1. apply qltb_true in H. apply qltb_false in H1. now rewrite H, H1.
Qed.
End DLAproof.
