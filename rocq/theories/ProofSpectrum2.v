(** Construction (C24), forest region (C25). *)
From Coq Require Import ZArith String List Bool Arith Lia Sorted Qcanon.
From Verif Require Import Num NpList NpListFacts Exn Dict ModelSpectrum ModelMasks SpecSpectrum
  ProofSpectrum1.
Import ListNotations.
Local Open Scope nat_scope.

(** ** Cleaning *)
Lemma badpix_unusable m f i : badpix m f i = true <-> unusable m f i.
Proof.
  unfold badpix, unusable. rewrite !orb_true_iff, negb_true_iff, Z.eqb_neq.
  split.
  - intros [[[H|H]|H]|H]; auto.
    + right; left. destruct f; try discriminate; easy.
    + right; right; left. destruct i; try discriminate; easy.
    + right; right; right. destruct i as [q| | |]; cbn in H; try discriminate; [left|right].
      * exists q. split; [easy|]. now apply qltb_true.
      * easy.
  - intros [H|[->|[->|[(q & -> & H)| ->]]]]; auto.
    right. cbn. now apply qltb_true.
Qed.

Lemma clean_arm_cleaned F I M F' I' :
  clean_arm F I M = Ok (F', I') -> cleaned F I M F' I'.
Proof.
  unfold clean_arm. intro E. apply rbind_Ok in E as (w & E1 & E).
  apply rbind_Ok in E as (a & E2 & E). apply rbind_Ok in E as (b & E3 & E).
  injection E as <- <-. apply zip3_Ok in E1 as (L1 & L2 & ->).
  apply zip2_Ok in E2 as (L3 & ->). apply zip2_Ok in E3 as (L4 & ->).
  unfold cleaned. rewrite !map2_length. rewrite L3, <- L2, !Nat.min_id.
  do 4 (split; [easy|]). intros k f i m Ef Ei Em.
  rewrite !nth_error_map2, nth_error_map3, Ef, Ei, Em.
  destruct (badpix m f i) eqn:B.
  - apply badpix_unusable in B. tauto.
  - split; [|easy]. intro C. apply badpix_unusable in C. congruence.
Qed.
Lemma clean_arm_total F I M :
  length M = length F -> length F = length I ->
  exists F' I', clean_arm F I M = Ok (F', I').
Proof.
  intros L1 L2. unfold clean_arm, zip3. rewrite L1, L2, !Nat.eqb_refl. cbn [andb rbind].
  unfold mask_set.
  rewrite !zip2_eq by (rewrite map3_length; lia). cbn. eauto.
Qed.

Lemma row2_Ok {A} arm (d : dict (list (list A))) idx r :
  row2 arm d idx = Ok r <-> raw_row arm d idx r.
Proof.
  unfold row2, raw_row. rewrite rbind_Ok. split.
  - intros (rows & E & H). apply rget_Ok in E. exists rows. split; [easy|].
    destruct (nth_error rows idx); cbn in H; [congruence|discriminate].
  - intros (rows & E & H). exists rows. rewrite rget_Ok. split; [easy|]. now rewrite H.
Qed.

Lemma init_loop (flux ivar : dict (list (list num))) mask (reso : dict resoarg) idx d acc r :
  NoDup (dkeys d) ->
  for_each d (fun (aw : string * list Qc) (acc : dict arr * dict arr * dict mat) =>
      let arm := fst aw in
      rbind (row2 arm flux idx) (fun fl =>
      rbind (row2 arm ivar idx) (fun iv =>
      rbind (row2 arm mask idx) (fun mk =>
      rbind (clean_arm fl iv mk) (fun fi =>
      rbind (if dtrue reso then
               rbind (rget arm reso) (fun r =>
               match r with
               | Reso2 m => Ok (dset arm m (snd acc))
               | Reso3 l => rmap (fun m => dset arm m (snd acc))
                                 (of_option "IndexError" (nth_error l idx))
               end)
             else Ok (snd acc)) (fun rr =>
      Ok (dset arm (fst fi) (fst (fst acc)), dset arm (snd fi) (snd (fst acc)), rr)))))))
    acc = Ok r ->
  forall arm, match dget arm d with
    | Some _ => exists F I M F' I', raw_row arm flux idx F /\ raw_row arm ivar idx I /\
        raw_row arm mask idx M /\ clean_arm F I M = Ok (F', I') /\
        dget arm (fst (fst r)) = Some F' /\ dget arm (snd (fst r)) = Some I'
    | None => dget arm (fst (fst r)) = dget arm (fst (fst acc)) /\
              dget arm (snd (fst r)) = dget arm (snd (fst acc))
    end.
Proof.
  revert acc; induction d as [|[q v] d IH]; cbn [for_each]; intros acc N E arm.
  - injection E as <-. easy.
  - inversion N as [|? ? N1 N2]; subst.
    apply rbind_Ok in E as (acc1 & E1 & E2). cbn [fst snd] in E1.
    apply rbind_Ok in E1 as (F & EF & E1). apply rbind_Ok in E1 as (I & EI & E1).
    apply rbind_Ok in E1 as (M & EM & E1). apply rbind_Ok in E1 as ([F' I'] & EC & E1).
    apply rbind_Ok in E1 as (rr & _ & E1). injection E1 as <-.
    apply row2_Ok in EF, EI, EM.
    specialize (IH _ N2 E2 arm). cbn [dget fst snd] in *.
    destruct (String.eqb_spec arm q) as [Eq|Nq].
    + subst q. apply dget_None in N1. rewrite N1 in IH. destruct IH as [H1 H2].
      rewrite dget_dset_same in H1, H2.
      exists F, I, M, F', I'. auto 10.
    + destruct (dget arm d); [easy|]. rewrite !dget_dset_other in IH by easy. easy.
Qed.

Lemma spec_init_facts nsqrt st cat wave flux ivar mask reso idx st' s :
  spec_init nsqrt st cat wave flux ivar mask reso idx = Ok (st', s) ->
  NoDup (dkeys (st_wave st')) ->
  s_wave s = st_wave st' /\ s_f s = empty_forest /\ s_valid s = false /\ s_cont s = [] /\
  s_cat s = cat /\
  forall arm, match dget arm (st_wave st') with
    | Some _ => exists F I M F' I', raw_row arm flux idx F /\ raw_row arm ivar idx I /\
        raw_row arm mask idx M /\ cleaned F I M F' I' /\
        dget arm (s_flux s) = Some F' /\ dget arm (s_ivar s) = Some I'
    | None => dget arm (s_flux s) = None /\ dget arm (s_ivar s) = None
    end.
Proof.
  intros E N. unfold spec_init in E. apply rbind_Ok in E as (st1 & E1 & E).
  apply rbind_Ok in E as (acc & E2 & E). apply rbind_Ok in E as (rsnr & E3 & E).
  injection E as <- <-. cbn [s_wave s_f s_valid s_cont s_cat s_flux s_ivar].
  do 5 (split; [easy|]). intro arm.
  pose proof (init_loop flux ivar mask reso idx _ _ _ N E2 arm) as H.
  destruct (dget arm (st_wave st1)); [|easy].
  destruct H as (F & I & M & F' & I' & H1 & H2 & H3 & H4 & H5).
  exists F, I, M, F', I'. apply clean_arm_cleaned in H4. tauto.
Qed.

Lemma cleaned_no_nan F I M F' I' :
  cleaned F I M F' I' ->
  Forall (fun f => f <> NaN) F' /\ Forall (fun i => i <> NaN /\ nltb i n0 = false) I'.
Proof.
  intros (L1 & L2 & L3 & L4 & H). split; apply Forall_forall; intros x Hx;
    apply In_nth_error in Hx as (k & Ek).
  - assert (k < length F) as Hk by (rewrite <- L3; apply nth_error_Some; congruence).
    destruct (nth_error F k) as [f|] eqn:Ef; [|apply nth_error_None in Ef; lia].
    destruct (nth_error I k) as [i|] eqn:Ei; [|apply nth_error_None in Ei; lia].
    destruct (nth_error M k) as [m|] eqn:Em; [|apply nth_error_None in Em; lia].
    destruct (H k f i m Ef Ei Em) as [A B].
    destruct (badpix m f i) eqn:Bp.
    + apply badpix_unusable in Bp. apply A in Bp as [Bp _]. rewrite Bp in Ek.
      injection Ek as <-. discriminate.
    + assert (~ unusable m f i) as U by (rewrite <- badpix_unusable; congruence).
      destruct (B U) as [B1 _]. rewrite B1 in Ek. injection Ek as <-.
      intro C. apply U. unfold unusable. auto.
  - assert (k < length F) as Hk by (rewrite L2, <- L4; apply nth_error_Some; congruence).
    destruct (nth_error F k) as [f|] eqn:Ef; [|apply nth_error_None in Ef; lia].
    destruct (nth_error I k) as [i|] eqn:Ei; [|apply nth_error_None in Ei; lia].
    destruct (nth_error M k) as [m|] eqn:Em; [|apply nth_error_None in Em; lia].
    destruct (H k f i m Ef Ei Em) as [A B].
    destruct (badpix m f i) eqn:Bp.
    + apply badpix_unusable in Bp. apply A in Bp as [_ Bp]. rewrite Bp in Ek.
      injection Ek as <-. split; [discriminate|reflexivity].
    + pose proof Bp as Bq. unfold badpix in Bq. rewrite !orb_false_iff in Bq.
      destruct Bq as [[_ Bq1] Bq2].
      assert (~ unusable m f i) as U by (rewrite <- badpix_unusable; congruence).
      destruct (B U) as [_ B1]. rewrite B1 in Ek. injection Ek as <-.
      split; [|easy]. intro C. subst i. discriminate.
Qed.

(** totality of the construction *)
Lemma skipn_len_eq {A B} i (a : list A) (b : list B) :
  length a = length b -> length (skipn i a) = length (skipn i b).
Proof. intro H. now rewrite !skipn_length, H. Qed.
Lemma ndot_total a b : length a = length b -> exists r, ndot a b = Ok r.
Proof. intro H. unfold ndot. rewrite zip2_eq by easy. cbn. eauto. Qed.

Lemma rsnr_total nsqrt z wave flux ivar :
  (forall arm, In arm (dkeys wave) -> exists F I, dget arm flux = Some F /\
      dget arm ivar = Some I /\ length F = length I) ->
  exists r, rsnr_of nsqrt z wave flux ivar = Ok r.
Proof.
  intro H. unfold rsnr_of.
  match goal with |- context [for_each wave ?b ?a] =>
    destruct (for_each_total (fun _ => True) wave b a) as (r & -> & _) end.
  - intros [arm w] acc Hin _. cbn [fst snd].
    destruct (H arm) as (F & I & EF & EI & L).
    { apply in_map_iff. exists (arm, w). auto. }
    rewrite (proj2 (rget_Ok _ _ _) EI), (proj2 (rget_Ok _ _ _) EF). cbn [rbind].
    destruct (ndot_total (skipn (searchsorted w ((1 + z) * wave_lya)) F)
      (map nsqrt (skipn (searchsorted w ((1 + z) * wave_lya)) I))) as (d & ->).
    { rewrite map_length. now apply skipn_len_eq. }
    cbn. eauto.
  - easy.
  - cbn. eauto.
Qed.

Lemma for_each_step_total {X S} (l : list X) (body : X -> S -> res S) s :
  (forall x s, In x l -> exists s', body x s = Ok s') ->
  exists s', for_each l body s = Ok s'.
Proof.
  intro H. destruct (for_each_total (fun _ => True) l body s) as (s' & E & _); eauto.
  intros x t Hx _. destruct (H x t Hx) as (t' & E). eauto.
Qed.

Lemma spec_init_total nsqrt st cat wave flux ivar mask reso idx st1 :
  set_wave wave false st = Ok st1 ->
  NoDup (dkeys (st_wave st1)) ->
  (forall arm, In arm (dkeys (st_wave st1)) ->
     exists F I M, raw_row arm flux idx F /\ raw_row arm ivar idx I /\ raw_row arm mask idx M /\
       length M = length F /\ length F = length I /\ reso_ok reso idx arm) ->
  exists s, spec_init nsqrt st cat wave flux ivar mask reso idx = Ok (st1, s).
Proof.
  intros E N H. unfold spec_init. rewrite E. cbn [rbind].
  match goal with |- context [for_each (st_wave st1) ?b ?a] =>
    destruct (for_each_step_total (st_wave st1) b a) as (r & Er) end.
  - intros [arm w] acc Hin. cbn [fst snd].
    destruct (H arm) as (F & I & M & HF & HI & HM & L1 & L2 & R).
    { apply in_map_iff. exists (arm, w). auto. }
    apply row2_Ok in HF, HI, HM. rewrite HF, HI, HM. cbn [rbind].
    destruct (clean_arm_total F I M L1 L2) as (F' & I' & ->). cbn [rbind].
    destruct R as [R|[(m & R)|(l & m & R & R')]].
    + subst reso. cbn. eauto.
    + assert (dtrue reso = true) as -> by (destruct reso; [discriminate R|easy]).
      rewrite (proj2 (rget_Ok _ _ _) R). cbn. eauto.
    + assert (dtrue reso = true) as -> by (destruct reso; [discriminate R|easy]).
      rewrite (proj2 (rget_Ok _ _ _) R). cbn. rewrite R'. cbn. eauto.
  - rewrite Er. cbn [rbind].
    pose proof (init_loop flux ivar mask reso idx _ _ _ N Er) as L.
    destruct (rsnr_total nsqrt (c_z cat) (st_wave st1) (fst (fst r)) (snd (fst r))) as (x & ->).
    { intros arm Hin. apply dget_In in Hin as (w & Ew). specialize (L arm). rewrite Ew in L.
      destruct L as (F & I & M & F' & I' & _ & _ & _ & C & EF & EI).
      exists F', I'. split; [easy|]. split; [easy|].
      apply clean_arm_cleaned in C. destruct C as (L1 & L2 & L3 & L4 & _). congruence. }
    cbn. eauto.
Qed.

(** ** Forest region *)
Lemma searchsorted_first l x :
  Forall (fun y => (x <= y)%Qc) l -> searchsorted l x = 0.
Proof.
  intro H. destruct l as [|y l]; cbn; [easy|]. inversion H; subst.
  assert (qltb y x = false) as -> by now apply qltb_false. easy.
Qed.
Lemma slice_0 {A} i (l : list A) : slice i 0 l = [].
Proof. unfold slice. destruct (skipn i l); easy. Qed.
Lemma slice_S {A} i j x (l : list A) : slice (S i) (S j) (x :: l) = slice i j l.
Proof. easy. Qed.

Lemma slice_searchsorted_filter {A} (key : A -> Qc) (a b : Qc) l :
  StronglySorted (fun x y => (key x <= key y)%Qc) l ->
  slice (searchsorted (map key l) a) (searchsorted (map key l) b) l
  = filter (fun x => qleb a (key x) && qltb (key x) b) l.
Proof.
  induction 1 as [|x l Hs IH Hf]; [now rewrite slice_0|].
  cbn [map searchsorted filter].
  destruct (qltb (key x) a) eqn:E1.
  - assert (qleb a (key x) = false) as -> by (qcase_in E1; now apply qleb_false).
    cbn [andb].
    destruct (qltb (key x) b) eqn:E2.
    + rewrite slice_S. exact IH.
    + rewrite slice_0. rewrite <- IH.
      qcase_in E2. rewrite (searchsorted_first (map key l) b); [now rewrite slice_0|].
      apply Forall_map. eapply Forall_impl; [|exact Hf]. cbn. intros y Hy.
      eapply Qcle_trans; eauto.
  - qcase_in E1. assert (qleb a (key x) = true) as -> by now apply qleb_true.
    assert (searchsorted (map key l) a = 0) as E0.
    { apply searchsorted_first. apply Forall_map. eapply Forall_impl; [|exact Hf]. cbn.
      intros y Hy. eapply Qcle_trans; eauto. }
    rewrite E0 in IH.
    destruct (qltb (key x) b) eqn:E2; cbn [andb].
    + rewrite <- IH. unfold slice. cbn. now rewrite Nat.sub_0_r.
    + rewrite slice_0. rewrite <- IH.
      qcase_in E2. rewrite (searchsorted_first (map key l) b); [now rewrite slice_0|].
      apply Forall_map. eapply Forall_impl; [|exact Hf]. cbn. intros y Hy.
      eapply Qcle_trans; eauto.
Qed.

Lemma pixels_wave w : forall f i, length f = length w -> length i = length w ->
  map p_wave (pixels w f i) = w /\ map p_flux (pixels w f i) = f /\
  map p_ivar (pixels w f i) = i.
Proof.
  induction w as [|x w IH]; intros [|y f] [|z i]; cbn; intros H1 H2; try discriminate; auto.
  destruct (IH f i) as (A & B & C); [congruence|congruence|]. now rewrite A, B, C.
Qed.
Lemma ascending_le l : ascending l -> StronglySorted Qcle l.
Proof. apply StronglySorted_impl. intros a b _ _ H. now apply Qclt_le_weak. Qed.

Lemma limits_in_forestb z w1 w2 a b l1 l2 w :
  forest_limits z w1 w2 a b = (l1, l2) ->
  qleb l1 w && qltb w l2 = in_forestb z w1 w2 a b w.
Proof.
  unfold forest_limits, in_forestb. intros [= <- <-].
  assert (forall x y, qleb (qmax x y) w = qleb x w && qleb y w) as M1.
  { intros x y. unfold qmax. destruct (qleb x y) eqn:E, (qleb x w) eqn:E1, (qleb y w) eqn:E2;
      cbn; auto; qcase_in E; qcase_in E1; qcase_in E2; exfalso; qlra. }
  assert (forall x y, qltb w (qmin x y) = qltb w x && qltb w y) as M2.
  { intros x y. unfold qmin. destruct (qleb x y) eqn:E, (qltb w x) eqn:E1, (qltb w y) eqn:E2;
      cbn; auto; qcase_in E; qcase_in E1; qcase_in E2; exfalso; qlra. }
  rewrite M1, M2. now rewrite !andb_assoc.
Qed.

(** what the loop of set_forest_region leaves for one arm *)
Lemma region_loop nsqrt0 (s : spec) l1 l2 d f0 f :
  NoDup (dkeys d) -> ri f0 < length (hp f0) ->
  for_each d (fun (aw : string * list Qc) (f : forest) =>
    let arm := fst aw in let wave := snd aw in
    let ii1 := searchsorted wave l1 in let ii2 := searchsorted wave l2 in
    rbind (rget arm (s_ivar s)) (fun iv =>
    if Nat.eqb (count npos (slice ii1 ii2 iv)) 0 then Ok f else
    rbind (rget arm (s_flux s)) (fun fl =>
    let f1 := set_fw (dset arm (slice ii1 ii2 wave) (fw f)) f in
    let f2 := set_ff (dset arm (slice ii1 ii2 fl) (ff f1)) f1 in
    let f3 := mut_ref (ri f2) (dset arm (slice ii1 ii2 iv)) f2 in
    if dtrue (s_reso s) then
      rbind (rget arm (s_reso s)) (fun m =>
      Ok (set_fr (dset arm (mat_cols ii1 ii2 m) (fr f3)) f3))
    else Ok f3))) f0 = Ok f ->
  nsqrt0 = nsqrt0 :> nat ->
  ri f = ri f0 /\ ri f < length (hp f) /\
  forall arm,
    match dget arm d with
    | None => dget arm (fw f) = dget arm (fw f0) /\ dget arm (ff f) = dget arm (ff f0) /\
              dget arm (fivar f) = dget arm (fivar f0)
    | Some wave => exists iv, dget arm (s_ivar s) = Some iv /\
        let ii1 := searchsorted wave l1 in let ii2 := searchsorted wave l2 in
        if Nat.eqb (count npos (slice ii1 ii2 iv)) 0
        then dget arm (fw f) = dget arm (fw f0) /\ dget arm (ff f) = dget arm (ff f0) /\
             dget arm (fivar f) = dget arm (fivar f0)
        else exists fl, dget arm (s_flux s) = Some fl /\
             dget arm (fw f) = Some (slice ii1 ii2 wave) /\
             dget arm (ff f) = Some (slice ii1 ii2 fl) /\
             dget arm (fivar f) = Some (slice ii1 ii2 iv)
    end.
Proof.
  intros N H0 E _. revert f0 H0 E.
  induction d as [|[q v] d IH]; cbn [for_each]; intros f0 H0 E.
  - injection E as <-. repeat split; easy.
  - inversion N as [|? ? N1 N2]; subst.
    apply rbind_Ok in E as (f1 & E1 & E2). cbn [fst snd] in E1.
    apply rbind_Ok in E1 as (iv & Ei & E1). apply rget_Ok in Ei.
    assert (ri f1 = ri f0 /\ ri f1 < length (hp f1) /\
      if Nat.eqb (count npos (slice (searchsorted v l1) (searchsorted v l2) iv)) 0 then f1 = f0
      else exists fl, dget q (s_flux s) = Some fl /\
        fw f1 = dset q (slice (searchsorted v l1) (searchsorted v l2) v) (fw f0) /\
        ff f1 = dset q (slice (searchsorted v l1) (searchsorted v l2) fl) (ff f0) /\
        fivar f1 = dset q (slice (searchsorted v l1) (searchsorted v l2) iv) (fivar f0))
      as (R1 & R2 & R3).
    { destruct (Nat.eqb _ 0); [injection E1 as <-; auto|].
      apply rbind_Ok in E1 as (fl & Ef & E1). apply rget_Ok in Ef.
      destruct (dtrue (s_reso s)).
      - apply rbind_Ok in E1 as (m & _ & E1). injection E1 as <-. cbn. rewrite upd_length.
        repeat split; auto. exists fl. unfold fivar. cbn.
        rewrite nth_upd, Nat.eqb_refl by assumption. auto.
      - injection E1 as <-. cbn. rewrite upd_length.
        repeat split; auto. exists fl. unfold fivar. cbn.
        rewrite nth_upd, Nat.eqb_refl by assumption. auto. }
    destruct (IH N2 f1 R2 E2) as (I1 & I2 & I3). split; [congruence|]. split; [easy|].
    intro arm. specialize (I3 arm). cbn [dget].
    destruct (String.eqb_spec arm q) as [Eq|Nq].
    + subst q. apply dget_None in N1. rewrite N1 in I3. destruct I3 as (J1 & J2 & J3).
      exists iv. split; [easy|]. cbn zeta. rewrite J1, J2, J3.
      destruct (Nat.eqb _ 0); [now subst f1|].
      destruct R3 as (fl & R3 & R4 & R5 & R6). exists fl. rewrite R4, R5, R6, !dget_dset_same. auto.
    + assert (dget arm (fw f1) = dget arm (fw f0) /\ dget arm (ff f1) = dget arm (ff f0) /\
              dget arm (fivar f1) = dget arm (fivar f0)) as (K1 & K2 & K3).
      { destruct (Nat.eqb _ 0); [now subst f1|].
        destruct R3 as (fl & R3 & R4 & R5 & R6). rewrite R4, R5, R6, !dget_dset_other; auto. }
      rewrite K1, K2, K3 in I3. exact I3.
Qed.

Lemma set_forest_region_gen nsqrt w1 w2 a b s s' :
  ri (s_f s) < length (hp (s_f s)) ->
  NoDup (dkeys (s_wave s)) -> data_matches_grid s ->
  set_forest_region nsqrt w1 w2 a b s = Ok s' ->
  forall arm,
    match dget arm (s_wave s), dget arm (s_flux s), dget arm (s_ivar s) with
    | Some wave, Some fl, Some iv =>
        ascending wave ->
        let px := filter (fun p => in_forestb (s_z s) w1 w2 a b (p_wave p)) (pixels wave fl iv) in
        ((exists p, In p px /\ good (p_ivar p)) ->
           dget arm (fw (s_f s')) = Some (map p_wave px) /\
           dget arm (ff (s_f s')) = Some (map p_flux px) /\
           dget arm (fivar (s_f s')) = Some (map p_ivar px)) /\
        ((forall p, In p px -> ~ good (p_ivar p)) ->
           dget arm (fw (s_f s')) = dget arm (fw (s_f s)) /\
           dget arm (ff (s_f s')) = dget arm (ff (s_f s)) /\
           dget arm (fivar (s_f s')) = dget arm (fivar (s_f s)))
    | _, _, _ => dget arm (fw (s_f s')) = dget arm (fw (s_f s)) /\
                 dget arm (ff (s_f s')) = dget arm (ff (s_f s)) /\
                 dget arm (fivar (s_f s')) = dget arm (fivar (s_f s))
    end /\
    fivar_sm (s_f s') = fivar (s_f s') /\ fweight (s_f s') = fivar (s_f s').
Proof.
  intros H0 N D E arm. unfold set_forest_region in E.
  destruct (forest_limits (s_z s) w1 w2 a b) as [l1 l2] eqn:El.
  apply rbind_Ok in E as (f & E & E'). apply set_forest_related_forest in E'.
  rewrite E'. cbn [s_f set_f alias_weight_to_ivar alias_sm_to_ivar fw ff]. split; [|easy].
  destruct (region_loop 0 s l1 l2 _ _ _ N H0 E eq_refl) as (_ & _ & R). specialize (R arm).
  change (fivar (alias_weight_to_ivar (alias_sm_to_ivar f))) with (fivar f).
  destruct (D arm) as [D1 D2].
  destruct (dget arm (s_wave s)) as [wave|] eqn:Ew; [|easy].
  rewrite (len_at_Some _ _ _ Ew) in D1, D2. unfold len_at in D1, D2.
  destruct (dget arm (s_flux s)) as [fl|]; [|discriminate].
  destruct R as (iv & Ei & R). rewrite Ei in *. cbn in D1, D2.
  injection D1 as D1. injection D2 as D2. intros A.
  set (ii1 := searchsorted wave l1) in *. set (ii2 := searchsorted wave l2) in *.
  assert (slice ii1 ii2 (pixels wave fl iv)
          = filter (fun p => in_forestb (s_z s) w1 w2 a b (p_wave p)) (pixels wave fl iv)) as S.
  { destruct (pixels_wave wave fl iv D1 D2) as (P1 & _ & _).
    unfold ii1, ii2. rewrite <- P1 at 1 2. rewrite slice_searchsorted_filter.
    - apply filter_ext. intro p. now apply limits_in_forestb.
    - rewrite StronglySorted_map, P1. now apply ascending_le. }
  cbn zeta. rewrite <- S.
  destruct (pixels_wave wave fl iv D1 D2) as (P1 & P2 & P3).
  rewrite <- !slice_map, P1, P2, P3.
  cbn zeta in R. fold ii1 ii2 in R.
  destruct (Nat.eqb_spec (count npos (slice ii1 ii2 iv)) 0) as [C|C].
  - split; [|now intros _]. intros (p & Hp & G). exfalso.
    apply length_zero_iff_nil in C.
    assert (In (p_ivar p) (filter npos (slice ii1 ii2 iv))) as K.
    { apply filter_In. split; [|exact G]. rewrite <- P3, slice_map. now apply in_map. }
    rewrite C in K. destruct K.
  - destruct R as (fl' & [= <-] & R1 & R2 & R3). split; [auto|].
    intro G. exfalso. apply C. unfold count.
    destruct (filter npos (slice ii1 ii2 iv)) as [|x r] eqn:F; [easy|]. exfalso.
    assert (In x (filter npos (slice ii1 ii2 iv))) as K by (rewrite F; now left).
    apply filter_In in K as [K1 K2]. rewrite <- P3, slice_map in K1.
    apply in_map_iff in K1 as (p & <- & K1). apply (G p K1). exact K2.
Qed.

Lemma set_forest_region_spec nsqrt w1 w2 a b s s' :
  s_f s = empty_forest ->
  NoDup (dkeys (s_wave s)) -> data_matches_grid s ->
  set_forest_region nsqrt w1 w2 a b s = Ok s' ->
  forall arm,
    match dget arm (s_wave s), dget arm (s_flux s), dget arm (s_ivar s) with
    | Some wave, Some fl, Some iv =>
        ascending wave ->
        let px := filter (fun p => in_forestb (s_z s) w1 w2 a b (p_wave p)) (pixels wave fl iv) in
        ((exists p, In p px /\ good (p_ivar p)) ->
           dget arm (fw (s_f s')) = Some (map p_wave px) /\
           dget arm (ff (s_f s')) = Some (map p_flux px) /\
           dget arm (fivar (s_f s')) = Some (map p_ivar px)) /\
        ((forall p, In p px -> ~ good (p_ivar p)) ->
           dget arm (fw (s_f s')) = None /\ dget arm (ff (s_f s')) = None /\
           dget arm (fivar (s_f s')) = None)
    | _, _, _ => dget arm (fw (s_f s')) = None /\ dget arm (ff (s_f s')) = None /\
                 dget arm (fivar (s_f s')) = None
    end /\
    fivar_sm (s_f s') = fivar (s_f s') /\ fweight (s_f s') = fivar (s_f s').
Proof.
  intros He N D E arm.
  assert (ri (s_f s) < length (hp (s_f s))) as H0 by (rewrite He; cbn; lia).
  pose proof (set_forest_region_gen nsqrt w1 w2 a b s s' H0 N D E arm) as G.
  rewrite He in G. cbn in G. exact G.
Qed.

(** the call always succeeds on data of the right shape *)
Lemma set_forest_related_total nsqrt s :
  (forall arm iv, In (arm, iv) (fivar (s_f s)) -> exists fl, dget arm (ff (s_f s)) = Some fl /\
      length fl = length iv) ->
  exists s', set_forest_related nsqrt s = Ok s'.
Proof.
  intro H. unfold set_forest_related.
  match goal with |- context [for_each (fivar (s_f s)) ?b ?a] =>
    destruct (for_each_step_total (fivar (s_f s)) b a) as (r & ->) end.
  - intros [arm iv] [[x0 wt] ms] Hin. cbn [fst snd].
    destruct (H arm iv Hin) as (fl & Ef & L).
    rewrite (proj2 (rget_Ok _ _ _) Ef). cbn [rbind].
    assert (forall (x : list num), length x = length fl ->
      mask_get (map npos fl) x = Ok (flat_map (fun p : bool * num => if fst p then [snd p] else [])
         (map2 pair (map npos fl) x))) as M.
    { intros x Lx. unfold mask_get. rewrite zip2_eq by now rewrite map_length. easy. }
    rewrite M by easy. cbn [rbind]. rewrite M by congruence. cbn [rbind].
    match goal with |- context [ndot ?u ?v] => destruct (ndot_total u v) as (d & ->) end.
    { clear - L. revert iv L. induction fl as [|x fl IH]; intros [|y iv];
        cbn [flat_map map map2 fst snd length]; try discriminate; [easy|].
      intro L. rewrite !app_length. rewrite (IH iv) by congruence. destruct (npos x); easy. }
    cbn [rbind]. unfold arm_mean_snr. destruct (Nat.eqb _ 0); cbn [rbind]; [eauto|].
    destruct (ndot_total (map nsqrt iv) fl) as (d2 & ->); [now rewrite map_length|].
    cbn. eauto.
  - destruct r as [[? ?] ?]. cbn. eauto.
Qed.

Lemma set_forest_region_total nsqrt w1 w2 a b s :
  s_f s = empty_forest -> NoDup (dkeys (s_wave s)) -> data_matches_grid s -> s_reso s = [] \/
    (forall arm, In arm (dkeys (s_wave s)) -> In arm (dkeys (s_reso s))) ->
  exists s', set_forest_region nsqrt w1 w2 a b s = Ok s'.
Proof.
  intros He N D R. unfold set_forest_region.
  destruct (forest_limits (s_z s) w1 w2 a b) as [l1 l2].
  match goal with |- context [for_each (s_wave s) ?b ?a] =>
    destruct (for_each_step_total (s_wave s) b a) as (f & Ef) end.
  { intros [arm wave] f Hin. cbn [fst snd].
    apply In_pair_dget in Hin; [|easy]. destruct (D arm) as [D1 D2].
    rewrite (len_at_Some _ _ _ Hin) in D1, D2. unfold len_at in D1, D2.
    destruct (dget arm (s_flux s)) as [fl|] eqn:Ef; [|discriminate].
    destruct (dget arm (s_ivar s)) as [iv|] eqn:Ei; [|discriminate].
    rewrite (proj2 (rget_Ok _ _ _) Ei). cbn [rbind].
    destruct (Nat.eqb _ 0); [eauto|].
    rewrite (proj2 (rget_Ok _ _ _) Ef). cbn [rbind].
    destruct R as [R|R].
    - rewrite R. cbn. eauto.
    - assert (In arm (dkeys (s_reso s))) as I.
      { apply R. apply dget_In. eauto. }
      apply dget_In in I as (m & Em).
      destruct (dtrue (s_reso s)); [|eauto].
      rewrite (proj2 (rget_Ok _ _ _) Em). cbn. eauto. }
  rewrite Ef. cbn [rbind].
  assert (wff' f) as W.
  { assert (forall g, g = f -> wff' g) as K; [|auto]. intros g ->.
    assert (ri (s_f s) < length (hp (s_f s))) as H0 by (rewrite He; cbn; lia).
    destruct (region_loop 0 s l1 l2 _ _ _ N H0 Ef eq_refl) as (R1 & R2 & R3).
    constructor; [easy| | |].
    - refine (for_each_inv (fun g => NoDup (dkeys (fw g))) _ _ _ _ _ _ Ef).
      + intros [arm wave] g g' _ Hg B. cbn [fst snd] in B.
        apply rbind_Ok in B as (iv & _ & B).
        destruct (Nat.eqb _ 0) in B; [injection B as <-; easy|].
        apply rbind_Ok in B as (fl & _ & B).
        destruct (dtrue (s_reso s)).
        * apply rbind_Ok in B as (m & _ & B). injection B as <-. cbn. now apply dset_NoDup.
        * injection B as <-. cbn. now apply dset_NoDup.
      + rewrite He. constructor.
    - intro arm. specialize (R3 arm). destruct (D arm) as [D1 D2]. rewrite He in R3. cbn in R3.
      unfold len_at in *.
      destruct (dget arm (s_wave s)) as [wave|].
      + destruct R3 as (iv & Ei & R3). destruct (Nat.eqb _ 0).
        * destruct R3 as (-> & -> & _). easy.
        * destruct R3 as (fl & Efl & -> & -> & _). rewrite Efl in D1. cbn in *.
          injection D1 as D1. f_equal. now apply slice_len_eq.
      + destruct R3 as (-> & -> & _). easy.
    - intro arm. specialize (R3 arm). destruct (D arm) as [D1 D2]. rewrite He in R3. cbn in R3.
      unfold len_at in *. change (deref (ri f) f) with (fivar f).
      destruct (dget arm (s_wave s)) as [wave|].
      + destruct R3 as (iv & Ei & R3). destruct (Nat.eqb _ 0).
        * destruct R3 as (-> & _ & ->). easy.
        * destruct R3 as (fl & Efl & -> & _ & ->). rewrite Ei in D2. cbn in *.
          injection D2 as D2. f_equal. now apply slice_len_eq.
      + destruct R3 as (-> & _ & ->). easy. }
  apply set_forest_related_total. cbn.
  intros arm iv Hin. change (fivar (alias_weight_to_ivar (alias_sm_to_ivar f))) with (fivar f) in Hin.
  assert (ri f = 0 /\ 0 < length (hp f) /\ NoDup (dkeys (fivar f))) as (_ & _ & Nf).
  { refine (for_each_inv (fun g => ri g = 0 /\ 0 < length (hp g) /\ NoDup (dkeys (fivar g))) _ _ _ _ _ _ Ef).
    - intros [ar wave] g g' _ (G1 & G2 & Hg) B. cbn [fst snd] in B.
      apply rbind_Ok in B as (iv' & _ & B).
      destruct (Nat.eqb _ 0) in B; [injection B as <-; easy|].
      apply rbind_Ok in B as (fl & _ & B).
      assert (forall h, nth (ri g) (upd (ri g) h (hp g)) [] = h (nth (ri g) (hp g) [])) as U.
      { intro h. rewrite nth_upd, Nat.eqb_refl by lia. easy. }
      destruct (dtrue (s_reso s)).
      * apply rbind_Ok in B as (m & _ & B). injection B as <-. unfold fivar. cbn.
        rewrite U, upd_length. repeat split; auto. now apply dset_NoDup.
      * injection B as <-. unfold fivar. cbn.
        rewrite U, upd_length. repeat split; auto. now apply dset_NoDup.
    - rewrite He. cbn. repeat split; [lia|constructor]. }
  apply In_pair_dget in Hin; [|easy].
  pose proof (wf'_ff f W arm) as A1. pose proof (wf'_iv f W arm) as A2.
  unfold len_at, deref, fivar in *. rewrite Hin in A2.
  destruct (dget arm (fw f)); [|discriminate].
  destruct (dget arm (ff f)) as [fl|]; [|discriminate].
  exists fl. split; [easy|]. cbn in *. congruence.
Qed.

Lemma C24_lemma nsqrt st cat wave flux ivar mask reso idx st' s :
  spec_init nsqrt st cat wave flux ivar mask reso idx = Ok (st', s) ->
  NoDup (dkeys (st_wave st')) ->
  forall arm, In arm (dkeys (st_wave st')) ->
    exists F I M F' I',
      raw_row arm flux idx F /\ raw_row arm ivar idx I /\ raw_row arm mask idx M /\
      dget arm (s_flux s) = Some F' /\ dget arm (s_ivar s) = Some I' /\
      cleaned F I M F' I' /\
      Forall (fun f => f <> NaN) F' /\ Forall (fun i => i <> NaN /\ nltb i n0 = false) I'.
Proof.
  intros E N arm Ha. destruct (spec_init_facts _ _ _ _ _ _ _ _ _ _ _ E N) as (_ & _ & _ & _ & _ & H).
  specialize (H arm). apply dget_In in Ha as (w & Ew). rewrite Ew in H.
  destruct H as (F & I & M & F' & I' & H1 & H2 & H3 & H4 & H5 & H6).
  exists F, I, M, F', I'. repeat (split; [easy|]). now apply (cleaned_no_nan F I M).
Qed.
Lemma C25_history nsqrt w1 w2 lya1 lya2 s s' :
  ri (s_f s) < length (hp (s_f s)) -> NoDup (dkeys (s_wave s)) -> data_matches_grid s ->
  set_forest_region nsqrt w1 w2 lya1 lya2 s = Ok s' ->
  forall arm wave fl iv,
    dget arm (s_wave s) = Some wave -> dget arm (s_flux s) = Some fl ->
    dget arm (s_ivar s) = Some iv -> ascending wave ->
    let px := filter (fun p => in_forestb (s_z s) w1 w2 lya1 lya2 (p_wave p)) (pixels wave fl iv) in
    ((exists p, In p px /\ good (p_ivar p)) ->
       dget arm (fw (s_f s')) = Some (map p_wave px) /\
       dget arm (ff (s_f s')) = Some (map p_flux px) /\
       dget arm (fivar (s_f s')) = Some (map p_ivar px)) /\
    ((forall p, In p px -> ~ good (p_ivar p)) ->
       dget arm (fw (s_f s')) = dget arm (fw (s_f s)) /\
       dget arm (ff (s_f s')) = dget arm (ff (s_f s)) /\
       dget arm (fivar (s_f s')) = dget arm (fivar (s_f s))).
Proof.
  intros H0 N D E arm wave fl iv E1 E2 E3 A.
  destruct (set_forest_region_gen _ _ _ _ _ _ _ H0 N D E arm) as (G & _).
  rewrite E1, E2, E3 in G. exact (G A).
Qed.

Definition wit_spec : spec :=
  mkSpec (mkCatrow 39 7 (zq 2) None [] [] [] []) [("b"%string, map zq [3600; 3601; 3602; 3603]%Z)]
    [("b"%string, map (fun z => Fin (zq z)) [1; 2; 3; 4]%Z)]
    [("b"%string, map (fun z => Fin (zq z)) [5; 6; 7; 8]%Z)] []
    n0 None empty_forest 0 false [n1; n0] n0 [].
Lemma wit_matches : data_matches_grid wit_spec.
Proof. intro arm. unfold len_at. cbn. destruct (String.eqb arm "b"); easy. Qed.
Lemma second_region_witness :
  exists s s1 s2, s_f s = empty_forest /\ data_matches_grid s /\
    set_forest_region (fun x => x) (zq 3600) (zq 3604) (zq 100) (zq 2000) s = Ok s1 /\
    set_forest_region (fun x => x) (zq 5000) (zq 6000) (zq 100) (zq 2000) s1 = Ok s2 /\
    dget "b" (s_wave s) = Some (map zq [3600; 3601; 3602; 3603]%Z) /\
    dget "b" (fw (s_f s2)) = Some (map zq [3600; 3601; 3602; 3603]%Z).
Proof.
  exists wit_spec. eexists. eexists. split; [easy|]. split; [apply wit_matches|].
  split; [vm_compute; reflexivity|]. split; [vm_compute; reflexivity|]. vm_compute. auto.
Qed.
Lemma slice_witness nsqrt smooth dla_flux dwave :
  exists s s', s_f s = empty_forest /\ NoDup (dkeys (s_wave s)) /\ data_matches_grid s /\
    run_ops nsqrt smooth dla_flux dwave
      [ORegion (zq 3600) (zq 3604) (zq 100) (zq 2000); OSlice "b" 1 3] s = Ok s' /\ ~ aligned s'.
Proof.
  exists wit_spec. eexists. split; [easy|]. split; [repeat constructor; intros []|].
  split; [apply wit_matches|]. split; [vm_compute; reflexivity|].
  intro A. destruct (A "b"%string) as (_ & A1 & _). vm_compute in A1. discriminate.
Qed.
Lemma C26_lemma nsqrt smooth dla_flux dwave ops s s' :
  (forall iv x, length (smooth iv x) = length iv) ->
  s_f s = empty_forest -> NoDup (dkeys (s_wave s)) -> data_matches_grid s ->
  forallb (fun o => negb (head_slice o)) ops = true ->
  run_ops nsqrt smooth dla_flux dwave ops s = Ok s' -> aligned s'.
Proof.
  intros Hs He N D Ho E. apply wff_aligned.
  eapply inv26_run; [exact Hs|exact Ho| |exact E]. now apply inv26_fresh.
Qed.
Lemma proper_wff s : proper s -> wff (s_f s).
Proof.
  intros (A & N & _ & R1 & R2 & R3). constructor; auto; intro a; apply (A a).
Qed.
Lemma C26_slice_lemma arm i1 i2 s s' :
  proper s ->
  ri (s_f s) <> rs (s_f s) /\ ri (s_f s) <> rw (s_f s) /\ rs (s_f s) <> rw (s_f s) ->
  spec_slice arm i1 i2 s = Ok s' -> aligned s'.
Proof.
  intros P H E. apply wff_aligned. refine (spec_slice_wff arm i1 i2 s _ (proper_wff s P) _ E). now right.
Qed.
