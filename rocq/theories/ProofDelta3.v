(** C36: consequences. *)
From Coq Require Import Field ZArith String List Bool Arith Lia Permutation Qcanon.
From Verif Require Import Num NpList NpListFacts Exn Dict ModelSpectrum ModelDelta SpecSpectrum SpecMasks SpecWeights SpecCoadd SpecDelta
  ProofSpectrum1 ProofMasks ProofWeights ProofCoadd ProofCoadd2 ProofCoadd3 ProofDelta2.
Import ListNotations.
Local Open Scope nat_scope.

Lemma qinv_inv (x : Qc) : (/ / x = x)%Qc.
Proof.
  apply Qc_is_canon. cbn. rewrite !Qreduction.Qred_correct. apply QArith_base.Qinv_involutive.
Qed.
Lemma coadded_weight_unique l l' iv w w' :
  weights_ok l -> Permutation l l' -> coadded_weight l iv w -> coadded_weight l' iv w' -> w = w'.
Proof.
  intros Ok P (A1 & A2) B. pose proof (weight_nonneg_sum l Ok) as W0.
  assert (forall g : entry -> Qc, qsum (map g l) = qsum (map g l')) as E.
  { intro g. apply qsum_perm. now apply Permutation_map. }
  assert (coadded_weight l iv w') as (B1 & B2) by (unfold coadded_weight in *; rewrite !E; exact B).
  destruct (Qclt_le_dec 0 (qsum (map e_weight l))) as [C|C].
  - destruct (A2 C) as (P1 & E1). destruct (B2 C) as (P2 & E2). rewrite <- E1 in E2.
    rewrite <- (qinv_inv w), <- (qinv_inv w'). now rewrite E2.
  - assert (qsum (map e_weight l) = 0%Qc) as Z by (apply Qcle_antisym; easy). now rewrite A1, B1.
Qed.
Lemma spans_sym d1 d2 mn mx : spans d1 d2 mn mx -> spans d2 d1 mn mx.
Proof.
  unfold spans. intros ((H1 & H2) & (H3 & H4)).
  assert (forall x, In x (d_wave d2 ++ d_wave d1) <-> In x (d_wave d1 ++ d_wave d2)) as E by (intro; rewrite !in_app_iff; tauto).
  split; split; try (now apply E); intros x Hx; apply E in Hx; auto.
Qed.
Lemma spans_unique d1 d2 mn mx mn' mx' : spans d1 d2 mn mx -> spans d1 d2 mn' mx' -> mn' = mn /\ mx' = mx.
Proof.
  intros ((H1 & H2) & (H3 & H4)) ((H1' & H2') & (H3' & H4')). split; apply Qcle_antisym; auto.
Qed.
Lemma both_ok ents dw d1 d2 mn j :
  weights_ok (ents d1) -> weights_ok (ents d2) -> weights_ok (both ents mn dw j d1 d2).
Proof. intros W1 W2. apply weights_ok_app. split; intros e He; apply in_lands in He; auto. Qed.

Section C.
Variable nsqrt : num -> num.
Lemma coadd_commutes dw d1 d2 :
  (0 < dw)%Qc -> pair_ok dw d1 d2 -> d_reso d1 = None -> d_reso d2 = None ->
  exists d d', delta_coadd nsqrt dw d1 d2 = Ok d /\ delta_coadd nsqrt dw d2 d1 = Ok d' /\ same_arrays d d'.
Proof.
  intros H P R1 R2. pose proof P as (D1 & D2 & U1 & U2 & W1 & W2 & L1 & L2).
  destruct (delta_coadd_spec nsqrt dw d1 d2 H P R1) as (mn & mx & d & E & S1 & S2 & Ew & _ & _ & _ & N1 & N2 & N3 & N4 & K).
  destruct (delta_coadd_spec nsqrt dw d2 d1 H) as (mn' & mx' & d' & E' & S1' & S2' & Ew' & _ & _ & _ & N1' & N2' & N3' & N4' & K'); auto.
  { unfold pair_ok. tauto. }
  destruct (spans_unique d1 d2 mn mx mn' mx') as (-> & ->); [split; easy|apply spans_sym; split; easy|].
  exists d, d'. split; [easy|]. split; [easy|]. set (n := grid_n mn mx dw) in *.
  assert (forall j, j < n -> nth_error (d_delta d) j = nth_error (d_delta d') j /\ nth_error (d_ivar d) j = nth_error (d_ivar d') j /\
    nth_error (d_weight d) j = nth_error (d_weight d') j /\ nth_error (d_cont d) j = nth_error (d_cont d') j) as Q.
  { intros j Hj. destruct (K j Hj) as (dl & iv & w & c & -> & -> & -> & -> & A1 & A2 & A3).
    destruct (K' j Hj) as (dl' & iv' & w' & c' & -> & -> & -> & -> & B1 & B2 & B3).
    assert (forall ents, Permutation (both ents mn dw j d1 d2) (both ents mn dw j d2 d1)) as Pm by (intro; apply Permutation_app_comm).
    destruct (weighted_average_unique _ _ _ _ _ _ (both_ok delta_entries dw d1 d2 mn j W1 W2) (Pm _) A1 B1) as (<- & <-).
    destruct (weighted_average_unique _ _ _ _ _ _ (both_ok cont_entries dw d1 d2 mn j (cont_weights d1 D1 W1) (cont_weights d2 D2 W2)) (Pm _) A2 B2) as (<- & _).
    rewrite (coadded_weight_unique _ _ _ _ _ (both_ok delta_entries dw d1 d2 mn j W1 W2) (Pm _) A3 B3). easy. }
  unfold same_arrays. rewrite Ew, Ew'. split; [easy|].
  assert (forall a b : list num, length a = n -> length b = n -> (forall j, j < n -> nth_error a j = nth_error b j) -> a = b) as G.
  { intros a b La Lb Hj. apply list_eq_nth_error. intro k. destruct (le_lt_dec n k) as [C|C]; [|auto].
    rewrite !(proj2 (nth_error_None _ _)) by lia. easy. }
  repeat split; apply G; auto; intros j Hj; now apply Q.
Qed.

Lemma half_alg (a b : Qc) : (a <> 0 -> b <> 0 -> / b + (1 - a / b + (1 + 0)) / a = (1 + 1) / a)%Qc.
Proof. intros Ha Hb. field. split; assumption. Qed.
Lemma inv_half (a : Qc) : (a <> 0 -> / ((1 + 1) / a) = a / (1 + 1))%Qc.
Proof.
  intro Ha. unfold Qcdiv. assert ((1 + 1) * / a <> 0)%Qc as N.
  { intro C. assert ((1 + 1) * / a * a = 0)%Qc as D by (rewrite C; ring).
    rewrite <- Qcmult_assoc, (Qcmult_comm (/ a) a), (Qcmult_inv_r a Ha) in D. discriminate D. }
  field. repeat split; try assumption; discriminate.
Qed.

(** a masked pixel: delta, ivar and continuum are kept, the weight is not *)
Lemma masked_pair e m dl iv w :
  weights_ok [e; m] -> (0 < e_weight e)%Qc -> e_ivar m = 0%Qc ->
  weighted_average [e; m] dl iv -> coadded_weight [e; m] iv w ->
  dl = e_flux e /\ iv = e_ivar e /\ w = (e_weight e / (1 + 1))%Qc.
Proof.
  intros Ok P M A (_ & C).
  assert (weights_ok [e]) as Oe by (intros x [<-|[]]; apply Ok; now left).
  assert (e_weight m = 0%Qc) as Em by (apply (Ok m); [right; now left|easy]).
  assert (0 < e_ivar e)%Qc as Ie.
  { destruct (Ok e) as (_ & I0 & I1); [now left|]. destruct (Qclt_le_dec 0 (e_ivar e)) as [Z|Z]; [easy|].
    rewrite I1 in P by (now apply Qcle_antisym). discriminate P. }
  apply masked_do_not_contribute in A; [|easy]. cbn [filter] in A. rewrite M in A.
  rewrite (proj2 (qltb_true 0 (e_ivar e)) Ie) in A. change (qltb 0 0) with false in A. cbv iota in A.
  destruct (single_average e dl iv Oe A) as (A1 & _). destruct (A1 P) as (-> & ->). split; [easy|]. split; [easy|].
  cbn [map] in C. unfold qsum, lss_term in C. cbn [fold_right] in C. rewrite Em, M in C.
  rewrite (proj2 (qltb_true 0 (e_ivar e)) Ie) in C. change (qltb 0 0) with false in C. cbv iota in C.
  destruct C as (C1 & C2); [qlra|].
  assert (e_weight e <> 0)%Qc by (intro Q; rewrite Q in P; discriminate P).
  assert (e_ivar e <> 0)%Qc by (intro Q; rewrite Q in Ie; discriminate Ie).
  replace (e_weight e + (0 + 0))%Qc with (e_weight e) in C2 by ring.
  rewrite half_alg in C2 by assumption. rewrite <- (qinv_inv w), C2. now apply inv_half.
Qed.

Lemma coadd_masked dw d1 d2 d mn mx j e m :
  (0 < dw)%Qc -> pair_ok dw d1 d2 -> d_reso d1 = None -> spans d1 d2 mn mx -> j < grid_n mn mx dw ->
  delta_coadd nsqrt dw d1 d2 = Ok d ->
  lands mn dw j (delta_entries d1) = [e] -> lands mn dw j (delta_entries d2) = [m] ->
  (0 < e_weight e)%Qc -> e_ivar m = 0%Qc ->
  nth_error (d_delta d) j = Some (Fin (e_flux e)) /\ nth_error (d_ivar d) j = Some (Fin (e_ivar e)) /\
  nth_error (d_weight d) j = Some (Fin (e_weight e / (1 + 1))).
Proof.
  intros H P R S Hj E Le Lm Pe Im. pose proof P as (D1 & D2 & U1 & U2 & W1 & W2 & L1 & L2).
  destruct (delta_coadd_spec nsqrt dw d1 d2 H P R) as (mn' & mx' & d' & E' & S1 & S2 & Ew & _ & _ & _ & N1 & N2 & N3 & N4 & K).
  destruct (spans_unique d1 d2 mn mx mn' mx' S) as (-> & ->); [split; easy|].
  assert (d' = d) as -> by congruence.
  destruct (K j Hj) as (dl & iv & w & c & -> & -> & -> & _ & A1 & _ & A3).
  unfold both in *. rewrite Le, Lm in *. cbn [app] in *.
  destruct (masked_pair e m dl iv w) as (-> & -> & ->); auto.
  pose proof (both_ok delta_entries dw d1 d2 mn j W1 W2) as O. unfold both in O. now rewrite Le, Lm in O.
Qed.

Lemma coadd_no_reso dw d1 d2 m :
  (0 < dw)%Qc -> pair_ok dw d1 d2 -> d_reso d1 = Some m -> d_reso d2 = None ->
  delta_coadd nsqrt dw d1 d2 = Err (OtherExn "AttributeError").
Proof.
  intros H P R R2. set (d1' := mkDelta (d_targetid d1) (d_radec d1) (d_meansnr d1) (d_wave d1) (d_delta d1) (d_ivar d1) (d_weight d1) (d_cont d1) None (d_blinded d1)).
  assert (pair_ok dw d1' d2) as P' by exact P.
  destruct (delta_coadd_spec nsqrt dw d1' d2 H P' eq_refl) as (mn & mx & d & E & _).
  unfold delta_coadd in *. rewrite R.
  change (d_wave d1') with (d_wave d1) in E.
  destruct (rfirst (d_wave d1)) as [a1|]; cbn [rbind] in *; [|discriminate E].
  destruct (rfirst (d_wave d2)) as [a2|]; cbn [rbind] in *; [|discriminate E].
  destruct (rlast (d_wave d1)) as [b1|]; cbn [rbind] in *; [|discriminate E].
  destruct (rlast (d_wave d2)) as [b2|]; cbn [rbind] in *; [|discriminate E].
  change (first_idx (qmin a1 a2) dw d1') with (first_idx (qmin a1 a2) dw d1) in E.
  destruct (first_idx (qmin a1 a2) dw d1) as [i1|]; cbn [rbind] in *; [|discriminate E].
  destruct (first_idx (qmin a1 a2) dw d2) as [i2|]; cbn [rbind] in *; [|discriminate E].
  set (acc0 := mkDacc _ _ _ _ _) in *. change (delta_add i1 d1' acc0) with (delta_add i1 d1 acc0) in E.
  destruct (delta_add i1 d1 acc0) as [acc1|]; cbn [rbind] in *; [|discriminate E].
  destruct (delta_add i2 d2 acc1) as [acc2|]; cbn [rbind] in *; [|discriminate E].
  unfold delta_coadd_reso. now rewrite R2.
Qed.

(** ** Many deltas with weight = ivar *)
Lemma filter_nth {A} (p : A -> bool) l : forall j, (forall k e, nth_error l k = Some e -> p e = (k =? j)) ->
  filter p l = match nth_error l j with Some e => [e] | None => [] end.
Proof.
  induction l as [|a l IH]; intros j H; [now destruct j|]. cbn [filter]. pose proof (H 0 a eq_refl) as H0. rewrite H0.
  destruct j as [|j]; cbn [Nat.eqb nth_error].
  - f_equal. assert (forall k e, nth_error l k = Some e -> p e = false) as F by (intros k e E; now rewrite (H (S k) e E)).
    clear - F. induction l as [|a l IH]; [easy|]. cbn. rewrite (F 0 a eq_refl). apply IH. intros k e E. now apply (F (S k)).
  - apply IH. intros k e E. now rewrite (H (S k) e E).
Qed.
Lemma uniform_lands dw l x0 : (0 < dw)%Qc -> uniform dw (map e_wave l) -> nth_error (map e_wave l) 0 = Some x0 ->
  forall j, lands x0 dw j l = match nth_error l j with Some e => [e] | None => [] end.
Proof.
  intros H U E0 j. apply filter_nth. intros k e Ek.
  assert (nth_error (map e_wave l) k = Some (e_wave e)) as Ex by (now apply map_nth_error).
  rewrite (uniform_nth dw _ U k x0 _ E0 Ex).
  assert (x0 <= x0 + zq (Z.of_nat k) * dw)%Qc as L.
  { assert (0 <= zq (Z.of_nat k))%Qc by (change 0%Qc with (zq 0); apply zq_le; lia). qnra. }
  pose proof (on_pixel_exact x0 dw k H) as O. rewrite on_pixel_idx in * by easy.
  apply Nat.eqb_eq in O. now rewrite O.
Qed.
Lemma uniform_span dw w x0 r : (0 < dw)%Qc -> uniform dw w -> w = x0 :: r ->
  forall mn mx, In mn w -> (forall x, In x w -> (mn <= x)%Qc) -> In mx w -> (forall x, In x w -> (x <= mx)%Qc) ->
  mn = x0 /\ grid_n mn mx dw = length w /\ linspace mn mx (grid_n mn mx dw) = w.
Proof.
  intros H Uw Q mn mx I1 B I2 B2.
  assert (nth_error w 0 = Some x0) as E0 by now rewrite Q.
  assert (mn = x0) as Emn.
  { apply Qcle_antisym; [apply B; rewrite Q; now left|]. apply In_nth_error in I1 as (k & Ek).
    rewrite (uniform_nth dw w Uw k x0 _ E0 Ek).
    assert (0 <= zq (Z.of_nat k))%Qc by (change 0%Qc with (zq 0); apply zq_le; lia). qnra. }
  assert (mx = x0 + zq (Z.of_nat (length r)) * dw)%Qc as Emx.
  { assert (exists xl, nth_error w (length r) = Some xl) as (xl & El).
    { destruct (nth_error w (length r)) eqn:Z; [eauto|]. apply nth_error_None in Z. rewrite Q in Z. cbn in Z. lia. }
    pose proof (uniform_nth dw w Uw _ _ _ E0 El) as Exl. rewrite <- Exl.
    apply Qcle_antisym.
    - apply In_nth_error in I2 as (k & Ek). rewrite Exl, (uniform_nth dw w Uw k x0 _ E0 Ek).
      assert (k < length w) as Hk by (apply nth_error_Some; congruence). rewrite Q in Hk. cbn in Hk.
      assert (zq (Z.of_nat k) <= zq (Z.of_nat (length r)))%Qc by (apply zq_le; lia).
      assert (zq (Z.of_nat k) * dw <= zq (Z.of_nat (length r)) * dw)%Qc
        by (apply Qcmult_le_compat_r; [easy|now apply Qclt_le_weak]). qlra.
    - apply B2. now apply nth_error_In in El. }
  assert (grid_n mn mx dw = length w) as En by (rewrite Emx, Emn, grid_n_exact by easy; now rewrite Q).
  split; [easy|]. split; [easy|].
  apply list_eq_nth_error. intro k. destruct (le_lt_dec (length w) k) as [G|G].
  - rewrite (proj2 (nth_error_None w k)) by easy. apply nth_error_None. rewrite linspace_length. lia.
  - rewrite En, Q. cbn [length]. rewrite Emx, Emn. assert (k <= length r) as G2 by (rewrite Q in G; cbn in G; lia).
    rewrite linspace_step by lia. rewrite <- Q. apply nth_error_Some in G. destruct (nth_error w k) as [y|] eqn:Ey; [|easy].
    f_equal. symmetry. now apply (uniform_nth dw w Uw).
Qed.

Lemma zip4_nth x : forall w f i k, length w = length x -> length f = length x -> length i = length x -> k < length x ->
  nth_error (zip4 x w f i) k = Some (mkEntry (nth k x 0%Qc) (qv w k) (qv f k) (qv i k)).
Proof.
  unfold qv. induction x as [|a x IH]; intros [|b w] [|c f] [|d i] k L1 L2 L3 Hk; try discriminate; cbn in Hk; [lia|].
  destruct k as [|k]; cbn; [easy|]. cbn in L1, L2, L3. apply IH; lia.
Qed.
Lemma Forall_nth_pos (a : list num) k : Forall (fun x => (0 < nval x)%Qc) a -> k < length a -> (0 < qv a k)%Qc.
Proof. intros F H. rewrite Forall_forall in F. apply F. now apply nth_In. Qed.
Lemma qv_nth (a : list num) k q : nth_error a k = Some (Fin q) -> qv a k = q.
Proof. intro E. unfold qv. now rewrite (nth_error_nth _ _ _ E). Qed.

Lemma plain_entries w d : plain w d -> weights_ok (delta_entries d) /\ weight_le_ivar (delta_entries d).
Proof.
  intros ((_ & _ & L1 & L2 & L3 & L4 & _) & Ew & _ & Ewt & F).
  assert (forall e, In e (delta_entries d) -> e_weight e = e_ivar e /\ (0 < e_ivar e)%Qc) as G.
  { unfold delta_entries. intros e He. apply In_nth_error in He as (k & Ek).
    assert (k < length (d_wave d)) as Hk.
    { destruct (zip4_parts (d_wave d) (d_weight d) (d_delta d) (d_ivar d)) as (P1 & _); try lia.
      rewrite <- P1, map_length. apply nth_error_Some. congruence. }
    rewrite zip4_nth in Ek by lia. injection Ek as <-. cbn. rewrite Ewt. split; [easy|]. apply Forall_nth_pos; [easy|lia]. }
  split; intros e He; destruct (G e He) as (E & P); rewrite E.
  - split; [now apply Qclt_le_weak|]. split; [now apply Qclt_le_weak|]. intro C. now rewrite C in *.
  - apply Qcle_refl.
Qed.

Lemma plain_pair dw w d1 d2 :
  (0 < dw)%Qc -> uniform dw w -> plain w d1 -> plain w d2 ->
  exists d, delta_coadd nsqrt dw d1 d2 = Ok d /\ plain w d /\
    forall j, j < length w ->
      (qv (d_ivar d) j = qv (d_ivar d1) j + qv (d_ivar d2) j)%Qc /\
      (qv (d_ivar d) j * qv (d_delta d) j = qv (d_ivar d1) j * qv (d_delta d1) j + qv (d_ivar d2) j * qv (d_delta d2) j)%Qc /\
      (qv (d_ivar d) j * qv (d_cont d) j = qv (d_ivar d1) j * qv (d_cont d1) j + qv (d_ivar d2) j * qv (d_cont d2) j)%Qc.
Proof.
  intros H U P1 P2. destruct (plain_entries w d1 P1) as (W1 & L1). destruct (plain_entries w d2 P2) as (W2 & L2).
  pose proof P1 as (D1 & Ew1 & R1 & E1 & F1). pose proof P2 as (D2 & Ew2 & R2 & E2 & F2).
  assert (pair_ok dw d1 d2) as P.
  { unfold pair_ok. rewrite Ew1, Ew2. tauto. }
  destruct (delta_coadd_spec nsqrt dw d1 d2 H P R1) as (mn & mx & d & E & S1 & S2 & Ew & _ & _ & Er & N1 & N2 & N3 & N4 & K).
  rewrite Ew1, Ew2 in S1, S2. destruct S1 as (S1 & S1'). destruct S2 as (S2 & S2').
  assert (exists x0 r, w = x0 :: r) as (x0 & r & Q).
  { destruct D1 as (Ne & _). rewrite Ew1 in Ne. destruct w; [easy|eauto]. }
  destruct (uniform_span dw w x0 r H U Q mn mx) as (Emn & En & El).
  { apply in_app_or in S1 as [S1|S1]; easy. } { intros; apply S1', in_or_app; auto. }
  { apply in_app_or in S2 as [S2|S2]; easy. } { intros; apply S2', in_or_app; auto. }
  rewrite El in Ew. rewrite En in N1, N2, N3, N4, K.
  exists d. split; [easy|].
  assert (forall dd, plain w dd -> forall j, j < length w ->
    lands mn dw j (delta_entries dd) = [mkEntry (nth j w 0%Qc) (qv (d_ivar dd) j) (qv (d_delta dd) j) (qv (d_ivar dd) j)] /\
    lands mn dw j (cont_entries dd) = [mkEntry (nth j w 0%Qc) (qv (d_ivar dd) j) (qv (d_cont dd) j) (qv (d_ivar dd) j)]) as LN.
  { intros dd ((_ & _ & A1 & A2 & A3 & A4 & _) & Aw & _ & Ae & _) j Hj. rewrite Aw in *.
    destruct (zip4_parts w (d_weight dd) (d_delta dd) (d_ivar dd)) as (Z1 & _); [lia..|].
    destruct (zip4_parts w (d_weight dd) (d_cont dd) (d_ivar dd)) as (Z2 & _); [lia..|].
    unfold delta_entries, cont_entries. rewrite Aw, Emn.
    rewrite uniform_lands by (rewrite ?Z1; auto; now rewrite Q). rewrite zip4_nth by lia.
    rewrite uniform_lands by (rewrite ?Z2; auto; now rewrite Q). rewrite zip4_nth by lia. now rewrite Ae. }
  assert (forall j, j < length w -> exists dl iv c,
    nth_error (d_delta d) j = Some (Fin dl) /\ nth_error (d_ivar d) j = Some (Fin iv) /\
    nth_error (d_weight d) j = Some (Fin iv) /\ nth_error (d_cont d) j = Some (Fin c) /\ (0 < iv)%Qc /\
    (iv = qv (d_ivar d1) j + qv (d_ivar d2) j)%Qc /\
    (iv * dl = qv (d_ivar d1) j * qv (d_delta d1) j + qv (d_ivar d2) j * qv (d_delta d2) j)%Qc /\
    (iv * c = qv (d_ivar d1) j * qv (d_cont d1) j + qv (d_ivar d2) j * qv (d_cont d2) j)%Qc) as V.
  { intros j Hj. destruct (K j Hj) as (dl & iv & wt & c & Q1 & Q2 & Q3 & Q4 & A1 & A2 & A3).
    unfold both in A1, A2, A3. destruct (LN d1 P1 j Hj) as (X1 & Y1). destruct (LN d2 P2 j Hj) as (X2 & Y2).
    rewrite X1, X2 in A1, A3. rewrite Y1, Y2 in A2. clear X1 X2 Y1 Y2. cbn [app] in A1, A2, A3.
    destruct D1 as (_ & _ & _ & Li1 & _). destruct D2 as (_ & _ & _ & Li2 & _). rewrite Ew1 in Li1. rewrite Ew2 in Li2.
    assert (0 < qv (d_ivar d1) j)%Qc as Pi1 by (apply Forall_nth_pos; [easy|lia]).
    assert (0 < qv (d_ivar d2) j)%Qc as Pi2 by (apply Forall_nth_pos; [easy|lia]).
    set (i1 := qv (d_ivar d1) j) in *. set (i2 := qv (d_ivar d2) j) in *.
    assert (forall f1 f2, weights_ok [mkEntry (nth j w 0%Qc) i1 f1 i1; mkEntry (nth j w 0%Qc) i2 f2 i2] /\
       ivar_weights [mkEntry (nth j w 0%Qc) i1 f1 i1; mkEntry (nth j w 0%Qc) i2 f2 i2]) as O.
    { intros f1 f2. split; intros e [<-|[<-|[]]]; cbn; auto; repeat split; auto using Qclt_le_weak. }
    destruct (ivar_average _ _ _ (proj1 (O _ _)) (proj2 (O _ _)) A1) as (I1 & G1).
    destruct (ivar_average _ _ _ (proj1 (O _ _)) (proj2 (O _ _)) A2) as (_ & G2).
    unfold qsum in I1, G1, G2. cbn [map fold_right e_ivar e_flux] in I1, G1, G2.
    assert (iv = i1 + i2)%Qc as I1' by (rewrite I1; ring). assert (0 < iv)%Qc as Ip by (rewrite I1'; qlra).
    assert (wt = iv) as ->.
    { destruct A3 as (_ & A3). unfold qsum, lss_term in A3. cbn [map fold_right e_weight e_ivar] in A3.
      rewrite (proj2 (qltb_true 0 i1) Pi1), (proj2 (qltb_true 0 i2) Pi2) in A3.
      destruct A3 as (B1 & B2); [qlra|].
      assert (i1 <> 0)%Qc by (intro C; rewrite C in Pi1; discriminate Pi1).
      assert (i2 <> 0)%Qc by (intro C; rewrite C in Pi2; discriminate Pi2).
      replace (1 - i1 / i1 + (1 - i2 / i2 + 0))%Qc with 0%Qc in B2 by (field; split; assumption).
      replace (/ iv + 0 / (i1 + (i2 + 0)))%Qc with (/ iv)%Qc in B2 by (unfold Qcdiv; ring).
      rewrite <- (qinv_inv wt), B2. apply qinv_inv. }
    exists dl, iv, c. do 6 (split; [assumption|]). split.
    - transitivity (dl * (i1 + (i2 + 0)))%Qc; [rewrite I1'; ring|]. rewrite G1. ring.
    - transitivity (c * (i1 + (i2 + 0)))%Qc; [rewrite I1'; ring|]. rewrite G2. ring. }
  assert (forall a : list num, length a = length w -> (forall j, j < length w -> exists q, nth_error a j = Some (Fin q)) -> all_fin a) as AF.
  { intros a La Ha. apply Forall_forall. intros x Hx. apply In_nth_error in Hx as (k & Ek).
    assert (k < length w) as Hk by (rewrite <- La; apply nth_error_Some; congruence). destruct (Ha k Hk) as (q & Eq). 
    assert (x = Fin q) as -> by congruence. easy. }
  split.
  - split; [|split; [easy|split; [easy|split]]].
    + destruct D1 as (Ne & As & _). rewrite Ew1 in Ne, As. unfold delta_ok. rewrite Ew. repeat (split; [easy|]).
      repeat split; (apply AF; [easy|]); intros j Hj; destruct (V j Hj) as (dl & iv & c & Q1 & Q2 & Q3 & Q4 & _); eauto.
    + apply list_eq_nth_error. intro k. destruct (le_lt_dec (length w) k) as [G|G].
      * rewrite !(proj2 (nth_error_None _ _)) by lia. easy.
      * destruct (V k G) as (dl & iv & c & Q1 & -> & -> & _). easy.
    + apply Forall_forall. intros x Hx. apply In_nth_error in Hx as (k & Ek).
      assert (k < length w) as Hk by (rewrite <- N2; apply nth_error_Some; congruence).
      destruct (V k Hk) as (dl & iv & c & Q1 & Q2 & Q3 & Q4 & Ip & _). assert (x = Fin iv) as -> by congruence. easy.
  - intros j Hj. destruct (V j Hj) as (dl & iv & c & Q1 & Q2 & Q3 & Q4 & Ip & G1 & G2 & G3).
    rewrite (qv_nth _ _ _ Q1), (qv_nth _ _ _ Q2), (qv_nth _ _ _ Q4). easy.
Qed.

Lemma plain_all dw w : (0 < dw)%Qc -> uniform dw w -> forall ds d0,
  plain w d0 -> (forall x, In x ds -> plain w x) ->
  exists d, coadd_all (delta_coadd nsqrt dw) d0 ds = Ok d /\ plain w d /\
    forall j, j < length w ->
      (qv (d_ivar d) j = qsum (map (fun x => qv (d_ivar x) j) (d0 :: ds)))%Qc /\
      (qv (d_ivar d) j * qv (d_delta d) j = qsum (map (fun x => qv (d_ivar x) j * qv (d_delta x) j) (d0 :: ds)))%Qc /\
      (qv (d_ivar d) j * qv (d_cont d) j = qsum (map (fun x => qv (d_ivar x) j * qv (d_cont x) j) (d0 :: ds)))%Qc.
Proof.
  intros H U. unfold coadd_all. induction ds as [|x ds IH]; intros d0 P0 Pd; cbn [for_each].
  - exists d0. split; [easy|]. split; [easy|]. intros j Hj. cbn [map]. rewrite !qsum_cons. change (qsum []) with 0%Qc. repeat split; ring.
  - destruct (plain_pair dw w d0 x H U P0) as (d1 & -> & P1 & V1); [apply Pd; now left|]. cbn [rbind].
    destruct (IH d1 P1) as (d & -> & P & V); [intros; apply Pd; now right|]. exists d. split; [easy|]. split; [easy|].
    intros j Hj. destruct (V1 j Hj) as (A1 & A2 & A3). destruct (V j Hj) as (B1 & B2 & B3).
    cbn [map] in *. rewrite !qsum_cons in *. rewrite B2, B3, A2, A3. rewrite B1, A1. repeat split; ring.
Qed.

Lemma plain_order dw w d0 ds d0' ds' :
  (0 < dw)%Qc -> uniform dw w -> Forall (plain w) (d0 :: ds) -> Permutation (d0 :: ds) (d0' :: ds') ->
  exists d d', coadd_all (delta_coadd nsqrt dw) d0 ds = Ok d /\ coadd_all (delta_coadd nsqrt dw) d0' ds' = Ok d' /\ same_arrays d d'.
Proof.
  intros H U F Pm. assert (Forall (plain w) (d0' :: ds')) as F' by (now apply (Permutation_Forall Pm)).
  rewrite Forall_forall in F, F'.
  destruct (plain_all dw w H U ds d0) as (d & E & P & V); [apply F; now left|intros; apply F; now right|].
  destruct (plain_all dw w H U ds' d0') as (d' & E' & P' & V'); [apply F'; now left|intros; apply F'; now right|].
  exists d, d'. split; [easy|]. split; [easy|].
  assert (forall j, j < length w -> qv (d_ivar d) j = qv (d_ivar d') j /\ qv (d_delta d) j = qv (d_delta d') j /\ qv (d_cont d) j = qv (d_cont d') j) as Q.
  { intros j Hj. destruct (V j Hj) as (A1 & A2 & A3). destruct (V' j Hj) as (B1 & B2 & B3).
    rewrite (qsum_perm _ _ (Permutation_map _ Pm)) in A1. rewrite (qsum_perm _ _ (Permutation_map _ Pm)) in A2.
    rewrite (qsum_perm _ _ (Permutation_map _ Pm)) in A3. rewrite <- B1 in A1. rewrite <- B2 in A2. rewrite <- B3 in A3.
    destruct P as ((_ & _ & _ & Li & _) & Ew & _ & _ & Fp). rewrite Ew in Li.
    assert (0 < qv (d_ivar d) j)%Qc as Ip by (apply Forall_nth_pos; [easy|lia]).
    assert (qv (d_ivar d) j <> 0)%Qc as In by (intro C; rewrite C in Ip; discriminate Ip).
    rewrite <- A1 in A2, A3. split; [easy|]. split.
    - replace (qv (d_delta d) j) with (qv (d_ivar d) j * qv (d_delta d) j / qv (d_ivar d) j)%Qc by (field; assumption).
  rewrite A2. field. assumption.
    - replace (qv (d_cont d) j) with (qv (d_ivar d) j * qv (d_cont d) j / qv (d_ivar d) j)%Qc by (field; assumption).
      rewrite A3. field. assumption. }
  destruct P as ((_ & _ & L1 & L2 & L3 & L4 & N1 & N2 & N3 & N4) & Ew & _ & Ee & _).
  destruct P' as ((_ & _ & L1' & L2' & L3' & L4' & N1' & N2' & N3' & N4') & Ew' & _ & Ee' & _). rewrite Ew in *. rewrite Ew' in *.
  assert (forall a b : list num, length a = length w -> length b = length w -> all_fin a -> all_fin b ->
    (forall j, j < length w -> qv a j = qv b j) -> a = b) as G.
  { intros a b La Lb Fa Fb Hj. rewrite (fin_map a Fa), (fin_map b Fb). f_equal. apply list_eq_nth_error. intro k.
    destruct (le_lt_dec (length w) k) as [C|C].
    - rewrite !(proj2 (nth_error_None _ _)) by (rewrite map_length; lia). easy.
    - rewrite !(nth_error_nth' _ (nval NaN)) by (rewrite map_length; lia). rewrite !map_nth. f_equal. now apply Hj. }
  assert (d_ivar d = d_ivar d') as Ei by (apply G; auto; intros; now apply Q).
  unfold same_arrays. rewrite Ew, Ew', Ee, Ee', <- Ei. split; [easy|]. split; [apply G; auto; intros; now apply Q|].
  split; [easy|]. split; [easy|]. apply G; auto; intros; now apply Q.
Qed.
End C.
