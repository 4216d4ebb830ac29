(** C36: coadding deltas. *)
From Coq Require Import Field ZArith String List Bool Arith Lia Permutation Qcanon.
From Verif Require Import Num NpList NpListFacts Exn Dict ModelSpectrum ModelDelta SpecSpectrum SpecMasks SpecWeights SpecCoadd SpecDelta
  ProofSpectrum1 ProofMasks ProofWeights ProofCoadd ProofCoadd2 ProofCoadd3.
Import ListNotations.
Local Open Scope nat_scope.

Lemma land_sum_seq v : forall i0 j,
  land_sum (seq i0 (length v)) v j = if Nat.leb i0 j && Nat.ltb j (i0 + length v) then nth (j - i0) v 0%Qc else 0%Qc.
Proof.
  induction v as [|x v IH]; intros i0 j; cbn [length seq].
  - change (land_sum [] [] j) with 0%Qc. destruct (Nat.leb i0 j && Nat.ltb j (i0 + 0)); [|easy]. now destruct (j - i0).
  - rewrite land_sum_cons, IH.
    destruct (Nat.eqb_spec i0 j) as [->|N].
    + replace (S j <=? j) with false by (symmetry; apply Nat.leb_gt; lia). cbn [andb].
      replace (j <=? j) with true by (symmetry; apply Nat.leb_le; lia).
      replace (j <? j + S (length v)) with true by (symmetry; apply Nat.ltb_lt; lia). cbn [andb].
      rewrite Nat.sub_diag. cbn [nth]. ring.
    + destruct (Nat.leb_spec i0 j) as [H|H].
      * replace (S i0 <=? j) with true by (symmetry; apply Nat.leb_le; lia).
        replace (S i0 + length v) with (i0 + S (length v)) by lia. destruct (j <? i0 + S (length v)); cbn [andb]; [|ring].
        replace (j - i0) with (S (j - S i0)) by lia. cbn [nth]. ring.
      * replace (S i0 <=? j) with false by (symmetry; apply Nat.leb_gt; lia). cbn [andb]. ring.
Qed.
Lemma slice_add_repr n F i0 v : i0 + length v <= n ->
  slice_add (repr n F) i0 (map Fin v) = Ok (repr n (fun j => F j + land_sum (seq i0 (length v)) v j)%Qc).
Proof.
  intro H. unfold slice_add. rewrite map_length, repr_length.
  replace (i0 + length v <=? n) with true by (symmetry; apply Nat.leb_le; lia). f_equal.
  apply list_eq_nth_error. intro k. rewrite nth_error_map2, !repr_nth.
  destruct (Nat.ltb_spec k n) as [K|K].
  - rewrite (nth_error_nth' (seq 0 n) 0) by (rewrite seq_length; lia). rewrite seq_nth by easy. cbn [plus].
    rewrite land_sum_seq. destruct (Nat.leb_spec i0 k) as [H1|H1]; cbn [andb]; [|f_equal; f_equal; ring].
    destruct (Nat.ltb_spec k (i0 + length v)) as [H2|H2]; [|f_equal; f_equal; ring].
    rewrite (nth_indep _ NaN (Fin 0)) by (rewrite map_length; lia). rewrite map_nth. cbn [nadd]. easy.
  - assert (nth_error (seq 0 n) k = None) as -> by (apply nth_error_None; rewrite seq_length; lia). easy.
Qed.

Lemma pix_idx_succ mn dw x : (0 < dw)%Qc -> (mn <= x)%Qc ->
  Z.to_nat (pix_idx mn dw (x + dw)) = S (Z.to_nat (pix_idx mn dw x)).
Proof.
  intros H L. apply Nat.eqb_eq. rewrite <- on_pixel_idx; [|easy|apply Qcle_trans with x; [easy|qlra]].
  assert (on_pixel mn dw (Z.to_nat (pix_idx mn dw x)) x = true) as E by (rewrite on_pixel_idx; [apply Nat.eqb_refl|easy..]).
  set (j := Z.to_nat (pix_idx mn dw x)) in *. clearbody j. unfold on_pixel in *.
  rewrite andb_true_iff, qleb_true, qltb_true in *. destruct E as (E1 & E2).
  replace (Z.of_nat (S j)) with (Z.of_nat j + 1)%Z by lia. rewrite zq_plus. change (zq 1) with 1%Qc. split; qlra.
Qed.
Lemma uniform_indices mn dw w : (0 < dw)%Qc -> uniform dw w -> (forall x, In x w -> (mn <= x)%Qc) ->
  forall x0 r, w = x0 :: r ->
  map Z.to_nat (map (pix_idx mn dw) w) = seq (Z.to_nat (pix_idx mn dw x0)) (length w).
Proof.
  intros H. induction w as [|x w IH]; intros U B x0 r E; [easy|]. injection E as <- <-.
  cbn [map length seq]. f_equal. destruct w as [|y w]; [easy|].
  rewrite (IH (fun k a b Ha Hb => U (S k) a b Ha Hb) (fun z Hz => B z (or_intror Hz)) y w eq_refl).
  f_equal. assert (y = x + dw)%Qc as -> by now apply (U 0). apply pix_idx_succ; [easy|]. apply B. now left.
Qed.

Definition e_lss (e : entry) : Qc := (1 - e_weight e * (if qltb 0 (e_weight e) && qltb 0 (e_ivar e) then / e_ivar e else 0))%Qc.
Definition e_wv' (e : entry) : Qc := (e_weight e * e_weight e * (if qltb 0 (e_weight e) && qltb 0 (e_ivar e) then / e_ivar e else 0))%Qc.

Lemma delta_var_fin w iv : delta_var (Fin w) (Fin iv) = Fin (if qltb 0 w && qltb 0 iv then / iv else 0)%Qc.
Proof.
  unfold delta_var, npos, n0, n1. cbn [nltb]. destruct (qltb 0 w && qltb 0 iv) eqn:E; [|easy].
  apply andb_true_iff in E as (_ & E). apply qltb_true in E.
  assert (iv <> 0)%Qc by (intro C; rewrite C in E; discriminate E). rewrite ndiv_fin by easy. f_equal. now field.
Qed.

Lemma delta_add_repr mn dw n d F1 F2 F3 F4 F5 i0 :
  (0 < dw)%Qc -> delta_ok d -> uniform dw (d_wave d) ->
  (forall x, In x (d_wave d) -> (mn <= x)%Qc /\ (pix_idx mn dw x < Z.of_nat n)%Z) ->
  first_idx mn dw d = Ok i0 ->
  delta_add i0 d (mkDacc (repr n F1) (repr n F2) (repr n F3) (repr n F4) (repr n F5)) =
  Ok (mkDacc (repr n (fun j => F1 j + qsum (map e_wf (landed mn dw j (delta_entries d))))%Qc)
             (repr n (fun j => F2 j + qsum (map e_wv' (landed mn dw j (delta_entries d))))%Qc)
             (repr n (fun j => F3 j + qsum (map e_lss (landed mn dw j (delta_entries d))))%Qc)
             (repr n (fun j => F4 j + qsum (map e_wf (landed mn dw j (cont_entries d))))%Qc)
             (repr n (fun j => F5 j + qsum (map e_weight (landed mn dw j (delta_entries d))))%Qc)).
Proof.
  intros H (Ne & _ & L1 & L2 & L3 & L4 & N1 & N2 & N3 & N4) U B E.
  destruct (zip4_parts (d_wave d) (d_weight d) (d_delta d) (d_ivar d)) as (P1 & P2 & P3 & P4); [lia..|].
  destruct (zip4_parts (d_wave d) (d_weight d) (d_cont d) (d_ivar d)) as (R1 & R2 & R3 & R4); [lia..|].
  fold (delta_entries d) in *. fold (cont_entries d) in *.
  apply fin_map in N1, N2, N3, N4. unfold delta_add.
  destruct (d_wave d) as [|x0 r] eqn:Ew; [easy|]. unfold first_idx in E. rewrite Ew in E. cbn in E. injection E as <-.
  assert (map Z.to_nat (map (pix_idx mn dw) (x0 :: r)) = seq (Z.to_nat (pix_idx mn dw x0)) (length (x0 :: r))) as Ei.
  { eapply (uniform_indices mn dw (x0 :: r)); [easy..| |reflexivity]. intros x Hx. now apply B. }
  assert (Z.to_nat (pix_idx mn dw x0) + length (x0 :: r) <= n) as Le.
  { assert (In (Z.to_nat (pix_idx mn dw x0) + length r) (seq (Z.to_nat (pix_idx mn dw x0)) (length (x0 :: r)))) as Hin
      by (apply in_seq; cbn [length]; lia).
    rewrite <- Ei in Hin. apply in_map_iff in Hin as (z & Ez & Hz). apply in_map_iff in Hz as (x & <- & Hx).
    destruct (B x Hx) as (B1 & B2). pose proof (pix_idx_nonneg mn dw x H B1). cbn [length]. lia. }
  assert (length (delta_entries d) = length (x0 :: r)) as LE by (rewrite <- P1; now rewrite map_length).
  assert (length (cont_entries d) = length (x0 :: r)) as LC by (rewrite <- R1; now rewrite map_length).
  assert (forall e, In e (delta_entries d) -> (mn <= e_wave e)%Qc) as BE.
  { intros e He. apply B. rewrite <- P1. now apply in_map. }
  assert (forall e, In e (cont_entries d) -> (mn <= e_wave e)%Qc) as BC.
  { intros e He. apply B. rewrite <- R1. now apply in_map. }
  rewrite zip2_eq by lia. cbn [rbind]. rewrite zip2_eq by lia. cbn [rbind]. rewrite zip2_eq by lia. cbn [rbind].
  rewrite zip2_eq by (rewrite map2_length; lia). cbn [rbind]. rewrite zip2_eq by (rewrite map2_length; lia). cbn [rbind].
  rewrite N1, N2, N3, N4. rewrite <- P2, <- P3, <- P4. rewrite <- R3. 
  assert (map e_weight (delta_entries d) = map e_weight (cont_entries d)) as EW by (now rewrite P2, R2).
  rewrite (map2_Fin delta_var _ _ _ delta_var_fin). 
  rewrite !(map2_Fin nmul Qcmult) by easy.
  rewrite (map2_Fin (fun w v => nmul (nsq w) v) (fun w v => w * w * v)%Qc) by easy.
  rewrite (map2_Fin (fun w v => nsub n1 (nmul w v)) (fun w v => 1 - w * v)%Qc) by easy.
  assert (map2 Qcmult (map e_weight (delta_entries d)) (map e_flux (cont_entries d)) = map e_wf (cont_entries d)) as -> by (rewrite EW; apply map2_map_map). rewrite !map2_map_map.
  cbn [da_delta da_cont da_ivar da_lss da_norm].
  assert (forall F g, slice_add (repr n F) (Z.to_nat (pix_idx mn dw x0)) (map Fin (map g (delta_entries d))) =
    Ok (repr n (fun j => F j + qsum (map g (landed mn dw j (delta_entries d))))%Qc)) as SE.
  { intros F g. rewrite slice_add_repr by (rewrite map_length; lia). f_equal. apply repr_ext. intros j _.
    rewrite map_length, LE, <- Ei, <- P1, land_sum_landed; easy. }
  assert (forall F g, slice_add (repr n F) (Z.to_nat (pix_idx mn dw x0)) (map Fin (map g (cont_entries d))) =
    Ok (repr n (fun j => F j + qsum (map g (landed mn dw j (cont_entries d))))%Qc)) as SC.
  { intros F g. rewrite slice_add_repr by (rewrite map_length; lia). f_equal. apply repr_ext. intros j _.
    rewrite map_length, LC, <- Ei, <- R1, land_sum_landed; easy. }
  rewrite SE. cbn [rbind]. rewrite SC. cbn [rbind]. rewrite !SE. reflexivity.
Qed.

Lemma e_wv_wv' e : (0 <= e_weight e)%Qc -> e_wv' e = e_wv e.
Proof.
  intro H. unfold e_wv', e_wv. destruct (qltb 0 (e_weight e)) eqn:E; cbn [andb].
  - destruct (qltb 0 (e_ivar e)); unfold Qcdiv; ring.
  - apply qltb_false in E. assert (e_weight e = 0%Qc) as -> by (apply Qcle_antisym; easy).
    destruct (qltb 0 (e_ivar e)); unfold Qcdiv; ring.
Qed.
Lemma e_lss_eq e : (0 <= e_weight e)%Qc -> e_lss e = lss_term e.
Proof.
  intro H. unfold e_lss, lss_term. destruct (qltb 0 (e_weight e)) eqn:E; cbn [andb].
  - destruct (qltb 0 (e_ivar e)); unfold Qcdiv; ring.
  - apply qltb_false in E. assert (e_weight e = 0%Qc) as -> by (apply Qcle_antisym; easy).
    destruct (qltb 0 (e_ivar e)); unfold Qcdiv; ring.
Qed.

Lemma in_lands mn dw j l e : In e (lands mn dw j l) -> In e l.
Proof. unfold lands. now rewrite filter_In. Qed.

Lemma weights_ok_app a b : weights_ok (a ++ b) <-> weights_ok a /\ weights_ok b.
Proof.
  unfold weights_ok. split.
  - intro H. split; intros e He; apply H; apply in_or_app; auto.
  - intros (H1 & H2) e He. apply in_app_or in He as [He|He]; auto.
Qed.

Lemma cont_weights d : delta_ok d -> weights_ok (delta_entries d) -> weights_ok (cont_entries d).
Proof.
  intros (_ & _ & L1 & L2 & L3 & L4 & _). unfold delta_entries, cont_entries.
  revert L1 L2 L3 L4. generalize (d_delta d) (d_ivar d) (d_weight d) (d_cont d). induction (d_wave d) as [|x r IH];
  intros [|a l1] [|b l2] [|c l3] [|e l4] L1 L2 L3 L4 H; try discriminate; cbn [zip4] in *; [easy|].
  intros y [<-|Hy]; cbn.
  - destruct (H (mkEntry x (nval c) (nval a) (nval b))) as (H1 & H2); [now left|]. easy.
  - revert y Hy. apply (IH l1); cbn in *; try lia. intros y Hy. apply H. now right.
Qed.

(** sums over the same pixels do not depend on which value is carried as flux *)
Lemma cont_sums d mn dw j (g : entry -> Qc) :
  delta_ok d -> (forall x w f f' i, g (mkEntry x w f i) = g (mkEntry x w f' i)) ->
  qsum (map g (landed mn dw j (cont_entries d))) = qsum (map g (landed mn dw j (delta_entries d))).
Proof.
  intros (_ & _ & L1 & L2 & L3 & L4 & _) G. unfold delta_entries, cont_entries.
  revert L1 L2 L3 L4. generalize (d_delta d) (d_ivar d) (d_weight d) (d_cont d). induction (d_wave d) as [|x r IH];
  intros [|a l1] [|b l2] [|c l3] [|e l4] L1 L2 L3 L4; try discriminate; cbn [zip4]; [easy|].
  unfold landed in *. cbn [filter e_wave]. cbn in L1, L2, L3, L4.
  specialize (IH l1 l2 l3 l4 ltac:(lia) ltac:(lia) ltac:(lia) ltac:(lia)).
  destruct (on_pixel mn dw j x); cbn [map]; rewrite ?qsum_cons, IH; [|easy]. f_equal. apply G.
Qed.

Lemma lss_nonneg l : weights_ok l -> weight_le_ivar l -> (0 <= qsum (map lss_term l))%Qc.
Proof.
  intros H L. apply qsum_nonneg. apply Forall_map, Forall_forall. intros e He. unfold lss_term.
  destruct (qltb 0 (e_ivar e)) eqn:E; [|discriminate]. apply qltb_true in E.
  assert (e_weight e / e_ivar e <= 1)%Qc; [|qlra].
  replace 1%Qc with (e_ivar e / e_ivar e)%Qc by (field; intro C; rewrite C in E; discriminate E).
  apply qdiv_le; [easy|]. now apply L.
Qed.

Definition pair_ok (dw : Qc) (d1 d2 : delta) : Prop :=
  delta_ok d1 /\ delta_ok d2 /\ uniform dw (d_wave d1) /\ uniform dw (d_wave d2) /\
  weights_ok (delta_entries d1) /\ weights_ok (delta_entries d2) /\
  weight_le_ivar (delta_entries d1) /\ weight_le_ivar (delta_entries d2).

Section C.
Variable nsqrt : num -> num.
Lemma delta_coadd_spec dw d1 d2 :
  (0 < dw)%Qc -> pair_ok dw d1 d2 -> d_reso d1 = None ->
  exists mn mx d, let n := grid_n mn mx dw in
    delta_coadd nsqrt dw d1 d2 = Ok d /\
    (In mn (d_wave d1 ++ d_wave d2) /\ forall x, In x (d_wave d1 ++ d_wave d2) -> (mn <= x)%Qc) /\
    (In mx (d_wave d1 ++ d_wave d2) /\ forall x, In x (d_wave d1 ++ d_wave d2) -> (x <= mx)%Qc) /\
    d_wave d = linspace mn mx n /\ d_targetid d = d_targetid d1 /\ d_blinded d = d_blinded d1 /\ d_reso d = None /\
    length (d_delta d) = n /\ length (d_ivar d) = n /\ length (d_weight d) = n /\ length (d_cont d) = n /\
    forall j, j < n -> exists dl iv w c,
      nth_error (d_delta d) j = Some (Fin dl) /\ nth_error (d_ivar d) j = Some (Fin iv) /\
      nth_error (d_weight d) j = Some (Fin w) /\ nth_error (d_cont d) j = Some (Fin c) /\
      weighted_average (both delta_entries mn dw j d1 d2) dl iv /\
      weighted_average (both cont_entries mn dw j d1 d2) c iv /\
      coadded_weight (both delta_entries mn dw j d1 d2) iv w.
Proof.
  intros H (D1 & D2 & U1 & U2 & W1 & W2 & L1 & L2) Hr.
  destruct (rfirst_asc (d_wave d1)) as (a1 & Ea1 & Ia1 & Ma1); [apply D1..|].
  destruct (rfirst_asc (d_wave d2)) as (a2 & Ea2 & Ia2 & Ma2); [apply D2..|].
  destruct (rlast_asc (d_wave d1)) as (b1 & Eb1 & Ib1 & Mb1); [apply D1..|].
  destruct (rlast_asc (d_wave d2)) as (b2 & Eb2 & Ib2 & Mb2); [apply D2..|].
  unfold delta_coadd. rewrite Ea1, Ea2, Eb1, Eb2. cbn [rbind].
  set (mn := qmin a1 a2). set (mx := qmax b1 b2). fold (grid_n mn mx dw). set (n := grid_n mn mx dw).
  assert (In mn (d_wave d1 ++ d_wave d2) /\ forall x, In x (d_wave d1 ++ d_wave d2) -> (mn <= x)%Qc) as (M1 & M2).
  { unfold mn, qmin. destruct (qleb a1 a2) eqn:Q; [apply qleb_true in Q|apply qleb_false in Q]; (split; [apply in_or_app; auto|]);
    intros x Hx; apply in_app_or in Hx as [Hx|Hx]; auto.
    - apply Qcle_trans with a2; auto.
    - apply Qcle_trans with a1; auto. now apply Qclt_le_weak. }
  assert (In mx (d_wave d1 ++ d_wave d2) /\ forall x, In x (d_wave d1 ++ d_wave d2) -> (x <= mx)%Qc) as (X1 & X2).
  { unfold mx, qmax. destruct (qleb b1 b2) eqn:Q; [apply qleb_true in Q|apply qleb_false in Q]; (split; [apply in_or_app; auto|]);
    intros x Hx; apply in_app_or in Hx as [Hx|Hx]; auto.
    - apply Qcle_trans with b1; auto.
    - apply Qcle_trans with b2; auto. now apply Qclt_le_weak. }
  assert (forall x, In x (d_wave d1) -> (mn <= x)%Qc /\ (pix_idx mn dw x < Z.of_nat n)%Z) as B1.
  { intros x Hx. assert (mn <= x)%Qc by (apply M2, in_or_app; auto). split; [easy|]. apply grid_bound; auto. apply X2, in_or_app; auto. }
  assert (forall x, In x (d_wave d2) -> (mn <= x)%Qc /\ (pix_idx mn dw x < Z.of_nat n)%Z) as B2.
  { intros x Hx. assert (mn <= x)%Qc by (apply M2, in_or_app; auto). split; [easy|]. apply grid_bound; auto. apply X2, in_or_app; auto. }
  assert (first_idx mn dw d1 = Ok (Z.to_nat (pix_idx mn dw a1))) as I1 by (unfold first_idx; now rewrite Ea1).
  assert (first_idx mn dw d2 = Ok (Z.to_nat (pix_idx mn dw a2))) as I2 by (unfold first_idx; now rewrite Ea2).
  rewrite I1, I2. cbn [rbind]. rewrite !repr_zero.
  rewrite (delta_add_repr mn dw n d1 _ _ _ _ _ _ H D1 U1 B1 I1). cbn [rbind].
  rewrite (delta_add_repr mn dw n d2 _ _ _ _ _ _ H D2 U2 B2 I2). cbn [rbind da_delta da_ivar da_lss da_cont da_norm].
  rewrite Hr. cbn [rbind].
  set (l := fun j => both delta_entries mn dw j d1 d2). set (lc := fun j => both cont_entries mn dw j d1 d2).
  assert (forall j, weights_ok (l j)) as Wl.
  { intro j. apply weights_ok_app. split; intros e He; apply in_lands in He; auto. }
  assert (forall j, weights_ok (lc j)) as Wc.
  { intro j. apply weights_ok_app. split; intros e He; apply in_lands in He; [apply (cont_weights d1)|apply (cont_weights d2)]; auto. }
  assert (forall j, weight_le_ivar (l j)) as Ll.
  { intros j e He. apply in_app_or in He as [He|He]; apply in_lands in He; auto. }
  assert (forall (g : entry -> Qc) j, (0 + qsum (map g (landed mn dw j (delta_entries d1))) + qsum (map g (landed mn dw j (delta_entries d2))))%Qc
     = qsum (map g (l j))) as S1.
  { intros g j. unfold l, both. rewrite map_app, qsum_app. unfold lands, landed. ring. }
  assert (forall (g : entry -> Qc) j, (0 + qsum (map g (landed mn dw j (cont_entries d1))) + qsum (map g (landed mn dw j (cont_entries d2))))%Qc
     = qsum (map g (lc j))) as S2.
  { intros g j. unfold lc, both. rewrite map_app, qsum_app. unfold lands, landed. ring. }
  rewrite (repr_ext n _ _ (fun j _ => S1 e_wf j)), (repr_ext n _ _ (fun j _ => S1 e_wv' j)), (repr_ext n _ _ (fun j _ => S1 e_lss j)),
    (repr_ext n _ _ (fun j _ => S2 e_wf j)), (repr_ext n _ _ (fun j _ => S1 e_weight j)).
  rewrite (repr_ext n (fun j => qsum (map e_wv' (l j))) (fun j => qsum (map e_wv (l j)))).
  2:{ intros j _. f_equal. apply map_ext_in. intros e He. apply e_wv_wv'. now apply (Wl j). }
  rewrite (repr_ext n (fun j => qsum (map e_lss (l j))) (fun j => qsum (map lss_term (l j)))).
  2:{ intros j _. f_equal. apply map_ext_in. intros e He. apply e_lss_eq. now apply (Wl j). }
  set (rW := repr n (fun j => qsum (map e_weight (l j)))). set (rF := repr n (fun j => qsum (map e_wf (l j)))).
  set (rV := repr n (fun j => qsum (map e_wv (l j)))). set (rL := repr n (fun j => qsum (map lss_term (l j)))).
  set (rC := repr n (fun j => qsum (map e_wf (lc j)))).
  unfold ndot. rewrite zip2_eq by (rewrite !map_length, !map2_length; unfold rW, rF, rV; rewrite !repr_length; lia).
  cbn [rbind]. eexists mn, mx, _. split; [reflexivity|].
  cbn [d_wave d_targetid d_blinded d_reso d_delta d_ivar d_weight d_cont].
  repeat (split; [now auto|]).
  split; [rewrite !map2_length; unfold rW, rF; rewrite !repr_length; lia|].
  split; [rewrite !map2_length; unfold rW, rV; rewrite !repr_length; lia|].
  split; [rewrite !map2_length; unfold rW, rV, rL; rewrite !repr_length; lia|].
  split; [rewrite !map2_length; unfold rW, rC; rewrite !repr_length; lia|].
  intros j Hj.
  assert (forall F, nth_error (repr n F) j = Some (Fin (F j))) as RN.
  { intro F. rewrite repr_nth. assert ((j <? n) = true) as -> by (now apply Nat.ltb_lt). easy. }
  destruct (sums_average (l j) (Wl j)) as (dl & iv & Edl & Eiv & A).
  destruct (sums_average (lc j) (Wc j)) as (c & iv' & Ec & Eiv' & A').
  assert (qsum (map e_weight (lc j)) = qsum (map e_weight (l j))) as Sw.
  { rewrite <- S1, <- S2. now rewrite !cont_sums by easy. }
  assert (qsum (map e_wv (lc j)) = qsum (map e_wv (l j))) as Sv.
  { rewrite <- S1, <- S2. now rewrite !cont_sums by easy. }
  rewrite Sw in Ec, Eiv'. rewrite Sv in Eiv'. assert (iv' = iv) as -> by congruence. clear Eiv'.
  assert (coadded_weight (l j) iv (iv / (1 + iv * (if qltb 0 (qsum (map e_weight (l j))) then qsum (map lss_term (l j)) / qsum (map e_weight (l j)) else qsum (map lss_term (l j)))))%Qc
     /\ (0 <= iv)%Qc /\ (0 <= (if qltb 0 (qsum (map e_weight (l j))) then qsum (map lss_term (l j)) / qsum (map e_weight (l j)) else qsum (map lss_term (l j))))%Qc)
   as (Cw & I0 & S0).
  { pose proof (lss_nonneg (l j) (Wl j) (Ll j)) as L0. pose proof (weight_nonneg_sum (l j) (Wl j)) as P0.
    destruct A as (A1 & A2). unfold coadded_weight. set (W := qsum (map e_weight (l j))) in *. set (S := qsum (map lss_term (l j))) in *.
    destruct (qltb 0 W) eqn:Q.
    - apply qltb_true in Q. destruct (A2 Q) as (_ & Ai).
      assert (W <> 0)%Qc as Wn by (intro C; rewrite C in Q; discriminate Q).
      assert (0 < iv)%Qc as Ip.
      { unfold npos, n0 in Eiv. cbn [nltb] in Eiv. rewrite (proj2 (qltb_true 0 W) Q) in Eiv.
        assert (0 <= qsum (map e_wv (l j)))%Qc as V0.
        { apply qsum_nonneg. apply Forall_map, Forall_forall. intros e He. destruct (Wl j e He) as (X3 & X4 & _). unfold e_wv.
          destruct (qltb 0 (e_ivar e)) eqn:Q2; [|discriminate]. apply qltb_true in Q2. unfold Qcdiv.
          assert (0 < / e_ivar e)%Qc by now apply Qcinv_pos. assert (0 <= e_weight e * e_weight e)%Qc by qnra. qnra. }
        destruct (Qclt_le_dec 0 (qsum (map e_wv (l j)))) as [V1|V1].
        - rewrite Ai. unfold Qcdiv. assert (0 < / qsum (map e_wv (l j)))%Qc by now apply Qcinv_pos.
          assert (0 < W * W)%Qc by qnra. change (0 < W * W * / qsum (map e_wv (l j)))%Qc. qnra.
        - assert (qsum (map e_wv (l j)) = 0)%Qc as V2 by (apply Qcle_antisym; easy). exfalso.
          rewrite V2 in Eiv. cbn [nsq nmul ndiv] in Eiv. change (qeqb 0 0) with true in Eiv. cbv iota in Eiv.
          unfold infsgn in Eiv. destruct (qeqb (W * W) 0); [discriminate Eiv|]. destruct (qltb 0 (W * W)); discriminate Eiv. }
      assert (0 <= S / W)%Qc as SW.
      { unfold Qcdiv. assert (0 < / W)%Qc by now apply Qcinv_pos. qnra. }
      assert (0 < 1 + iv * (S / W))%Qc as Dp by (assert (0 <= iv * (S / W))%Qc by qnra; qlra).
      assert (iv <> 0)%Qc as In by (intro C; rewrite C in Ip; discriminate Ip).
      assert (1 + iv * (S / W) <> 0)%Qc as Dn by (intro C; rewrite C in Dp; discriminate Dp).
      split; [|split; [now apply Qclt_le_weak|easy]]. split; [easy|]. intros _. split.
      + unfold Qcdiv at 1. assert (0 < / (1 + iv * (S / W)))%Qc by now apply Qcinv_pos. qnra.
      + set (t := (S / W)%Qc) in *. field. easy.
    - apply qltb_false in Q. assert (W = 0)%Qc as E by (apply Qcle_antisym; easy). destruct (A1 E) as (_ & ->).
      split; [|split; [apply Qcle_refl|easy]]. split.
      + intros _. unfold Qcdiv. ring.
      + intro C. rewrite E in C. discriminate C. }
  exists dl, iv. eexists _, c. fold (l j). fold (lc j).
  assert (nth_error (map2 (fun nm y => if npos nm then ndiv (nsq nm) y else y) rW rV) j = Some (Fin iv)) as Niv.
  { rewrite nth_error_map2. unfold rW, rV. rewrite !RN. now f_equal. }
  split; [rewrite nth_error_map2; unfold rW, rF; rewrite !RN; now f_equal|].
  split; [exact Niv|]. split; [|split; [rewrite nth_error_map2; unfold rW, rC; rewrite !RN; now f_equal|]].
  2:{ split; [exact A|]. split; [exact A'|exact Cw]. }
  rewrite nth_error_map2, Niv, nth_error_map2. unfold rW, rL. rewrite !RN. f_equal.
  unfold npos, n0, n1. cbn [nltb].
  set (W := qsum (map e_weight (l j))) in *. set (S := qsum (map lss_term (l j))) in *.
  destruct (qltb 0 W) eqn:Q.
  - apply qltb_true in Q. rewrite ndiv_fin by (intro C; rewrite C in Q; discriminate Q). cbn [nmul nadd].
    rewrite ndiv_fin; [reflexivity|]. intro C. assert (0 <= iv * (S / W))%Qc by qnra.
    assert (0 < 1 + iv * (S / W))%Qc as C' by qlra. rewrite C in C'. discriminate C'.
  - cbn [nmul nadd]. rewrite ndiv_fin; [reflexivity|]. intro C. assert (0 <= iv * S)%Qc by qnra.
    assert (0 < 1 + iv * S)%Qc as C' by qlra. rewrite C in C'. discriminate C'.
Qed.
End C.
