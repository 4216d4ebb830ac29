(** C32: coadding arms. *)
From Coq Require Import Field ZArith String List Bool Arith Lia Sorted Permutation Qcanon.
From Verif Require Import Num NpList NpListFacts Exn Dict ModelSpectrum SpecSpectrum SpecWeights SpecCoadd
  ProofSpectrum1 ProofSpectrum2 ProofMasks ProofWeights.
Import ListNotations.
Local Open Scope nat_scope.

(** ** Arrays of finite values *)
Definition repr (n : nat) (F : nat -> Qc) : arr := map (fun j => Fin (F j)) (seq 0 n).
Lemma repr_length n F : length (repr n F) = n.
Proof. unfold repr. now rewrite map_length, seq_length. Qed.
Lemma repr_nth n F j : nth_error (repr n F) j = if j <? n then Some (Fin (F j)) else None.
Proof.
  unfold repr. rewrite nth_error_map. destruct (Nat.ltb_spec j n) as [H|H].
  - rewrite (nth_error_nth' (seq 0 n) 0) by (rewrite seq_length; lia). now rewrite seq_nth by easy.
  - assert (nth_error (seq 0 n) j = None) as -> by (apply nth_error_None; rewrite seq_length; lia). easy.
Qed.
Lemma repr_ext n F G : (forall j, j < n -> F j = G j) -> repr n F = repr n G.
Proof.
  intro H. unfold repr. apply map_ext_in. intros j Hj. apply in_seq in Hj. f_equal. apply H. lia.
Qed.
Lemma repr_zero n : repeat n0 n = repr n (fun _ => 0%Qc).
Proof.
  apply list_eq_nth_error. intro k. rewrite repr_nth. destruct (Nat.ltb_spec k n) as [H|H].
  - rewrite nth_error_repeat. apply Nat.ltb_lt in H. now rewrite H.
  - apply nth_error_None. now rewrite repeat_length.
Qed.
Lemma repr_upd n F i v :
  i < n -> upd i (fun _ => Fin v) (repr n F) = repr n (fun j => if j =? i then v else F j).
Proof.
  intro H. apply list_eq_nth_error. intro k. rewrite nth_error_upd, !repr_nth.
  destruct (Nat.eqb_spec k i) as [->|E]; [|easy].
  apply Nat.ltb_lt in H. now rewrite H.
Qed.

Definition land_sum (ii : list nat) (v : list Qc) (j : nat) : Qc :=
  qsum (map snd (filter (fun p => fst p =? j) (combine ii v))).
Lemma land_sum_cons i ii x v j :
  land_sum (i :: ii) (x :: v) j = ((if i =? j then x else 0) + land_sum ii v j)%Qc.
Proof.
  unfold land_sum. cbn [combine filter fst]. destruct (i =? j); cbn [map snd]; rewrite ?qsum_cons; ring.
Qed.
Lemma land_sum_absent ii v j : ~ In j ii -> land_sum ii v j = 0%Qc.
Proof.
  revert v. induction ii as [|i ii IH]; intros v H; [easy|]. destruct v as [|x v]; [easy|].
  rewrite land_sum_cons, IH by (intro C; apply H; now right).
  destruct (Nat.eqb_spec i j); [exfalso; apply H; now left|]. ring.
Qed.

Lemma norm_idx_ok n i : (0 <= i)%Z -> (i < Z.of_nat n)%Z -> norm_idx n i = Ok (Z.to_nat i).
Proof.
  intros H1 H2. unfold norm_idx.
  destruct (Z.leb_spec 0 i); [|lia]. destruct (Z.ltb_spec i (Z.of_nat n)); [easy|lia].
Qed.
Lemma rseq_norm n idx :
  Forall (fun i => 0 <= i < Z.of_nat n)%Z idx -> rseq (map (norm_idx n) idx) = Ok (map Z.to_nat idx).
Proof.
  induction 1 as [|i l (H1 & H2) F IH]; cbn; [easy|]. now rewrite norm_idx_ok, IH.
Qed.

Lemma fancy_write_repr n F ii : forall v G,
  NoDup ii -> length ii = length v -> Forall (fun i => i < n) ii ->
  (forall i, In i ii -> G i = F i) ->
  fancy_write ii (map2 nadd (map (fun i => nth i (repr n F) NaN) ii) (map Fin v)) (repr n G)
  = repr n (fun j => G j + land_sum ii v j)%Qc.
Proof.
  unfold fancy_write. induction ii as [|i ii IH]; intros v G N L B H.
  - cbn. apply repr_ext. intros j _. unfold land_sum. cbn. ring.
  - destruct v as [|x v]; [discriminate L|]. injection L as L.
    inversion N as [|? ? N1 N2]; subst. inversion B as [|? ? B1 B2]; subst.
    cbn [map map2 combine fold_left fst snd].
    assert (nth i (repr n F) NaN = Fin (F i)) as ->.
    { apply nth_error_nth. rewrite repr_nth. apply Nat.ltb_lt in B1. now rewrite B1. }
    cbn [nadd]. rewrite repr_upd by easy. rewrite IH; auto.
    + apply repr_ext. intros j _. rewrite land_sum_cons. destruct (Nat.eqb_spec j i) as [->|E].
      * rewrite Nat.eqb_refl, land_sum_absent by easy. rewrite H by now left. ring.
      * destruct (Nat.eqb_spec i j); [congruence|]. ring.
    + intros k Hk. destruct (Nat.eqb_spec k i) as [->|E]; [contradiction|]. apply H. now right.
Qed.

Lemma fancy_add_repr n F idx v :
  NoDup idx -> length idx = length v -> Forall (fun i => 0 <= i < Z.of_nat n)%Z idx ->
  fancy_add (repr n F) idx (map Fin v) = Ok (repr n (fun j => F j + land_sum (map Z.to_nat idx) v j)%Qc).
Proof.
  intros N L B. unfold fancy_add. rewrite repr_length, rseq_norm by easy. cbn [rbind].
  rewrite !map_length, L, Nat.eqb_refl. f_equal. apply fancy_write_repr; auto.
  - clear - N B. induction N as [|i l N1 N2 IH]; cbn; [constructor|]. inversion B as [|? ? B1 B2]; subst.
    constructor; [|now apply IH]. intro C. apply in_map_iff in C as (k & E & Hk).
    rewrite Forall_forall in B2. specialize (B2 k Hk). assert (k = i) by lia. subst. contradiction.
  - now rewrite map_length.
  - apply Forall_map. eapply Forall_impl; [|exact B]. cbn. intros. lia.
Qed.

(** ** One arm *)
Definition qvar (iv : Qc) : Qc := if qltb 0 iv then (/ iv)%Qc else 0%Qc.
Lemma var_of_fin iv : var_of (Fin iv) = Fin (qvar iv).
Proof.
  unfold var_of, npos, qvar, n0, n1. cbn [nltb]. destruct (qltb 0 iv) eqn:E; [|easy].
  apply qltb_true in E. rewrite ndiv_fin; [|intro C; rewrite C in E; discriminate E].
  f_equal. field. intro C; rewrite C in E; discriminate E.
Qed.
Lemma map2_Fin (f : num -> num -> num) (g : Qc -> Qc -> Qc) a b :
  (forall x y, f (Fin x) (Fin y) = Fin (g x y)) ->
  map2 f (map Fin a) (map Fin b) = map Fin (map2 g a b).
Proof.
  intro H. revert b. induction a as [|x a IH]; intros [|y b]; cbn; try easy. now rewrite H, IH.
Qed.
Lemma coadd_one_repr n F I N idx w f iv :
  NoDup idx -> Forall (fun i => 0 <= i < Z.of_nat n)%Z idx ->
  length w = length idx -> length f = length idx -> length iv = length idx ->
  coadd_one idx (map Fin w) (map Fin f) (map Fin iv) (mkCo (repr n F) (repr n I) (repr n N)) =
  Ok (mkCo (repr n (fun j => F j + land_sum (map Z.to_nat idx) (map2 Qcmult w f) j)%Qc)
           (repr n (fun j => I j + land_sum (map Z.to_nat idx) (map2 (fun a b => a * a * qvar b)%Qc w iv) j)%Qc)
           (repr n (fun j => N j + land_sum (map Z.to_nat idx) w j)%Qc)).
Proof.
  intros Nd B L1 L2 L3. unfold coadd_one.
  rewrite zip2_eq by (rewrite !map_length; lia). cbn [rbind].
  rewrite zip2_eq by (rewrite !map_length; lia). cbn [rbind co_flux co_ivar co_norm].
  rewrite (map2_Fin nmul Qcmult) by easy.
  rewrite (map2_Fin _ (fun a b => a * a * qvar b)%Qc).
  2: { intros x y. rewrite var_of_fin. easy. }
  rewrite fancy_add_repr by (auto; rewrite map2_length; lia). cbn [rbind].
  rewrite fancy_add_repr by (auto; rewrite map2_length; lia). cbn [rbind].
  rewrite fancy_add_repr by auto. easy.
Qed.

(** ** Indices of an arm *)
Lemma qdiv_le a b d : (0 < d)%Qc -> (a <= b)%Qc -> (a / d <= b / d)%Qc.
Proof.
  intros H L. unfold Qcdiv. apply Qcmult_le_compat_r; [easy|]. apply Qclt_le_weak. now apply Qcinv_pos.
Qed.
Lemma qtrunc_mono a b : (0 <= a)%Qc -> (a <= b)%Qc -> (qtrunc a <= qtrunc b)%Z.
Proof.
  intros H L. destruct (qtrunc_spec_nonneg a H) as (A1 & A2).
  assert (0 <= b)%Qc as Hb by (eapply Qcle_trans; eauto).
  destruct (qtrunc_spec_nonneg b Hb) as (B1 & B2).
  assert (zq (qtrunc a) < zq (qtrunc b + 1))%Qc as K.
  { rewrite zq_plus. eapply Qcle_lt_trans; [exact A1|]. eapply Qcle_lt_trans; [exact L|]. exact B2. }
  apply (proj1 (zq_lt _ _)) in K. clear - K. lia.
Qed.
Lemma pix_arg_nonneg mn dw x : (0 < dw)%Qc -> (mn <= x)%Qc -> (0 <= (x - mn) / dw + fq 1 10)%Qc.
Proof.
  intros H L. assert (0 <= (x - mn) / dw)%Qc.
  { unfold Qcdiv. assert (0 < / dw)%Qc by now apply Qcinv_pos. assert (0 <= x - mn)%Qc by qlra. qnra. }
  assert (0 < fq 1 10)%Qc by reflexivity. qlra.
Qed.
Lemma pix_idx_nonneg mn dw x : (0 < dw)%Qc -> (mn <= x)%Qc -> (0 <= pix_idx mn dw x)%Z.
Proof.
  intros H L. unfold pix_idx. pose proof (pix_arg_nonneg mn dw x H L) as P.
  change 0%Z with (qtrunc 0). apply qtrunc_mono; [apply Qcle_refl|easy].
Qed.
Lemma pix_idx_mono mn dw x y : (0 < dw)%Qc -> (mn <= x)%Qc -> (x <= y)%Qc -> (pix_idx mn dw x <= pix_idx mn dw y)%Z.
Proof.
  intros H L K. unfold pix_idx. apply qtrunc_mono; [now apply pix_arg_nonneg|].
  assert ((x - mn) / dw <= (y - mn) / dw)%Qc by (apply qdiv_le; [easy|qlra]). qlra.
Qed.
Lemma pix_idx_step mn dw x y : (0 < dw)%Qc -> (mn <= x)%Qc -> (x + dw <= y)%Qc -> (pix_idx mn dw x < pix_idx mn dw y)%Z.
Proof.
  intros H L K. unfold pix_idx.
  assert (dw <> 0)%Qc as Hn by (intro C; rewrite C in H; discriminate H).
  pose proof (pix_arg_nonneg mn dw x H L) as P.
  assert (mn <= y)%Qc as L' by (eapply Qcle_trans; [exact L|]; qlra).
  pose proof (pix_arg_nonneg mn dw y H L') as P'.
  assert ((x + dw - mn) / dw <= (y - mn) / dw)%Qc as D by (apply qdiv_le; [easy|qlra]).
  replace ((x + dw - mn) / dw)%Qc with ((x - mn) / dw + 1)%Qc in D by (field; easy).
  destruct (qtrunc_spec_nonneg _ P) as (A1 & A2). destruct (qtrunc_spec_nonneg _ P') as (B1 & B2).
  set (a := qtrunc ((x - mn) / dw + fq 1 10)%Qc) in *. set (b := qtrunc ((y - mn) / dw + fq 1 10)%Qc) in *.
  assert (zq (a + 1) < zq (b + 1))%Qc as C.
  { rewrite !zq_plus. change (zq 1) with 1%Qc.
    eapply Qcle_lt_trans; [|exact B2].
    eapply Qcle_trans with (y := ((x - mn) / dw + fq 1 10 + 1)%Qc); qlra. }
  apply (proj1 (zq_lt _ _)) in C. clear - C. lia.
Qed.
Lemma on_pixel_idx mn dw j x :
  (0 < dw)%Qc -> (mn <= x)%Qc -> on_pixel mn dw j x = (Z.to_nat (pix_idx mn dw x) =? j).
Proof.
  intros H L. pose proof (pix_arg_nonneg mn dw x H L) as P.
  assert (dw <> 0)%Qc as Hn by (intro C; rewrite C in H; discriminate H).
  destruct (qtrunc_spec_nonneg _ P) as (A1 & A2). fold (pix_idx mn dw x) in A1, A2.
  pose proof (pix_idx_nonneg mn dw x H L) as Z0. set (k := pix_idx mn dw x) in *.
  set (t := ((x - mn) / dw)%Qc) in *. assert (x = mn + t * dw)%Qc as Hx by (unfold t; field; easy).
  apply eq_true_iff_eq. unfold on_pixel. rewrite andb_true_iff, qleb_true, qltb_true, Nat.eqb_eq.
  assert (fq 1 10 + fq 9 10 = 1)%Qc as E by (apply Qc_is_canon; reflexivity).
  split.
  - intros (H1 & H2). rewrite Hx in H1, H2.
    assert (zq (Z.of_nat j) - fq 1 10 <= t)%Qc as K1.
    { destruct (Qclt_le_dec t (zq (Z.of_nat j) - fq 1 10)) as [C|C]; [|easy]. exfalso.
      assert (t * dw < (zq (Z.of_nat j) - fq 1 10) * dw)%Qc by (apply Qcmult_lt_compat_r; easy). qlra. }
    assert (t < zq (Z.of_nat j) + fq 9 10)%Qc as K2.
    { destruct (Qclt_le_dec t (zq (Z.of_nat j) + fq 9 10)) as [C|C]; [easy|]. exfalso.
      assert ((zq (Z.of_nat j) + fq 9 10) * dw <= t * dw)%Qc
        by (apply Qcmult_le_compat_r; [easy|now apply Qclt_le_weak]). qlra. }
    assert (zq k < zq (Z.of_nat j + 1))%Qc as C1.
    { rewrite zq_plus. change (zq 1) with 1%Qc. rewrite <- E. eapply Qcle_lt_trans; [exact A1|]. qlra. }
    assert (zq (Z.of_nat j) < zq (k + 1))%Qc as C2.
    { rewrite zq_plus. change (zq 1) with 1%Qc. eapply Qcle_lt_trans; [|exact A2]. qlra. }
    apply (proj1 (zq_lt _ _)) in C1, C2. clear - C1 C2 Z0. lia.
  - intros <-. rewrite Z2Nat.id by easy. rewrite Hx. split.
    + assert ((zq k - fq 1 10) * dw <= t * dw)%Qc; [|qlra].
      apply Qcmult_le_compat_r; [qlra|now apply Qclt_le_weak].
    + assert (t * dw < (zq k + fq 9 10) * dw)%Qc; [|qlra].
      apply Qcmult_lt_compat_r; [easy|]. rewrite <- E in A2. qlra.
Qed.
Lemma arm_indices mn dw n w :
  (0 < dw)%Qc -> uniform dw w -> (forall x, In x w -> (mn <= x)%Qc /\ (pix_idx mn dw x < Z.of_nat n)%Z) ->
  NoDup (map (pix_idx mn dw) w) /\ Forall (fun i => 0 <= i < Z.of_nat n)%Z (map (pix_idx mn dw) w).
Proof.
  intros H U B. pose proof (gaps_sorted dw w H U) as S. clear U. split.
  - induction S as [|x l S IH F]; cbn; [constructor|]. constructor.
    + intro C. apply in_map_iff in C as (y & E & Hy). rewrite Forall_forall in F. specialize (F y Hy).
      assert (pix_idx mn dw x < pix_idx mn dw y)%Z; [|lia].
      apply pix_idx_step; auto. apply B. now left.
    + apply IH. intros y Hy. apply B. now right.
  - apply Forall_map, Forall_forall. intros x Hx. destruct (B x Hx). split; [now apply pix_idx_nonneg|easy].
Qed.

(** ** Sums over the pixels of an arm *)
Definition fin_of (l : arr) := Forall (fun x => nfinite x = true) l.
Lemma fin_map l : fin_of l -> l = map Fin (map nval l).
Proof.
  induction 1 as [|x l H F IH]; cbn; [easy|]. rewrite <- IH. destruct x; easy.
Qed.
Lemma zip4_parts x : forall w f i,
  length w = length x -> length f = length x -> length i = length x ->
  map e_wave (zip4 x w f i) = x /\ map e_weight (zip4 x w f i) = map nval w /\
  map e_flux (zip4 x w f i) = map nval f /\ map e_ivar (zip4 x w f i) = map nval i.
Proof.
  induction x as [|a x IH]; intros [|b w] [|c f] [|d i] L1 L2 L3; try discriminate; cbn; [easy|].
  injection L1 as L1. injection L2 as L2. injection L3 as L3.
  destruct (IH w f i L1 L2 L3) as (-> & -> & -> & ->). easy.
Qed.
Lemma map2_map_map {A B C D} (h : B -> C -> D) (f : A -> B) (g : A -> C) l :
  map2 h (map f l) (map g l) = map (fun e => h (f e) (g e)) l.
Proof. induction l; cbn; [easy|]. now f_equal. Qed.
Lemma land_sum_entries (idxf : entry -> nat) (g : entry -> Qc) l j :
  land_sum (map idxf l) (map g l) j = qsum (map g (filter (fun e => idxf e =? j) l)).
Proof.
  induction l as [|e l IH]; [easy|]. cbn [map]. rewrite land_sum_cons, IH. cbn [filter].
  destruct (idxf e =? j); cbn [map]; rewrite ?qsum_cons; ring.
Qed.

Definition e_wf (e : entry) : Qc := (e_weight e * e_flux e)%Qc.
Definition e_wv (e : entry) : Qc := (if qltb 0 (e_ivar e) then e_weight e * e_weight e / e_ivar e else 0)%Qc.
Lemma e_wv_eq e : (e_weight e * e_weight e * qvar (e_ivar e))%Qc = e_wv e.
Proof. unfold e_wv, qvar, Qcdiv. destruct (qltb 0 (e_ivar e)); ring. Qed.

Definition landed (mn dw : Qc) (j : nat) (l : list entry) : list entry :=
  filter (fun e => on_pixel mn dw j (e_wave e)) l.
Lemma land_sum_landed mn dw g l j :
  (0 < dw)%Qc -> (forall e, In e l -> (mn <= e_wave e)%Qc) ->
  land_sum (map Z.to_nat (map (pix_idx mn dw) (map e_wave l))) (map g l) j = qsum (map g (landed mn dw j l)).
Proof.
  intros H B. rewrite !map_map, land_sum_entries. unfold landed. f_equal. f_equal.
  apply filter_ext_in. intros e He. symmetry. apply on_pixel_idx; auto.
Qed.

Lemma coadd_one_entries mn dw n F I N ents :
  (0 < dw)%Qc -> uniform dw (map e_wave ents) ->
  (forall e, In e ents -> (mn <= e_wave e)%Qc /\ (pix_idx mn dw (e_wave e) < Z.of_nat n)%Z) ->
  coadd_one (map (pix_idx mn dw) (map e_wave ents)) (map Fin (map e_weight ents)) (map Fin (map e_flux ents))
    (map Fin (map e_ivar ents)) (mkCo (repr n F) (repr n I) (repr n N)) =
  Ok (mkCo (repr n (fun j => F j + qsum (map e_wf (landed mn dw j ents)))%Qc)
           (repr n (fun j => I j + qsum (map e_wv (landed mn dw j ents)))%Qc)
           (repr n (fun j => N j + qsum (map e_weight (landed mn dw j ents)))%Qc)).
Proof.
  intros H U B.
  destruct (arm_indices mn dw n (map e_wave ents) H U) as (Nd & R).
  { intros x Hx. apply in_map_iff in Hx as (e & <- & He). now apply B. }
  rewrite coadd_one_repr; auto; rewrite ?map_length; auto.
  rewrite !map2_map_map. f_equal.
  f_equal; apply repr_ext; intros j _; f_equal;
    rewrite <- (land_sum_landed mn dw _ ents j H (fun e He => proj1 (B e He))); try reflexivity.
  f_equal. apply map_ext. intro e. apply e_wv_eq.
Qed.

(** ** All arms *)
Lemma dget_In {A} arm (d : dict A) x : dget arm d = Some x -> In (arm, x) d.
Proof.
  induction d as [|(k, v) d IH]; cbn; [discriminate|].
  destruct (String.eqb_spec arm k) as [->|E]; intro H; [left; congruence|right; auto].
Qed.
Lemma len_dget {A B} (d : dict (list A)) (d' : dict (list B)) arm x :
  len_at d arm = len_at d' arm -> dget arm d' = Some x -> exists y, dget arm d = Some y /\ length y = length x.
Proof.
  unfold len_at. intros H E. rewrite E in H. destruct (dget arm d) as [y|]; [|discriminate H].
  cbn in H. injection H as H. eauto.
Qed.

Lemma arm_entries_parts s arm x :
  proper s -> all_finite (ff (s_f s)) -> all_finite (fivar (s_f s)) -> all_finite (fweight (s_f s)) ->
  dget arm (fw (s_f s)) = Some x ->
  map e_wave (arm_entries s arm) = x /\
  dget arm (fweight (s_f s)) = Some (map Fin (map e_weight (arm_entries s arm))) /\
  dget arm (ff (s_f s)) = Some (map Fin (map e_flux (arm_entries s arm))) /\
  dget arm (fivar (s_f s)) = Some (map Fin (map e_ivar (arm_entries s arm))).
Proof.
  intros (A & _) F1 F2 F3 E. destruct (A arm) as (L1 & L2 & _ & L3).
  destruct (len_dget _ _ _ _ L1 E) as (f & Ef & Hf). destruct (len_dget _ _ _ _ L2 E) as (i & Ei & Hi).
  destruct (len_dget _ _ _ _ L3 E) as (w & Ew & Hw).
  unfold arm_entries, dlist. rewrite E, Ef, Ei, Ew.
  destruct (zip4_parts x w f i Hw Hf Hi) as (-> & -> & -> & ->).
  rewrite <- !fin_map; [easy|..]; [now apply (F2 arm)|now apply (F1 arm)|now apply (F3 arm)].
Qed.

Lemma coadd_loop s mn dw n d :
  proper s -> all_finite (ff (s_f s)) -> all_finite (fivar (s_f s)) -> all_finite (fweight (s_f s)) ->
  (0 < dw)%Qc ->
  (forall arm x, In (arm, x) d -> dget arm (fw (s_f s)) = Some x /\ uniform dw x /\
     forall y, In y x -> (mn <= y)%Qc /\ (pix_idx mn dw y < Z.of_nat n)%Z) ->
  forall F I N,
  for_each d (fun aw (a : coadd_acc) =>
      rbind (rget (fst aw) (fweight (s_f s))) (fun w =>
      rbind (rget (fst aw) (fivar (s_f s))) (fun iv =>
      rbind (rget (fst aw) (ff (s_f s))) (fun fl =>
      coadd_one (map (pix_idx mn dw) (snd aw)) w fl iv a)))) (mkCo (repr n F) (repr n I) (repr n N)) =
  let all := flat_map (fun aw => arm_entries s (fst aw)) d in
  Ok (mkCo (repr n (fun j => F j + qsum (map e_wf (landed mn dw j all)))%Qc)
           (repr n (fun j => I j + qsum (map e_wv (landed mn dw j all)))%Qc)
           (repr n (fun j => N j + qsum (map e_weight (landed mn dw j all)))%Qc)).
Proof.
  intros P F1 F2 F3 H. induction d as [|(arm, x) d IH]; intros K F I N; cbn zeta.
  - cbn. f_equal. f_equal; apply repr_ext; intros j _; cbn; ring.
  - cbn [for_each fst snd flat_map].
    destruct (K arm x) as (E & U & B); [now left|].
    destruct (arm_entries_parts s arm x P F1 F2 F3 E) as (Ex & Ew & Ef & Ei).
    unfold rget. rewrite Ew, Ef, Ei. cbn [of_option rbind].
    rewrite <- Ex. rewrite coadd_one_entries; auto; [|now rewrite Ex|].
    2: { intros e He. apply B. rewrite <- Ex. now apply in_map. }
    cbn [rbind]. unfold rget in IH. rewrite IH by (intros; apply K; now right). cbn zeta.
    f_equal. f_equal; apply repr_ext; intros j _; unfold landed; rewrite filter_app, map_app, qsum_app; ring.
Qed.

(** ** Minimum and maximum *)
Lemma fold_qmin_spec l : forall x, let m := fold_left qmin l x in
  (m = x \/ In m l) /\ (m <= x)%Qc /\ forall y, In y l -> (m <= y)%Qc.
Proof.
  induction l as [|a l IH]; intro x; cbn.
  - split; [now left|]. split; [apply Qcle_refl|]. easy.
  - destruct (IH (qmin x a)) as (H1 & H2 & H3). cbn zeta in *.
    assert ((qmin x a = x \/ qmin x a = a) /\ (qmin x a <= x)%Qc /\ (qmin x a <= a)%Qc) as (M1 & M2 & M3).
    { unfold qmin. qcase; repeat split; auto; try apply Qcle_refl; try qlra. }
    split; [|split].
    + destruct H1 as [->|H1]; [|now right; right]. destruct M1 as [->| ->]; auto.
    + eapply Qcle_trans; eauto.
    + intros y [<-|Hy]; [eapply Qcle_trans; eauto|auto].
Qed.
Lemma fold_qmax_spec l : forall x, let m := fold_left qmax l x in
  (m = x \/ In m l) /\ (x <= m)%Qc /\ forall y, In y l -> (y <= m)%Qc.
Proof.
  induction l as [|a l IH]; intro x; cbn.
  - split; [now left|]. split; [apply Qcle_refl|]. easy.
  - destruct (IH (qmax x a)) as (H1 & H2 & H3). cbn zeta in *.
    assert ((qmax x a = x \/ qmax x a = a) /\ (x <= qmax x a)%Qc /\ (a <= qmax x a)%Qc) as (M1 & M2 & M3).
    { unfold qmax. qcase; repeat split; auto; try apply Qcle_refl; try qlra. }
    split; [|split].
    + destruct H1 as [->|H1]; [|now right; right]. destruct M1 as [->| ->]; auto.
    + eapply Qcle_trans; eauto.
    + intros y [<-|Hy]; [eapply Qcle_trans; eauto|auto].
Qed.
Lemma rmin_spec l : l <> [] -> exists m, rmin l = Ok m /\ In m l /\ forall y, In y l -> (m <= y)%Qc.
Proof.
  destruct l as [|x l]; [easy|]. intros _. destruct (fold_qmin_spec l x) as (H1 & H2 & H3). cbn zeta in *.
  eexists. split; [reflexivity|]. split; [destruct H1; [now left|now right]|]. intros y [<-|Hy]; auto.
Qed.
Lemma rmax_spec l : l <> [] -> exists m, rmax l = Ok m /\ In m l /\ forall y, In y l -> (y <= m)%Qc.
Proof.
  destruct l as [|x l]; [easy|]. intros _. destruct (fold_qmax_spec l x) as (H1 & H2 & H3). cbn zeta in *.
  eexists. split; [reflexivity|]. split; [destruct H1; [now left|now right]|]. intros y [<-|Hy]; auto.
Qed.
Lemma rfirst_asc l : l <> [] -> ascending l -> exists x, rfirst l = Ok x /\ In x l /\ forall y, In y l -> (x <= y)%Qc.
Proof.
  destruct l as [|x l]; [easy|]. intros _ S. exists x. split; [easy|]. split; [now left|].
  inversion S as [|? ? _ F]; subst. rewrite Forall_forall in F. intros y [<-|Hy]; [apply Qcle_refl|].
  now apply Qclt_le_weak, F.
Qed.
Lemma asc_last l x : ascending (l ++ [x]) -> forall y, In y l -> (y < x)%Qc.
Proof.
  induction l as [|a l IH]; cbn; [easy|]. intros S y Hy. inversion S as [|? ? S' F]; subst.
  destruct Hy as [<-|Hy]; [|now apply IH]. rewrite Forall_forall in F. apply F. apply in_app_iff. right. now left.
Qed.
Lemma rlast_asc l : l <> [] -> ascending l -> exists x, rlast l = Ok x /\ In x l /\ forall y, In y l -> (y <= x)%Qc.
Proof.
  intros Hn S. destruct (exists_last Hn) as (l' & x & ->). exists x. unfold rlast. rewrite rev_app_distr. cbn.
  split; [easy|]. split; [apply in_app_iff; right; now left|]. intros y Hy. apply in_app_iff in Hy as [Hy|[<-|[]]].
  - apply Qclt_le_weak. now apply asc_last with l'.
  - apply Qcle_refl.
Qed.
Lemma extremes (ext : list Qc -> res Qc) (le : Qc -> Qc -> Prop) (d : dict (list Qc)) :
  (forall k w, In (k, w) d -> exists x, ext w = Ok x /\ In x w /\ forall y, In y w -> le x y) ->
  exists es, rseq (map ext (dvals d)) = Ok es /\ length es = length d /\
    (forall x, In x es -> exists k w, In (k, w) d /\ In x w) /\
    (forall k w, In (k, w) d -> exists x, In x es /\ forall y, In y w -> le x y).
Proof.
  induction d as [|(k, w) d IH]; intro H; cbn.
  - exists []. repeat split; easy.
  - destruct (H k w) as (x & E & Hx & Hy); [now left|]. rewrite E. cbn.
    change (map snd d) with (dvals d).
    destruct IH as (es & -> & L & K1 & K2); [intros; apply (H k0); now right|]. cbn.
    exists (x :: es). repeat split; [cbn; lia| |].
    + intros z [<-|Hz]; [exists k, w; auto|]. destruct (K1 z Hz) as (k' & w' & ? & ?). exists k', w'. auto.
    + intros k' w' [E'|Hin]; [injection E' as <- <-; exists x; split; [now left|easy]|].
      destruct (K2 k' w' Hin) as (z & Hz & Hz'). exists z. split; [now right|easy].
Qed.
Lemma NoDup_dget {A} (d : dict A) k v : NoDup (dkeys d) -> In (k, v) d -> dget k d = Some v.
Proof. intros. now apply In_pair_dget. Qed.


Lemma in_all_entries s :
  proper s -> all_finite (ff (s_f s)) -> all_finite (fivar (s_f s)) -> all_finite (fweight (s_f s)) ->
  forall e, In e (all_entries s) <->
    exists arm x, In (arm, x) (fw (s_f s)) /\ In e (arm_entries s arm).
Proof.
  intros P F1 F2 F3 e. unfold all_entries. rewrite in_flat_map. split.
  - intros ((arm, x) & H1 & H2). eauto.
  - intros (arm & x & H1 & H2). exists (arm, x). auto.
Qed.
Lemma wave_of_entry s :
  proper s -> all_finite (ff (s_f s)) -> all_finite (fivar (s_f s)) -> all_finite (fweight (s_f s)) ->
  forall y, (exists arm x, In (arm, x) (fw (s_f s)) /\ In y x) <-> exists e, In e (all_entries s) /\ e_wave e = y.
Proof.
  intros P F1 F2 F3 y. pose proof P as (_ & Nd & _). split.
  - intros (arm & x & H1 & H2).
    destruct (arm_entries_parts s arm x P F1 F2 F3 (NoDup_dget _ _ _ Nd H1)) as (Ex & _).
    rewrite <- Ex in H2. apply in_map_iff in H2 as (e & <- & He). exists e. split; [|easy].
    apply in_all_entries; eauto.
  - intros (e & He & <-). apply in_all_entries in He as (arm & x & H1 & H2); auto.
    destruct (arm_entries_parts s arm x P F1 F2 F3 (NoDup_dget _ _ _ Nd H1)) as (Ex & _).
    exists arm, x. split; [easy|]. rewrite <- Ex. now apply in_map.
Qed.

Lemma coadd_limits s dw :
  proper s -> all_finite (ff (s_f s)) -> all_finite (fivar (s_f s)) -> all_finite (fweight (s_f s)) ->
  uniform_arms dw s ->
  exists firsts lasts mn mx, rseq (map rfirst (dvals (fw (s_f s)))) = Ok firsts /\
    rseq (map rlast (dvals (fw (s_f s)))) = Ok lasts /\ rmin firsts = Ok mn /\ rmax lasts = Ok mx /\
    smallest s mn /\ largest s mx.
Proof.
  intros P F1 F2 F3 (Hn & U). pose proof P as (_ & Nd & Asc & _).
  destruct (extremes rfirst (fun x y => (x <= y)%Qc) (fw (s_f s))) as (fs & Efs & Lf & K1 & K2).
  { intros k w H. pose proof (NoDup_dget _ _ _ Nd H) as E. apply rfirst_asc; [now apply (U k)|now apply (Asc k)]. }
  destruct (extremes rlast (fun x y => (y <= x)%Qc) (fw (s_f s))) as (ls & Els & Ll & K3 & K4).
  { intros k w H. pose proof (NoDup_dget _ _ _ Nd H) as E. apply rlast_asc; [now apply (U k)|now apply (Asc k)]. }
  destruct (rmin_spec fs) as (mn & Emn & M1 & M2).
  { intros ->. cbn in Lf. destruct (fw (s_f s)); [easy|discriminate Lf]. }
  destruct (rmax_spec ls) as (mx & Emx & M3 & M4).
  { intros ->. cbn in Ll. destruct (fw (s_f s)); [easy|discriminate Ll]. }
  exists fs, ls, mn, mx. repeat (split; [easy|]). split; split.
  - refine (proj1 (wave_of_entry s P F1 F2 F3 mn) _). destruct (K1 mn M1) as (k & w & ? & ?). eauto.
  - intros e He. assert (exists e', In e' (all_entries s) /\ e_wave e' = e_wave e) as W by eauto.
    apply (proj2 (wave_of_entry s P F1 F2 F3 _)) in W as (k & w & H1 & H2). destruct (K2 k w H1) as (z & Hz & Hle).
    apply Qcle_trans with z; [now apply M2|now apply Hle].
  - refine (proj1 (wave_of_entry s P F1 F2 F3 mx) _). destruct (K3 mx M3) as (k & w & ? & ?). eauto.
  - intros e He. assert (exists e', In e' (all_entries s) /\ e_wave e' = e_wave e) as W by eauto.
    apply (proj2 (wave_of_entry s P F1 F2 F3 _)) in W as (k & w & H1 & H2). destruct (K4 k w H1) as (z & Hz & Hle).
    apply Qcle_trans with z; [now apply Hle|now apply M4].
Qed.

(** ** Final division *)
Lemma sums_average l :
  weights_ok l ->
  let F := qsum (map e_wf l) in let V := qsum (map e_wv l) in let W := qsum (map e_weight l) in
  exists f i, (if npos (Fin W) then ndiv (Fin F) (Fin W) else Fin F) = Fin f /\
    (if npos (Fin W) then ndiv (nsq (Fin W)) (Fin V) else Fin V) = Fin i /\ weighted_average l f i.
Proof.
  intro H. cbn zeta. set (W := qsum (map e_weight l)).
  assert ((W = 0 -> qsum (map e_wf l) = 0 /\ qsum (map e_wv l) = 0)%Qc /\ (0 <= W)%Qc /\
          (0 <= qsum (map e_wv l))%Qc /\ ((0 < W)%Qc -> (0 < qsum (map e_wv l))%Qc)) as (Z & P0 & PV0 & PV).
  { unfold W. clear W. induction l as [|e l IH].
    - cbn. repeat split; try easy; try apply Qcle_refl.
    - destruct (IH (fun x Hx => H x (or_intror Hx))) as (Z & P0 & PV0 & PV). clear IH.
      cbn [map]. rewrite !qsum_cons. destruct (H e (or_introl eq_refl)) as (W0 & I0 & WI).
      assert (e_weight e = 0%Qc /\ e_wv e = 0%Qc \/ (0 < e_weight e)%Qc /\ (0 < e_wv e)%Qc) as C.
      { destruct (Qclt_le_dec 0 (e_weight e)) as [C|C].
        - right. split; [easy|]. unfold e_wv. destruct (qltb 0 (e_ivar e)) eqn:Q.
          + apply qltb_true in Q. unfold Qcdiv. assert (0 < / e_ivar e)%Qc by now apply Qcinv_pos.
            assert (0 < e_weight e * e_weight e)%Qc by qnra. qnra.
          + apply qltb_false in Q. assert (e_ivar e = 0%Qc) as E by (apply Qcle_antisym; easy).
            rewrite (WI E) in C. discriminate C.
        - assert (e_weight e = 0%Qc) as E by (apply Qcle_antisym; easy). left. split; [easy|].
          unfold e_wv. rewrite E. destruct (qltb 0 (e_ivar e)); [|easy]. unfold Qcdiv. ring. }
      split; [|split; [|split]].
      + intro E. destruct C as [(C1 & C2)|(C1 & C2)]; [|exfalso; qlra].
        rewrite C1 in E. destruct Z as (Z1 & Z2); [qlra|]. unfold e_wf at 1. rewrite C1, C2, Z1, Z2. split; ring.
      + qlra.
      + destruct C as [(_ & ->)|(_ & C)]; qlra.
      + intro E. destruct C as [(C1 & ->)|(C1 & C2)]; [|qlra]. rewrite C1 in E.
        assert (0 < qsum (map e_weight l))%Qc as E' by qlra. specialize (PV E'). qlra. }
  unfold npos, n0. cbn [nltb]. destruct (qltb 0 W) eqn:Q.
  - apply qltb_true in Q. specialize (PV Q). cbn [nsq nmul].
    rewrite !ndiv_fin; [|intro C; rewrite C in PV; discriminate PV|intro C; rewrite C in Q; discriminate Q].
    eexists _, _. split; [reflexivity|]. split; [reflexivity|]. unfold weighted_average. fold W. split.
    + intro C. rewrite C in Q. discriminate Q.
    + intros _. split; reflexivity.
  - apply qltb_false in Q. assert (W = 0%Qc) as E by (apply Qcle_antisym; easy).
    destruct (Z E) as (Z1 & Z2). eexists _, _. split; [reflexivity|]. split; [reflexivity|].
    unfold weighted_average. fold W. rewrite Z1, Z2. split; [easy|]. intro C. rewrite E in C. discriminate C.
Qed.
