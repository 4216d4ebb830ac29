(** Proofs about VarLSSFitter: the assignment of pixels to bins. *)
From Coq Require Import ZArith String List Bool Arith Lia Field Qcanon Sorting.Sorted Permutation.
From Verif Require Import Num NpList NpListFacts Exn Mpi ProofMpi ModelSubsample SpecSubsample ProofSubsample
  ProofSubsample2 ModelSpectrum ModelStack SpecStack ProofStack ModelVarFit SpecVarFit.
Import ListNotations.
Local Open Scope nat_scope.

Lemma nth_error_seq s n k : nth_error (seq s n) k = if k <? n then Some (s + k) else None.
Proof.
  destruct (Nat.ltb_spec k n) as [H|H].
  - rewrite (nth_error_nth' _ 0) by (now rewrite seq_length). now rewrite seq_nth.
  - apply nth_error_None. now rewrite seq_length.
Qed.
(** ** wavelength and inverse variance index *)
Lemma wave_arg (w1 dw w : Qc) : dw <> 0%Qc -> ((w - (w1 + dw / (1 + 1))) / dw + fq 3 2 = (w - w1) / dw + 1)%Qc.
Proof.
  intro H. assert (fq 3 2 = (1 + 1 + 1) / (1 + 1))%Qc as -> by (apply Qc_is_canon; reflexivity).
  field. split; [assumption|]. intro K. discriminate.
Qed.
Lemma wave_indx_bin w1 dw nw w iw : (0 < dw)%Qc -> iw < nw ->
  in_bin w1 dw iw w = (wave_indx (w1 + dw / (1 + 1))%Qc dw nw w =? Z.of_nat iw + 1)%Z.
Proof.
  intros H Hi. unfold wave_indx. rewrite wave_arg by (apply Qc_pos_neq; assumption).
  assert (((w - w1) / dw) * dw = w - w1)%Qc as E by (field; apply Qc_pos_neq; assumption).
  set (x := ((w - w1) / dw)%Qc) in *.
  assert (forall q, (w1 + q * dw <= w)%Qc <-> (q <= x)%Qc) as L.
  { intro q. split; intro K; qnra. }
  assert (forall q, (w < w1 + q * dw)%Qc <-> (x < q)%Qc) as U.
  { intro q. split; intro K; qnra. }
  assert (in_bin w1 dw iw w = true <-> (zq (Z.of_nat iw) <= x)%Qc /\ (x < zq (Z.of_nat iw + 1))%Qc) as B.
  { unfold in_bin. rewrite andb_true_iff, qleb_true, qltb_true, L, U. reflexivity. }
  destruct (in_bin w1 dw iw w) eqn:Eb; symmetry.
  - apply Z.eqb_eq. destruct (proj1 B eq_refl) as (B1 & B2).
    assert (0 <= x + 1)%Qc as P.
    { assert (0 <= zq (Z.of_nat iw))%Qc by (rewrite <- zq_0; apply zq_le; lia). qlra. }
    destruct (qtrunc_spec_nonneg (x + 1)%Qc P) as (T1 & T2).
    set (t := qtrunc (x + 1)) in *.
    assert (zq t < zq (Z.of_nat iw + 2))%Qc as K1. { replace (Z.of_nat iw + 2)%Z with (Z.of_nat iw + 1 + 1)%Z by lia. rewrite zq_plus, zq_1. qlra. }
    assert (zq (Z.of_nat iw) < zq t)%Qc as K2. { qlra. }
    apply (proj1 (zq_lt _ _)) in K1. apply (proj1 (zq_lt _ _)) in K2. clear - K1 K2 Hi. lia.
  - apply Z.eqb_neq. intro K. assert (false = true); [|discriminate]. apply B.
    assert (qtrunc (x + 1) = Z.of_nat iw + 1)%Z as T by (clear - K Hi; lia).
    assert (0 <= x + 1)%Qc as P.
    { destruct (Qclt_le_dec (x + 1) 0) as [N|N]; [|assumption]. apply qtrunc_nonpos in N. clear - T N. lia. }
    destruct (qtrunc_spec_nonneg (x + 1)%Qc P) as (T1 & T2). rewrite T in *. rewrite ?zq_plus, ?zq_1 in *. split; qlra.
Qed.
Lemma wave_indx_range w0 dw nw w : (0 <= wave_indx w0 dw nw w <= Z.of_nat nw + 1)%Z.
Proof. unfold wave_indx. lia. Qed.

Lemma good_edges_sorted nv e : good_edges nv e -> StronglySorted (fun a b => (a <= b)%Qc) e.
Proof.
  intros (_ & _ & H). revert H. induction e as [|x e IH]; intro H; constructor.
  - apply IH. intros i j Hij. apply (H (S i) (S j)). cbn. lia.
  - rewrite Forall_forall. intros y Hy. destruct (In_nth e y 0%Qc Hy) as (j & Hj & <-).
    apply Qclt_le_weak. apply (H 0 (S j)). cbn. lia.
Qed.
Lemma ivar_indx_bin nv e x iv : good_edges nv e -> iv < nv ->
  in_ivar_bin e iv x = Nat.eqb (searchsorted e x) (S iv).
Proof.
  intros G Hi. pose proof (good_edges_sorted nv e G) as St. destruct G as (L & _ & _).
  assert (nth_error e iv = Some (nth iv e 0%Qc)) as E1 by (apply nth_error_nth'; lia).
  assert (nth_error e (S iv) = Some (nth (S iv) e 0%Qc)) as E2 by (apply nth_error_nth'; lia).
  pose proof (searchsorted_spec e x St _ _ E1) as A. pose proof (searchsorted_spec e x St _ _ E2) as B.
  assert (in_ivar_bin e iv x = true <-> searchsorted e x = S iv) as K.
  { unfold in_ivar_bin. rewrite andb_true_iff, qltb_true, qleb_true, <- A. split.
    - intros (K1 & K2). assert (~ S iv < searchsorted e x) by (rewrite B; apply Qcle_not_lt; assumption). lia.
    - intro K. split; [lia|]. apply Qcnot_lt_le. rewrite <- B. lia. }
  destruct (in_ivar_bin e iv x); symmetry; [apply Nat.eqb_eq, K; reflexivity|].
  apply Nat.eqb_neq. intro C. apply K in C. discriminate.
Qed.
Lemma ivar_indx_masked nv e x : good_edges nv e -> (x <= 0)%Qc -> searchsorted e x = 0.
Proof.
  intros G Hx. pose proof (good_edges_sorted nv e G) as St. destruct G as (L & P & _).
  destruct (searchsorted e x) eqn:E; [easy|].
  assert (nth_error e 0 = Some (nth 0 e 0%Qc)) as E1 by (apply nth_error_nth'; lia).
  pose proof (proj1 (searchsorted_spec e x St _ _ E1)) as A. rewrite E in A.
  exfalso. assert (nth 0 e 0 < x)%Qc as K by (apply A; lia). qlra.
Qed.

Lemma flat_inj nv a c b d : c < nv + 2 -> d < nv + 2 -> c + a * (nv + 2) = d + b * (nv + 2) -> a = b /\ c = d.
Proof.
  intros Hc Hd H. assert (a = b).
  { destruct (Nat.lt_trichotomy a b) as [K|[K|K]]; [exfalso|easy|exfalso]; nia. }
  subst. split; [easy|lia].
Qed.
(** ** the flat index *)
Section Bins.
Variables (w1 w2 : Qc) (nw nv : nat) (e : list Qc).
Hypotheses (Hw : (w1 < w2)%Qc) (Hnw : 1 <= nw) (He : good_edges nv e).
Let dw := ((w2 - w1) / zq (Z.of_nat nw))%Qc.
Let w0 := (w1 + dw / (1 + 1))%Qc.
Definition flat (iw iv : nat) : nat := (iw + 1) * (nv + 2) + 1 + iv.
Definition pidx (p : lsspix) : nat :=
  searchsorted e (l_ivar p) + Z.to_nat (wave_indx w0 dw nw (l_wave p)) * (nv + 2).

Lemma dw_pos : (0 < dw)%Qc.
Proof. apply Qcdiv_pos; [qlra|]. change 0%Qc with (zq 0). apply zq_lt. lia. Qed.
Lemma ss_bound x : searchsorted e x < nv + 2.
Proof. pose proof (searchsorted_le_length e x). destruct He as (L & _). lia. Qed.
Lemma pidx_range p : pidx p < (nv + 2) * (nw + 2).
Proof.
  unfold pidx. pose proof (ss_bound (l_ivar p)). pose proof (wave_indx_range w0 dw nw (l_wave p)).
  assert (Z.to_nat (wave_indx w0 dw nw (l_wave p)) <= nw + 1) by lia. nia.
Qed.
Lemma pidx_bin p iw iv : iw < nw -> iv < nv ->
  Nat.eqb (pidx p) (flat iw iv) = in_lss_bin w1 w2 nw e iw iv p.
Proof.
  intros H1 H2. unfold in_lss_bin. fold dw.
  rewrite (wave_indx_bin w1 dw nw (l_wave p) iw dw_pos H1), (ivar_indx_bin nv e _ iv He H2).
  fold w0. pose proof (wave_indx_range w0 dw nw (l_wave p)) as R. pose proof (ss_bound (l_ivar p)) as B.
  unfold pidx, flat. destruct (Z.eqb_spec (wave_indx w0 dw nw (l_wave p)) (Z.of_nat iw + 1)) as [K|K]; cbn [andb].
  - rewrite K. replace (Z.to_nat (Z.of_nat iw + 1)) with (iw + 1) by lia.
    destruct (Nat.eqb_spec (searchsorted e (l_ivar p)) (S iv)); [apply Nat.eqb_eq|apply Nat.eqb_neq]; lia.
  - apply Nat.eqb_neq. intro C. replace ((iw + 1) * (nv + 2) + 1 + iv) with (S iv + (iw + 1) * (nv + 2)) in C by lia.
    apply flat_inj in C; lia.
Qed.
End Bins.

(** ** selection of the non-overflow bins *)
Lemma set_true_nth i1 n l k :
  nth_error (set_true i1 (i1 + n) l) k
  = if (i1 <=? k) && (k <? i1 + n) && (k <? length l) then Some true else nth_error l k.
Proof.
  unfold set_true. replace (i1 + n - i1) with n by lia. revert i1 l. induction n as [|n IH]; intros i1 l; cbn [seq fold_left].
  - destruct (i1 <=? k) eqn:A; [|easy]. destruct (Nat.ltb_spec k (i1 + 0)); [apply Nat.leb_le in A; lia|easy].
  - rewrite IH, upd_length, nth_error_upd.
    destruct (Nat.eqb_spec k i1) as [->|Hk].
    + destruct (Nat.leb_spec (S i1) i1); [lia|]. destruct (Nat.leb_spec i1 i1); [|lia].
      destruct (Nat.ltb_spec i1 (i1 + S n)); [|lia]. cbn [andb].
      destruct (nth_error l i1) as [b|] eqn:E; cbn [option_map].
      * destruct (Nat.ltb_spec i1 (length l)) as [_|K]; [reflexivity|]. apply nth_error_None in K. congruence.
      * apply nth_error_None in E. destruct (Nat.ltb_spec i1 (length l)); [lia|reflexivity].
    + replace (S i1 <=? k) with (i1 <=? k) by (destruct (Nat.leb_spec i1 k), (Nat.leb_spec (S i1) k); lia).
      replace (S i1 + n) with (i1 + S n) by lia. easy.
Qed.
Definition fvalid (nw nv k : nat) : bool :=
  (1 <=? k / (nv + 2)) && (k / (nv + 2) <=? nw) && (1 <=? k mod (nv + 2)) && (k mod (nv + 2) <=? nv).
Lemma set_true_length i1 i2 l : length (set_true i1 i2 l) = length l.
Proof.
  unfold set_true. generalize (seq i1 (i2 - i1)). intro s. revert l.
  induction s as [|i s IH]; intro l; cbn; [easy|]. now rewrite IH, upd_length.
Qed.
Lemma valid_fold nv ws l k : k < length l ->
  nth_error (fold_left (fun l iwave => let i1 := (iwave + 1) * (nv + 2) + 1 in set_true i1 (i1 + nv) l) ws l) k
  = if existsb (fun iw => ((iw + 1) * (nv + 2) + 1 <=? k) && (k <? (iw + 1) * (nv + 2) + 1 + nv)) ws
    then Some true else nth_error l k.
Proof.
  revert l. induction ws as [|iw ws IH]; intros l H; cbn [fold_left existsb]; [easy|].
  rewrite IH by (cbn zeta; now rewrite set_true_length). cbn zeta. rewrite set_true_nth.
  apply Nat.ltb_lt in H. rewrite H, andb_true_r.
  destruct (existsb _ ws); [now rewrite orb_true_r|]. now rewrite orb_false_r.
Qed.
Lemma fold_valid_length nv ws l :
  length (fold_left (fun l iwave => let i1 := (iwave + 1) * (nv + 2) + 1 in set_true i1 (i1 + nv) l) ws l) = length l.
Proof. revert l. induction ws as [|iw ws IH]; intro l; cbn [fold_left]; [easy|]. rewrite IH. cbn zeta. apply set_true_length. Qed.
Lemma existsb_seq nw nv k :
  existsb (fun iw => ((iw + 1) * (nv + 2) + 1 <=? k) && (k <? (iw + 1) * (nv + 2) + 1 + nv)) (seq 0 nw) = fvalid nw nv k.
Proof.
  assert (k = (nv + 2) * (k / (nv + 2)) + k mod (nv + 2)) as E by (apply Nat.div_mod; lia).
  assert (k mod (nv + 2) < nv + 2) as M by (apply Nat.mod_upper_bound; lia).
  set (a := k / (nv + 2)) in *. set (c := k mod (nv + 2)) in *.
  apply eq_true_iff_eq. rewrite existsb_exists. unfold fvalid. fold a c.
  rewrite !andb_true_iff, !Nat.leb_le. split.
  - intros (iw & Hi & K). apply in_seq in Hi. rewrite andb_true_iff, Nat.leb_le, Nat.ltb_lt in K.
    assert (a = iw + 1 /\ c = k - (iw + 1) * (nv + 2)); [|lia].
    apply (flat_inj nv); [lia|lia|]. lia.
  - intros (((A1 & A2) & A3) & A4). exists (a - 1). rewrite in_seq. split; [lia|].
    rewrite andb_true_iff, Nat.leb_le, Nat.ltb_lt. replace (a - 1 + 1) with a by lia. lia.
Qed.
Lemma valid_bins_spec nw nv : valid_bins nw nv = map (fvalid nw nv) (seq 0 ((nv + 2) * (nw + 2))).
Proof.
  apply list_eq_nth_error. intro k. unfold valid_bins. set (ml := (nv + 2) * (nw + 2)).
  destruct (Nat.lt_ge_cases k ml) as [H|H].
  - rewrite valid_fold by (now rewrite repeat_length). rewrite existsb_seq.
    rewrite nth_error_map, nth_error_seq. apply Nat.ltb_lt in H. rewrite H. cbn [option_map Nat.add].
    destruct (fvalid nw nv k); [easy|]. apply Nat.ltb_lt in H. now rewrite nth_error_repeat.
  - rewrite !(proj2 (nth_error_None _ _)); [easy| |].
    + rewrite map_length, seq_length. lia.
    + rewrite fold_valid_length, repeat_length. lia.
Qed.

Lemma compress_map {A} (f : nat -> bool) (g : nat -> A) l :
  compress (map f l) (map g l) = map g (filter f l).
Proof.
  unfold compress. induction l as [|x l IH]; cbn; [easy|]. rewrite IH. now destruct (f x).
Qed.
Lemma seq_blocks b n s : seq (s * b) (n * b) = flat_map (fun a => seq (a * b) b) (seq s n).
Proof.
  revert s. induction n as [|n IH]; intro s; cbn [seq flat_map]; [easy|].
  rewrite <- IH. replace (S n * b) with (b + n * b) by lia. rewrite seq_app. f_equal. f_equal. lia.
Qed.
Lemma filter_flat_map {A B} (p : B -> bool) (f : A -> list B) l :
  filter p (flat_map f l) = flat_map (fun x => filter p (f x)) l.
Proof. induction l as [|x l IH]; cbn; [easy|]. now rewrite filter_app, IH. Qed.
Lemma filter_all {A} (p : A -> bool) l : (forall x, In x l -> p x = true) -> filter p l = l.
Proof. induction l as [|x l IH]; cbn; intro H; [easy|]. rewrite (H x) by now left. f_equal. apply IH. intros; apply H; now right. Qed.
Lemma filter_none {A} (p : A -> bool) l : (forall x, In x l -> p x = false) -> filter p l = [].
Proof. induction l as [|x l IH]; cbn; intro H; [easy|]. rewrite (H x) by now left. apply IH. intros; apply H; now right. Qed.
Lemma fvalid_at nw nv a c : c < nv + 2 -> fvalid nw nv (a * (nv + 2) + c) = (1 <=? a) && (a <=? nw) && (1 <=? c) && (c <=? nv).
Proof.
  intro H. unfold fvalid. rewrite Nat.add_comm. rewrite Nat.div_add, Nat.mod_add by lia.
  rewrite Nat.div_small, Nat.mod_small by lia. easy.
Qed.
Lemma filter_block nw nv a :
  filter (fvalid nw nv) (seq (a * (nv + 2)) (nv + 2))
  = if (1 <=? a) && (a <=? nw) then seq (a * (nv + 2) + 1) nv else [].
Proof.
  replace (nv + 2) with (1 + (nv + 1)) at 2 by lia. rewrite seq_app, seq_app, !filter_app.
  rewrite (filter_none _ (seq (a * (nv + 2)) 1)).
  2: { intros x Hx. apply in_seq in Hx. replace x with (a * (nv + 2) + 0) by lia. rewrite fvalid_at by lia.
       cbn [Nat.leb]. now rewrite andb_false_r. }
  rewrite (filter_none _ (seq (a * (nv + 2) + 1 + nv) 1)).
  2: { intros x Hx. apply in_seq in Hx. replace x with (a * (nv + 2) + (nv + 1)) by lia. rewrite fvalid_at by lia.
       destruct (Nat.leb_spec (nv + 1) nv); [lia|]. now rewrite andb_false_r. }
  rewrite app_nil_r. cbn [app].
  assert (forall x, In x (seq (a * (nv + 2) + 1) nv) -> fvalid nw nv x = (1 <=? a) && (a <=? nw)) as K.
  { intros x Hx. apply in_seq in Hx. replace x with (a * (nv + 2) + (x - a * (nv + 2))) by lia.
    rewrite fvalid_at by lia. destruct (Nat.leb_spec 1 (x - a * (nv + 2))); [|lia].
    destruct (Nat.leb_spec (x - a * (nv + 2)) nv); [|lia]. now rewrite !andb_true_r. }
  destruct ((1 <=? a) && (a <=? nw)); [now apply filter_all|now apply filter_none].
Qed.
Lemma filter_valid nw nv :
  filter (fvalid nw nv) (seq 0 ((nv + 2) * (nw + 2))) = flat_map (fun iw => seq ((iw + 1) * (nv + 2) + 1) nv) (seq 0 nw).
Proof.
  replace ((nv + 2) * (nw + 2)) with ((nw + 2) * (nv + 2)) by lia.
  change 0 with (0 * (nv + 2)) at 1. rewrite seq_blocks, filter_flat_map.
  rewrite (flat_map_ext _ _ (filter_block nw nv)).
  replace (nw + 2) with (1 + (nw + 1)) by lia. rewrite seq_app, seq_app, !flat_map_app.
  change (seq 0 1) with [0]. change (seq (0 + 1 + nw) 1) with [S nw]. change (0 + 1) with 1.
  assert (forall m s, 1 <= s -> s + m <= nw + 1 ->
    flat_map (fun x => if (1 <=? x) && (x <=? nw) then seq (x * (nv + 2) + 1) nv else []) (seq s m)
    = flat_map (fun iw => seq ((iw + 1) * (nv + 2) + 1) nv) (seq (s - 1) m)) as K.
  { induction m as [|m IH]; intros s H1 H2; cbn [seq flat_map]; [easy|].
    rewrite IH by lia. destruct (Nat.leb_spec 1 s); [|lia]. destruct (Nat.leb_spec s nw); [|lia]. cbn [andb].
    replace (s - 1 + 1) with s by lia. replace (S s - 1) with (S (s - 1)) by lia. easy. }
  rewrite (K nw 1) by lia. cbn [flat_map]. destruct (Nat.leb_spec (S nw) nw); [lia|].
  rewrite andb_false_r. cbn [app Nat.sub]. change (1 <=? 0) with false. cbn [andb app]. now rewrite !app_nil_r.
Qed.
Lemma flat_map_seq_nth {A} (g : nat -> nat -> A) nv nw s iw iv : iw < nw -> iv < nv ->
  nth_error (flat_map (fun a => map (g a) (seq 0 nv)) (seq s nw)) (iw * nv + iv) = Some (g (s + iw) iv).
Proof.
  revert s iw. induction nw as [|nw IH]; intros s iw H1 H2; [lia|]. cbn [seq flat_map].
  destruct iw as [|iw].
  - rewrite nth_error_app1 by (rewrite map_length, seq_length; cbn; lia). rewrite nth_error_map, nth_error_seq.
    cbn [Nat.mul Nat.add]. apply Nat.ltb_lt in H2. rewrite H2. cbn. do 2 f_equal. lia.
  - rewrite nth_error_app2 by (rewrite map_length, seq_length; lia). rewrite map_length, seq_length.
    replace (S iw * nv + iv - nv) with (iw * nv + iv) by lia. rewrite IH by lia. do 2 f_equal. lia.
Qed.
Lemma compress_valid {A} nw nv (g : nat -> A) :
  compress (valid_bins nw nv) (map g (seq 0 ((nv + 2) * (nw + 2))))
  = flat_map (fun iw => map (fun iv => g (flat nv iw iv)) (seq 0 nv)) (seq 0 nw).
Proof.
  rewrite valid_bins_spec, compress_map, filter_valid. generalize (seq 0 nw). intro l.
  induction l as [|iw l IH]; cbn [flat_map map]; [easy|]. rewrite map_app, IH. f_equal.
  unfold flat. generalize ((iw + 1) * (nv + 2) + 1). intro b.
  rewrite <- (map_map (fun iv => b + iv) g). f_equal.
  apply list_eq_nth_error. intro k. rewrite nth_error_map, !nth_error_seq. now destruct (k <? nv).
Qed.
Lemma compress_valid_nth {A} nw nv (g : nat -> A) iw iv : iw < nw -> iv < nv ->
  nth_error (compress (valid_bins nw nv) (map g (seq 0 ((nv + 2) * (nw + 2))))) (iw * nv + iv) = Some (g (flat nv iw iv)).
Proof. intros. rewrite compress_valid. now rewrite (flat_map_seq_nth (fun iw iv => g (flat nv iw iv)) nv nw 0). Qed.
Lemma compress_valid_length {A} nw nv (g : nat -> A) :
  length (compress (valid_bins nw nv) (map g (seq 0 ((nv + 2) * (nw + 2))))) = nw * nv.
Proof.
  rewrite compress_valid. generalize 0 at 2. induction nw as [|n IH]; intro s; cbn [seq flat_map]; [easy|].
  rewrite app_length, map_length, seq_length, IH. lia.
Qed.
