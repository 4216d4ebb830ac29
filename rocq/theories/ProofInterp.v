From Coq Require Import String ZArith List Bool Arith Lia Field Qcanon.
From Verif Require Import Num Exn NpList NpListFacts ModelInterp SpecInterp.
Import ListNotations.
Local Open Scope nat_scope.

(** ** segments *)
Lemma nq_le a b : a <= b -> (nq a <= nq b)%Qc.
Proof. intro H. apply zq_le. lia. Qed.
Lemma nq_S a : nq (S a) = (nq a + 1)%Qc.
Proof. apply zq_succ. Qed.
Lemma nq_lt_inv a b : (nq a < nq b)%Qc -> a < b.
Proof. intro H. unfold nq in H. rewrite zq_lt in H. lia. Qed.
Lemma nq_le_inv a b : (nq a <= nq b)%Qc -> a <= b.
Proof. intro H. unfold nq in H. rewrite zq_le in H. lia. Qed.

Lemma segment_spec x x0 h n :
  2 <= n ->
  let xx := ((x - x0) / h)%Qc in
  exists k, segment x x0 h n = Z.of_nat k /\ S k < n /\
    (k = 0 \/ (nq k <= xx)%Qc) /\ (S (S k) = n \/ (xx < nq k + 1)%Qc).
Proof.
  intros Hn xx. unfold segment. fold xx. clearbody xx.
  destruct n as [|[|m]]; [lia|lia|].
  assert (nq (S (S m)) = nq m + 1 + 1)%Qc as Em by now rewrite !nq_S.
  assert (0 <= nq m)%Qc as Hm by (change 0%Qc with (nq 0); apply nq_le; lia).
  unfold np_clip, qmin, qmax. rewrite Em.
  destruct (qleb xx 0) eqn:E1; qcase_in E1.
  - destruct (qleb 0 _) eqn:E2; qcase_in E2.
    + exists 0. change (qtrunc 0) with (qtrunc (zq 0)). rewrite qtrunc_zq. split; [easy|]. split; [lia|]. split; [now left|].
      right. change (nq 0) with 0%Qc. qlra.
    + exfalso. qlra.
  - destruct (qleb xx _) eqn:E2; qcase_in E2.
    + assert (0 <= xx)%Qc as H0 by qlra.
      destruct (qtrunc_spec_nonneg xx H0) as [A B].
      assert (0 <= qtrunc xx)%Z as Hz.
      { rewrite qtrunc_nonneg by easy. rewrite <- (qfloor_zq 0). now apply qfloor_mono. }
      exists (Z.to_nat (qtrunc xx)). unfold nq in *. rewrite Z2Nat.id by easy. split; [easy|].
      split; [|split; right; easy].
      assert (zq (qtrunc xx) < zq (Z.of_nat m) + 1)%Qc as C by qlra.
      rewrite <- zq_1, <- zq_plus, zq_lt in C. lia.
    + exists m. split; [|split; [lia|split; [|now left]]].
      * apply qtrunc_unique; [lia|fold (nq m); qlra|fold (nq m); qlra].
      * right. qlra.
Qed.

Lemma node_xx x0 h i x : (0 < h)%Qc -> ((node x0 h i <= x) <-> (nq i <= (x - x0) / h))%Qc.
Proof.
  intro Hh. unfold node, nq. split; intro H.
  - apply Qcle_div; [easy|]. qlra.
  - assert ((x - x0) / h * h = x - x0)%Qc as E by (field; now apply Qc_pos_neq).
    assert (zq (Z.of_nat i) * h <= (x - x0) / h * h)%Qc as F
      by (apply Qcmult_le_compat_r; [easy|now apply Qclt_le_weak]).
    rewrite E in F. qlra.
Qed.
Lemma xx_node x0 h i x : (0 < h)%Qc -> ((x <= node x0 h i) <-> ((x - x0) / h <= nq i))%Qc.
Proof.
  intro Hh. unfold node, nq. split; intro H.
  - apply Qcdiv_le; [easy|]. qlra.
  - assert ((x - x0) / h * h = x - x0)%Qc as E by (field; now apply Qc_pos_neq).
    assert ((x - x0) / h * h <= zq (Z.of_nat i) * h)%Qc as F
      by (apply Qcmult_le_compat_r; [easy|now apply Qclt_le_weak]).
    rewrite E in F. qlra.
Qed.

(** A point of segment i is evaluated with segment i, or it is node i+1. *)
Lemma segment_in x0 h n i x :
  (0 < h)%Qc -> in_segment x0 h n i x ->
  segment x x0 h n = Z.of_nat i \/
  (segment x x0 h n = Z.of_nat (S i) /\ S (S i) < n /\ x = node x0 h (S i)).
Proof.
  intros Hh (Hi & L & R). destruct (segment_spec x x0 h n) as (k & Ek & Hk & KL & KR); [lia|]. cbn zeta in KL, KR.
  rewrite node_xx in L by easy. rewrite xx_node in R by easy. rewrite Ek.
  destruct (lt_eq_lt_dec k i) as [[Lt|Eq]|Gt].
  - exfalso. destruct L as [L|L]; [lia|]. destruct KR as [K|K]; [lia|].
    assert (nq (S k) <= nq i)%Qc by (apply nq_le; lia). rewrite nq_S in *. qlra.
  - left. now subst.
  - right. destruct R as [R|R]; [lia|]. destruct KL as [K|K]; [lia|].
    assert (nq k <= nq (S i))%Qc as C by (eapply Qcle_trans; eauto). apply nq_le_inv in C.
    assert (k = S i) as -> by lia. split; [easy|]. split; [lia|].
    assert ((x - x0) / h = nq (S i))%Qc as E by now apply Qcle_antisym.
    unfold node. fold (nq (S i)). rewrite <- E. field. now apply Qc_pos_neq.
Qed.

Lemma at_z_nat {A} (l : list A) k : at_z l (Z.of_nat k) = nth_error l k.
Proof. unfold at_z. destruct (Z.ltb_spec (Z.of_nat k) 0); [lia|]. now rewrite Nat2Z.id. Qed.
Lemma at_z_nat1 {A} (l : list A) k : at_z l (Z.of_nat k + 1) = nth_error l (S k).
Proof. replace (Z.of_nat k + 1)%Z with (Z.of_nat (S k)) by lia. apply at_z_nat. Qed.
Lemma nth_error_ok {A} (l : list A) k d : k < length l -> nth_error l k = Some (nth k l d).
Proof. intro H. now apply nth_error_nth'. Qed.

Lemma segment_out x x0 h n : n = 1 -> segment x x0 h n = 0%Z.
Proof.
  intros ->. unfold segment, np_clip, qmin, qmax. replace (nq 1 - 1)%Qc with 0%Qc by (unfold nq; change (zq (Z.of_nat 1)) with 1%Qc; ring).
  assert (qtrunc (0 - fq 1 100000000) = 0%Z) as E by reflexivity.
  destruct (qleb _ 0) eqn:E1; qcase_in E1.
  - now destruct (qleb 0 _) eqn:E2.
  - destruct (qleb _ (0 - fq 1 100000000)) eqn:E2; qcase_in E2; [|easy].
    exfalso. qlra.
Qed.

(** ** linear interpolation *)
Lemma lin_eval_total x x0 h fp : 2 <= length fp -> fast_eval_interp1d_lin x x0 h fp <> None.
Proof.
  intro Hn. destruct (segment_spec x x0 h (length fp) Hn) as (k & E & Hk & _).
  unfold fast_eval_interp1d_lin. rewrite E, at_z_nat, at_z_nat1.
  rewrite (nth_error_ok fp k 0%Qc), (nth_error_ok fp (S k) 0%Qc) by lia. discriminate.
Qed.
Lemma lin_eval_one x x0 h y : fast_eval_interp1d_lin x x0 h [y] = None.
Proof. unfold fast_eval_interp1d_lin. rewrite segment_out by reflexivity. reflexivity. Qed.

Lemma node_diff x0 h i : (node x0 h (S i) - node x0 h i = h)%Qc.
Proof. unfold node. rewrite zq_succ. ring. Qed.

Lemma lin_eval_chord x0 h fp i x y1 y2 :
  (0 < h)%Qc -> in_segment x0 h (length fp) i x -> nth_error fp i = Some y1 -> nth_error fp (S i) = Some y2 ->
  fast_eval_interp1d_lin x x0 h fp = Some (chord (node x0 h i) y1 (node x0 h (S i)) y2 x).
Proof.
  intros Hh Hs E1 E2. pose proof (Qc_pos_neq h Hh) as Hne.
  assert (forall y, chord (node x0 h i) y1 (node x0 h (S i)) y2 y = y1 + (y2 - y1) * (y - node x0 h i) / h)%Qc as Ec.
  { intro y. unfold chord. now rewrite node_diff. }
  rewrite Ec. unfold fast_eval_interp1d_lin.
  destruct (segment_in x0 h _ i x Hh Hs) as [E|(E & Hi & Ex)]; rewrite E, at_z_nat, at_z_nat1.
  - rewrite E1, E2. f_equal. unfold node. field. exact Hne.
  - rewrite E2. rewrite (nth_error_ok fp (S (S i)) 0%Qc) by lia. f_equal.
    rewrite Ex at 3. rewrite node_diff. rewrite Ex. unfold node. field. exact Hne.
Qed.
Lemma lin_eval_node x0 h fp i y :
  (0 < h)%Qc -> 2 <= length fp -> nth_error fp i = Some y ->
  fast_eval_interp1d_lin (node x0 h i) x0 h fp = Some y.
Proof.
  intros Hh Hn E. pose proof (Qc_pos_neq h Hh) as Hne.
  assert (i < length fp) as Hi by (apply nth_error_Some; congruence).
  destruct (Nat.eq_dec (S i) (length fp)) as [L|L].
  - destruct i as [|i]; [lia|].
    rewrite (lin_eval_chord x0 h fp i _ (nth i fp 0%Qc) y Hh); [|..|apply nth_error_ok; lia|easy].
    + f_equal. unfold chord. rewrite node_diff. field. exact Hne.
    + split; [lia|]. split; right; [|apply Qcle_refl]. unfold node. rewrite zq_succ.
      assert (0 <= h)%Qc by now apply Qclt_le_weak. qlra.
  - rewrite (lin_eval_chord x0 h fp i _ y (nth (S i) fp 0%Qc) Hh); [|..|easy|apply nth_error_ok; lia].
    + f_equal. unfold chord. rewrite node_diff. replace (node x0 h i - node x0 h i)%Qc with 0%Qc by ring. field. exact Hne.
    + split; [lia|]. split; right; [apply Qcle_refl|]. unfold node. rewrite zq_succ.
      assert (0 <= h)%Qc by now apply Qclt_le_weak. qlra.
Qed.
(** every x lies in some segment *)
Lemma some_segment x0 h n x : (0 < h)%Qc -> 2 <= n -> exists i, in_segment x0 h n i x.
Proof.
  intros Hh Hn. destruct (segment_spec x x0 h n Hn) as (k & _ & Hk & L & R). cbn zeta in L, R.
  exists k. split; [easy|]. rewrite node_xx, xx_node by easy. rewrite nq_S. split; [easy|].
  destruct R as [R|R]; [now left|]. right. now apply Qclt_le_weak.
Qed.
Lemma lin_eval_affine x0 h fp a b x :
  (0 < h)%Qc -> 2 <= length fp ->
  (forall i, i < length fp -> nth_error fp i = Some (a + b * node x0 h i)%Qc) ->
  fast_eval_interp1d_lin x x0 h fp = Some (a + b * x)%Qc.
Proof.
  intros Hh Hn Hf. destruct (some_segment x0 h (length fp) x Hh Hn) as (i & Hi).
  rewrite (lin_eval_chord x0 h fp i x _ _ Hh Hi (Hf i ltac:(destruct Hi; lia)) (Hf (S i) ltac:(destruct Hi; lia))).
  f_equal. unfold chord. rewrite node_diff. replace (a + b * node x0 h (S i))%Qc with (a + b * (node x0 h i + h))%Qc.
  - field. now apply Qc_pos_neq.
  - unfold node. rewrite zq_succ. ring.
Qed.
Lemma lin_eval_range x0 h fp i x lo hi :
  (0 < h)%Qc -> S i < length fp -> (node x0 h i <= x)%Qc -> (x <= node x0 h (S i))%Qc ->
  (forall y, In y fp -> lo <= y /\ y <= hi)%Qc ->
  exists y, fast_eval_interp1d_lin x x0 h fp = Some y /\ (lo <= y /\ y <= hi)%Qc.
Proof.
  intros Hh Hi L R Hb.
  assert (nth_error fp i = Some (nth i fp 0%Qc)) as E1 by (apply nth_error_ok; lia).
  assert (nth_error fp (S i) = Some (nth (S i) fp 0%Qc)) as E2 by (apply nth_error_ok; lia).
  rewrite (lin_eval_chord x0 h fp i x _ _ Hh (conj Hi (conj (or_intror L) (or_intror R))) E1 E2).
  eexists. split; [reflexivity|]. unfold chord. rewrite node_diff.
  destruct (Hb _ (nth_error_In _ _ E1)) as [A1 A2]. destruct (Hb _ (nth_error_In _ _ E2)) as [B1 B2].
  set (y1 := nth i fp 0%Qc) in *. set (y2 := nth (S i) fp 0%Qc) in *.
  set (t := ((x - node x0 h i) / h)%Qc).
  assert (0 <= t)%Qc as T0 by (apply Qcle_div; [easy|qlra]).
  assert (t <= 1)%Qc as T1 by (apply Qcdiv_le; [easy|]; pose proof (node_diff x0 h i); qlra).
  replace (y1 + (y2 - y1) * (x - node x0 h i) / h)%Qc with (y1 * (1 - t) + y2 * t)%Qc
    by (unfold t; field; now apply Qc_pos_neq).
  clearbody t y1 y2. clear - A1 A2 B1 B2 T0 T1. split; qnra.
Qed.

(** ** polynomials *)
Lemma qpow_S x n : Qcpower x (S n) = (x * Qcpower x n)%Qc. Proof. reflexivity. Qed.
Lemma mypoly_from coef x s r :
  fold_left (fun r ia => r + snd ia * Qcpower x (fst ia))%Qc (combine (seq s (length coef)) coef) r
  = (r + Qcpower x s * horner coef x)%Qc.
Proof.
  revert s r. induction coef as [|a coef IH]; intros s r; cbn [length seq combine fold_left horner fst snd].
  - ring.
  - rewrite IH, qpow_S. ring.
Qed.
Lemma mypoly1d_horner coef x : mypoly1d coef x = horner coef x.
Proof. unfold mypoly1d. rewrite mypoly_from. cbn [Qcpower]. ring. Qed.
Lemma horner_sum coef x :
  horner coef x = qsum (map (fun i => nth i coef 0 * x ^ i)%Qc (seq 0 (length coef))).
Proof.
  induction coef as [|a coef IH]; [reflexivity|].
  cbn [length seq map horner]. rewrite qsum_cons, <- seq_shift, map_map. cbn [nth].
  rewrite IH, <- qsum_map_mult. f_equal; [cbn; ring|]. f_equal. apply map_ext. intro i. cbn. ring.
Qed.
