(** Proofs about calibration tables (C67). *)
From Coq Require Import String ZArith QArith Lqa List Bool Arith Lia Qcanon Field.
From Verif Require Import Num NpList Exn ModelInterp ModelTables ModelStack ModelVarFit SpecInterp SpecTables SpecVarFit ProofInterp ProofSplineNak ProofVarFit4.
Import ListNotations.
Local Open Scope nat_scope.

Lemma diff_length w : length (np_diff w) = length w - 1.
Proof. induction w as [|a [|b r] IH]; [easy|easy|]. cbn [np_diff length] in *. rewrite IH. lia. Qed.
Lemma diff_nth w : forall i, S i < length w -> nth_error (np_diff w) i = Some (step w i).
Proof.
  induction w as [|a [|b r] IH]; intros i Hi; [cbn in Hi; lia|cbn in Hi; lia|]. cbn [np_diff]. destruct i as [|i]; [reflexivity|].
  cbn [nth_error]. rewrite IH by (cbn [length] in *; lia). reflexivity.
Qed.
Lemma allclose_spec w b : allclose (np_diff w) b = true <-> forall i, S i < length w -> (qabs (step w i - b) <= step_tolerance b)%Qc.
Proof.
  unfold allclose. rewrite forallb_forall. split.
  - intros H i Hi. specialize (H (step w i) (nth_error_In _ _ (diff_nth w i Hi))). apply qleb_true in H. exact H.
  - intros H x Hx. apply In_nth_error in Hx. destruct Hx as [i Hi]. assert (S i < length w) as L.
    { assert (i < length (np_diff w)) by (apply nth_error_Some; congruence). rewrite diff_length in H0. lia. }
    rewrite (diff_nth w i L) in Hi. assert (x = step w i) as -> by congruence. apply qleb_true. exact (H i L).
Qed.
Lemma spacing_spec w : (spaced_within w /\ spacing w = Ok (nth 0 w 0%Qc, step w 0)) \/ (~ spaced_within w /\ exists e, spacing w = Err e).
Proof.
  destruct w as [|a [|b r]]; cbn [spacing].
  1, 2: right; split; [intros [H _]; cbn in H; lia|now eexists].
  change (b - a)%Qc with (step (a :: b :: r) 0).
  destruct (allclose (np_diff (a :: b :: r)) (step (a :: b :: r) 0)) eqn:E.
  - left. split; [|reflexivity]. split; [cbn; lia|]. now apply allclose_spec.
  - right. split; [|now eexists]. intros [_ H]. apply allclose_spec in H. congruence.
Qed.
Lemma zero_one_nth l i : nth_error (zero_to_one l) i = option_map or_one (nth_error l i).
Proof.
  unfold zero_to_one. rewrite nth_error_map. destruct (nth_error l i) as [y|]; [|easy]. cbn. f_equal. unfold or_one.
  destruct (Qc_eq_dec y 0) as [->|N]; [easy|]. apply qeqb_false in N. now rewrite N.
Qed.
Lemma zero_one_length l : length (zero_to_one l) = length l.
Proof. apply map_length. Qed.

Lemma accepts_thm w v : ((exists s, read_fiducial w v = Ok s) <-> spaced_within w) /\
  ((exists s, read_stacked_flux w v = Ok s) <-> spaced_within w).
Proof.
  unfold read_fiducial, read_stacked_flux. destruct (spacing_spec w) as [[S ->]|[S [e ->]]]; cbn [rmap rbind]; split; split; intro H; try easy; try now eexists.
  all: destruct H; discriminate.
Qed.
Lemma accepts_noise_thm junk junk' w v t : (exists s, read_var_func junk junk' w v t = Ok s) <-> spaced_within w.
Proof.
  unfold read_var_func. destruct (spacing_spec w) as [[S ->]|[S [e ->]]]; cbn [rmap rbind cubic_init]; split; intro H; try easy; try now eexists.
  destruct H; discriminate.
Qed.

Lemma spaced_nth x0 h w i : equally_spaced x0 h w -> i < length w -> nth i w 0%Qc = node x0 h i.
Proof. intros E H. apply E. apply nth_error_ok. exact H. Qed.
Lemma spaced_spacing x0 h w : equally_spaced x0 h w -> 2 <= length w -> spacing w = Ok (x0, h).
Proof.
  intros E L. assert (S0 : step w 0 = h).
  { unfold step. rewrite !(spaced_nth x0 h w) by (assumption || lia). apply node_diff. }
  destruct (spacing_spec w) as [[S ->]|[S _]].
  - rewrite S0, (spaced_nth x0 h w 0 E) by lia. f_equal. f_equal. unfold node. change (zq (Z.of_nat 0)) with 0%Qc. ring.
  - destruct S. split; [exact L|]. intros i Hi. rewrite S0. unfold step. rewrite !(spaced_nth x0 h w) by (assumption || lia). rewrite node_diff.
    replace (h - h)%Qc with 0%Qc by ring. change (qabs 0) with 0%Qc. unfold step_tolerance. pose proof (qabs_nonneg h). qlra.
Qed.
Lemma exact_linear_thm x0 h w v i x y : (0 < h)%Qc -> equally_spaced x0 h w -> 2 <= length w -> length v = length w ->
  nth_error w i = Some x -> nth_error v i = Some y ->
  (exists s, read_fiducial w v = Ok s /\ lin_call s x = Some y) /\ (exists s, read_stacked_flux w v = Ok s /\ lin_call s x = Some (or_one y)).
Proof.
  intros H E L V X Y. unfold read_fiducial, read_stacked_flux. rewrite (spaced_spacing x0 h w E L). cbn [rmap fst snd].
  rewrite (E i x X). split; eexists; (split; [reflexivity|]); unfold lin_call; cbn [l_xp0 l_dxp l_fp]; apply lin_eval_node; try assumption.
  - lia.
  - rewrite zero_one_length. lia.
  - rewrite zero_one_nth, Y. reflexivity.
Qed.
Lemma seg_node x0 h n i : (0 < h)%Qc -> S i < n -> in_segment x0 h n i (node x0 h i).
Proof. intros H L. split; [exact L|]. split; [right; apply Qcle_refl|right]. pose proof (node_diff x0 h i). qlra. Qed.
Lemma seg_node' x0 h n i : (0 < h)%Qc -> S i < n -> in_segment x0 h n i (node x0 h (S i)).
Proof. intros H L. split; [exact L|]. split; [right|right; apply Qcle_refl]. pose proof (node_diff x0 h i). qlra. Qed.
Lemma cubic_node junk x0 h fp i y s : (0 < h)%Qc -> 4 <= length fp -> cubic_init junk x0 h fp NotAKnot = Ok s -> nth_error fp i = Some y ->
  cubic_call s (node x0 h i) = Some y.
Proof.
  intros H L E Y. destruct (notaknot_object junk x0 h fp s H L E) as (piece & P & I & _).
  assert (i < length fp) as Li by (apply nth_error_Some; congruence).
  destruct (Nat.eq_dec (S i) (length fp)) as [E'|N].
  - destruct i as [|i]; [lia|]. rewrite (P i (node x0 h (S i)) (seg_node' _ _ (length fp) i H ltac:(lia))). rewrite node_diff.
    destruct (I i ltac:(lia)) as [_ K]. congruence.
  - rewrite (P i (node x0 h i) (seg_node _ _ (length fp) i H ltac:(lia))). replace (node x0 h i - node x0 h i)%Qc with 0%Qc by ring.
    destruct (I i ltac:(lia)) as [K _]. congruence.
Qed.
Lemma exact_noise_thm junk junk' x0 h w vl eta : (0 < h)%Qc -> equally_spaced x0 h w -> 4 <= length w -> length vl = length w -> length eta = length w ->
  exists e v, read_var_func junk junk' w vl eta = Ok (e, v) /\
    forall i x, nth_error w i = Some x -> cubic_call e x = option_map or_one (nth_error eta i) /\ cubic_call v x = nth_error vl i.
Proof.
  intros H E L V T. unfold read_var_func. rewrite (spaced_spacing x0 h w E ltac:(lia)). cbn [rbind fst snd].
  destruct (cubic_init junk x0 h vl NotAKnot) as [v|] eqn:Ev; [|discriminate]. cbn [rbind].
  destruct (cubic_init junk' x0 h (zero_to_one eta) NotAKnot) as [e|] eqn:Ee; [|discriminate]. cbn [rbind].
  exists e, v. split; [reflexivity|]. intros i x X. rewrite (E i x X). assert (i < length w) as Li by (apply nth_error_Some; congruence). split.
  - destruct (nth_error eta i) as [y|] eqn:Y; [|apply nth_error_None in Y; lia]. cbn [option_map].
    apply (cubic_node junk' x0 h (zero_to_one eta) i _ e H); [rewrite zero_one_length; lia|exact Ee|]. now rewrite zero_one_nth, Y.
  - destruct (nth_error vl i) as [y|] eqn:Y; [|apply nth_error_None in Y; lia]. apply (cubic_node junk x0 h vl i _ v H); [lia|exact Ev|exact Y].
Qed.

Lemma qabs_tri a b c : (qabs (a - c) <= qabs (a - b) + qabs (b - c))%Qc.
Proof.
  unfold qabs. destruct (qleb 0 (a - c)) eqn:E1, (qleb 0 (a - b)) eqn:E2, (qleb 0 (b - c)) eqn:E3;
    rewrite ?qleb_true, ?qleb_false in *; qlra.
Qed.
Lemma drift w : spaced_within w -> forall i, i < length w -> (qabs (nth i w 0 - node (nth 0 w 0) (step w 0) i) <= nq i * step_tolerance (step w 0))%Qc.
Proof.
  intros [L S] i. induction i as [|i IH]; intro Hi.
  - unfold node. change (zq (Z.of_nat 0)) with 0%Qc. replace (nth 0 w 0 - (nth 0 w 0 + 0 * step w 0))%Qc with 0%Qc by ring.
    change (nq 0) with 0%Qc. rewrite Qcmult_0_l. apply Qcle_refl.
  - rewrite nq_S. specialize (IH ltac:(lia)). specialize (S i Hi).
    pose proof (qabs_tri (nth (Datatypes.S i) w 0%Qc) (node (nth 0 w 0%Qc) (step w 0) i + step w i) (node (nth 0 w 0%Qc) (step w 0) (Datatypes.S i))) as T.
    replace (nth (Datatypes.S i) w 0 - (node (nth 0 w 0) (step w 0) i + step w i))%Qc with (nth i w 0 - node (nth 0 w 0) (step w 0) i)%Qc in T
      by (unfold step; ring).
    replace (node (nth 0 w 0) (step w 0) i + step w i - node (nth 0 w 0) (step w 0) (Datatypes.S i))%Qc with (step w i - step w 0)%Qc in T.
    2: { pose proof (node_diff (nth 0 w 0%Qc) (step w 0) i) as D. rewrite <- D at 1. ring. }
    eapply Qcle_trans; [exact T|]. rewrite Qcmult_plus_distr_l, Qcmult_1_l. apply Qcplus_le_compat; assumption.
Qed.
Lemma drift_thm w v s i x y : read_stacked_flux w v = Ok s -> (nth 0 w 0 < nth 1 w 0)%Qc -> length v = length w -> nth_error w i = Some x -> nth_error v i = Some y ->
  exists x', (qabs (x - x') <= nq i * step_tolerance (step w 0))%Qc /\ lin_call s x' = Some (or_one y).
Proof.
  intros R P V X Y. unfold read_stacked_flux in R. destruct (spacing_spec w) as [[S E]|[_ [e E]]]; rewrite E in R; [|discriminate R]. cbn in R. injection R as <-.
  assert (i < length w) as Li by (apply nth_error_Some; congruence).
  exists (node (nth 0 w 0%Qc) (step w 0) i). split.
  - pose proof (drift w S i Li) as D. now rewrite (nth_error_nth _ _ _ X) in D.
  - unfold lin_call. cbn [l_xp0 l_dxp l_fp]. apply lin_eval_node.
    + unfold step. qlra.
    + rewrite zero_one_length. destruct S. lia.
    + now rewrite zero_one_nth, Y.
Qed.
Lemma positive_thm x0 h w v i x : (0 < h)%Qc -> equally_spaced x0 h w -> length v = length w -> (forall y, In y v -> 0 <= y)%Qc ->
  S i < length w -> (node x0 h i <= x)%Qc -> (x <= node x0 h (S i))%Qc ->
  exists s c, read_stacked_flux w v = Ok s /\ lin_call s x = Some c /\ (0 < c)%Qc.
Proof.
  intros H E V P L X1 X2. unfold read_stacked_flux. rewrite (spaced_spacing x0 h w E ltac:(lia)). cbn [rmap fst snd].
  assert (Q : forall j y, nth_error (zero_to_one v) j = Some y -> (0 < y)%Qc).
  { intros j y Y. rewrite zero_one_nth in Y. destruct (nth_error v j) as [u|] eqn:U; [|discriminate Y]. cbn in Y. injection Y as <-.
    specialize (P u (nth_error_In _ _ U)). unfold or_one. destruct (Qc_eq_dec u 0) as [->|N]; [reflexivity|]. apply Qcle_lt_or_eq in P. destruct P; [assumption|congruence]. }
  destruct (nth_error (zero_to_one v) i) as [a|] eqn:A; [|apply nth_error_None in A; rewrite zero_one_length in A; lia].
  destruct (nth_error (zero_to_one v) (S i)) as [b|] eqn:B; [|apply nth_error_None in B; rewrite zero_one_length in B; lia].
  pose proof (Q _ _ A) as Pa. pose proof (Q _ _ B) as Pb.
  eexists _, _. split; [reflexivity|]. unfold lin_call. cbn [l_xp0 l_dxp l_fp]. split.
  - apply (lin_eval_chord x0 h (zero_to_one v) i x a b H); [|exact A|exact B]. rewrite zero_one_length. split; [lia|]. split; now right.
  - unfold chord. rewrite node_diff. set (t := ((x - node x0 h i) / h)%Qc).
    pose proof (node_diff x0 h i) as D.
    assert (0 <= t)%Qc as T0. { unfold t. apply Qcle_div; [exact H|]. rewrite Qcmult_0_l. qlra. }
    assert (t <= 1)%Qc as T1. { unfold t. apply Qcdiv_le; [exact H|]. rewrite Qcmult_1_l. qlra. }
    replace (a + (b - a) * (x - node x0 h i) / h)%Qc with (a * (1 - t) + b * t)%Qc.
    + clearbody t. clear - Pa Pb T0 T1. destruct (Qclt_le_dec t 1) as [C|C].
      * qnra.
      * assert (t = 1)%Qc as -> by (apply Qcle_antisym; assumption). qlra.
    + unfold t. field. intro Z. rewrite Z in H. discriminate H.
Qed.

(** a table whose steps after the first are too long by the relative tolerance *)
Definition drifting (n : nat) : list Qc := map (fun i => match i with 0 => 0%Qc | S k => (nq i + nq k * fq 1 100000)%Qc end) (seq 0 (n + 2)).
Definition counting (n : nat) : list Qc := map (fun i => (1 + nq i)%Qc) (seq 0 (n + 2)).
Lemma seq_nth_error m i : i < m -> nth_error (seq 0 m) i = Some i.
Proof. intro H. rewrite (nth_error_ok _ _ 0) by now rewrite seq_length. now rewrite seq_nth. Qed.
Lemma drifting_nth n i : i < n + 2 -> nth_error (drifting n) i = Some (match i with 0 => 0%Qc | S k => (nq i + nq k * fq 1 100000)%Qc end).
Proof. intro H. unfold drifting. now rewrite nth_error_map, seq_nth_error. Qed.
Lemma drifting_step n i : i < n + 1 -> step (drifting n) i = match i with 0 => 1%Qc | S _ => (1 + fq 1 100000)%Qc end.
Proof.
  intro H. unfold step. rewrite (nth_error_nth (drifting n) (S i) 0%Qc (drifting_nth n (S i) ltac:(lia))), (nth_error_nth (drifting n) i 0%Qc (drifting_nth n i ltac:(lia))).
  destruct i as [|k].
  - apply Qc_is_canon. reflexivity.
  - rewrite (nq_S (S k)), (nq_S k). ring.
Qed.
Lemma drifting_spaced n : spaced_within (drifting n).
Proof.
  unfold spaced_within. assert (length (drifting n) = n + 2) as L by (unfold drifting; now rewrite map_length, seq_length). rewrite L. split; [lia|].
  intros i Hi. rewrite (drifting_step n 0), (drifting_step n i) by lia. destruct i; vm_compute; discriminate.
Qed.
Lemma drift_refuted_thm n : exists w v s x y, read_stacked_flux w v = Ok s /\ length v = length w /\ nth_error w (n + 1) = Some x /\ nth_error v (n + 1) = Some y /\
  y <> 0%Qc /\ lin_call s x = Some (y + nq n * fq 1 100000)%Qc.
Proof.
  exists (drifting n), (counting n). pose proof (drifting_spaced n) as Sp. destruct (spacing_spec (drifting n)) as [[_ E]|[N _]]; [|easy].
  unfold read_stacked_flux. rewrite E. cbn [rmap fst snd]. eexists _, _, (1 + nq (n + 1))%Qc. split; [reflexivity|].
  split. { unfold counting, drifting. now rewrite !map_length. } split; [apply drifting_nth; lia|].
  assert (C : forall i, i < n + 2 -> nth_error (counting n) i = Some (1 + nq i)%Qc) by (intros i Hi; unfold counting; now rewrite nth_error_map, seq_nth_error).
  assert (N : forall i, (1 + nq i)%Qc <> 0%Qc). { intro i. apply Qc_pos_neq. pose proof (nq_le 0 i ltac:(lia)). change (nq 0) with 0%Qc in H. qlra. }
  split; [apply C; lia|]. split; [apply N|]. unfold lin_call. cbn [l_xp0 l_dxp l_fp].
  rewrite (drifting_step n 0) by lia. rewrite (nth_error_nth (drifting n) 0 0%Qc (drifting_nth n 0 ltac:(lia))).
  rewrite (lin_eval_affine 0%Qc 1%Qc (zero_to_one (counting n)) 1%Qc 1%Qc).
  - f_equal. replace (n + 1) with (S n) by lia. ring.
  - reflexivity.
  - rewrite zero_one_length. unfold counting. rewrite map_length, seq_length. lia.
  - intros i Hi. rewrite zero_one_length in Hi. unfold counting in Hi. rewrite map_length, seq_length in Hi. rewrite zero_one_nth, C by exact Hi. cbn [option_map].
    f_equal. unfold or_one. destruct (Qc_eq_dec (1 + nq i) 0) as [K|_]; [now apply N in K|]. unfold node, nq. ring.
Qed.
Lemma equal_refuted_thm x n v : exists s, read_stacked_flux (repeat x (S (S n))) v = Ok s /\ l_dxp s = 0%Qc.
Proof.
  assert (spaced_within (repeat x (S (S n)))) as K.
  { split; [rewrite repeat_length; lia|]. assert (forall i, S i < S (S n) -> step (repeat x (S (S n))) i = 0%Qc) as Z.
    { intros i Hi. unfold step. assert (R : forall k, k < S (S n) -> nth k (repeat x (S (S n))) 0%Qc = x).
      { intros k Hk. apply (repeat_spec (S (S n))). apply nth_In. now rewrite repeat_length. }
      rewrite !R by lia. ring. }
    intros i Hi. rewrite repeat_length in Hi. rewrite !Z by lia. vm_compute. discriminate. }
  destruct (spacing_spec (repeat x (S (S n)))) as [[_ E]|[N _]]; [|easy]. unfold read_stacked_flux. rewrite E. cbn [rmap]. eexists. split; [reflexivity|].
  cbn. unfold step. cbn. ring.
Qed.
Lemma extrapolation_thm : exists w v s x c, equally_spaced 0%Qc 1%Qc w /\ 2 <= length w /\ length v = length w /\ (forall y, In y v -> 0 < y)%Qc /\
  read_stacked_flux w v = Ok s /\ x = node 0%Qc 1%Qc (length w) /\ lin_call s x = Some c /\ (c < 0)%Qc.
Proof.
  exists [0%Qc; 1%Qc], [zq 2; fq 1 2], (mklin 0%Qc 1%Qc [zq 2; fq 1 2]), (zq 2), (zq (-1)). split; [|split; [|split; [|split; [|split; [|split; [|split]]]]]].
  - intros [|[|i]] x; cbn; intro H; [| |destruct i; discriminate]; injection H as <-; apply Qc_is_canon; reflexivity.
  - cbn. lia.
  - reflexivity.
  - intros y [<-|[<-|[]]]; reflexivity.
  - lazy. reflexivity.
  - apply Qc_is_canon. reflexivity.
  - lazy. reflexivity.
  - reflexivity.
Qed.

(** the tables a fit writes *)
Lemma round_trip_thm w1 w2 nw nv edges nsub uc rank size vl eta junk junk' : (w1 < w2)%Qc -> 4 <= nw -> length vl = nw -> length eta = nw ->
  exists e v, read_var_func junk junk' (v_wave (vfit_init w1 w2 nw nv edges nsub uc rank size)) vl eta = Ok (e, v) /\
    forall i, i < nw -> cubic_call e (bin_center w1 w2 nw i) = option_map or_one (nth_error eta i) /\ cubic_call v (bin_center w1 w2 nw i) = nth_error vl i.
Proof.
  intros W L V T. cbn [vfit_init v_wave]. rewrite centers_map by lia.
  assert (0 < zq (Z.of_nat nw))%Qc as P. { change 0%Qc with (zq 0). apply zq_lt. lia. }
  set (h := ((w2 - w1) / zq (Z.of_nat nw))%Qc).
  assert (M : forall i, bin_center w1 w2 nw i = node (bin_center w1 w2 nw 0) h i).
  { intro i. unfold bin_center, node, h. change (zq (Z.of_nat 0)) with 0%Qc. field. now apply Qc_pos_neq. }
  assert (N : forall i, i < nw -> nth_error (map (bin_center w1 w2 nw) (seq 0 nw)) i = Some (bin_center w1 w2 nw i)) by (intros i Hi; now rewrite nth_error_map, seq_nth_error).
  destruct (exact_noise_thm junk junk' (bin_center w1 w2 nw 0) h (map (bin_center w1 w2 nw) (seq 0 nw)) vl eta) as (e & v & E & K).
  - unfold h. apply Qcdiv_pos; [qlra|exact P].
  - intros i x X. assert (i < nw) as Hi. { assert (i < length (map (bin_center w1 w2 nw) (seq 0 nw))) by (apply nth_error_Some; congruence). now rewrite map_length, seq_length in H. }
    rewrite N in X by exact Hi. rewrite <- M. congruence.
  - rewrite map_length, seq_length. lia.
  - now rewrite map_length, seq_length.
  - now rewrite map_length, seq_length.
  - exists e, v. split; [exact E|]. intros i Hi. apply K. now apply N.
Qed.
