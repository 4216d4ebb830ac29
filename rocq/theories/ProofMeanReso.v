(** Proofs about the mean resolution (C64). *)
From Coq Require Import Bool Reals List ZArith Lra Lia.
From Verif Require Import ModelMeanReso SpecMeanReso.
Import ListNotations.
Local Open Scope R_scope.

(** ** argmax *)
Lemma first_nan_some l i : first_nan i (map Some l) = None.
Proof. revert i; induction l; intro i; cbn; auto. Qed.
Lemma amf1 l : forall bi b i, (forall x, In x l -> x <= b) -> argmax_from bi b i (map Some l) = bi.
Proof.
  induction l as [|x l IH]; intros bi b i H; cbn; [easy|]. destruct (Rlt_dec b x) as [C|C].
  - pose proof (H x (or_introl eq_refl)). lra.
  - apply IH. intros y Hy. apply H. now right.
Qed.
Lemma amf2 l1 : forall l2 x bi b i, (forall y, In y l1 -> y < x) -> b < x -> (forall y, In y l2 -> y <= x) ->
  argmax_from bi b i (map Some (l1 ++ x :: l2)) = (i + length l1)%nat.
Proof.
  induction l1 as [|y l1 IH]; intros l2 x bi b i H1 Hb H2; cbn.
  - destruct (Rlt_dec b x) as [C|C]; [|lra]. rewrite amf1 by easy. lia.
  - assert (y < x) by (apply H1; now left). destruct (Rlt_dec b y) as [C|C]; rewrite IH; try easy; try lia; intros z Hz; apply H1; now right.
Qed.
Lemma argmax_spec l1 x l2 : (forall y, In y l1 -> y < x) -> (forall y, In y l2 -> y <= x) ->
  argmax (map Some (l1 ++ x :: l2)) = Some (length l1).
Proof.
  intros H1 H2. unfold argmax. rewrite first_nan_some. destruct l1 as [|y l1]; cbn [map app length].
  - now rewrite amf1.
  - rewrite amf2; [easy|intros z Hz; apply H1; now right|apply H1; now left|easy].
Qed.
Lemma argmax_none n : argmax (repeat None (S n)) = Some 0%nat.
Proof. reflexivity. Qed.

(** ** sums *)
Lemma wsum_ext {A} (w f g : A -> R) l : (forall a, In a l -> f a = g a) -> wsum w f l = wsum w g l.
Proof. induction l as [|a l IH]; intro H; cbn; [easy|]. unfold wsum in IH. rewrite IH, (H a); auto with datatypes. Qed.
Lemma wsum_le {A} (w f g : A -> R) l : (forall a, In a l -> 0 <= w a /\ (0 < w a -> f a <= g a)) -> wsum w f l <= wsum w g l.
Proof.
  induction l as [|a l IH]; intro H; [cbn; lra|]. cbn. unfold wsum in IH.
  destruct (H a (or_introl eq_refl)) as [[W|W] F].
  - pose proof (Rmult_le_compat_l (w a) _ _ (Rlt_le _ _ W) (F W)).
    pose proof (IH (fun b Hb => H b (or_intror Hb))). lra.
  - rewrite <- W. pose proof (IH (fun b Hb => H b (or_intror Hb))). lra.
Qed.
Lemma wsum_lt {A} (w f g : A -> R) l : (forall a, In a l -> 0 <= w a /\ (0 < w a -> f a < g a)) -> (exists a, In a l /\ 0 < w a) ->
  wsum w f l < wsum w g l.
Proof.
  induction l as [|a l IH]; intros H [b [Hb Wb]]; [easy|]. cbn.
  assert (L : wsum w f l <= wsum w g l).
  { apply wsum_le. intros x Hx. destruct (H x (or_intror Hx)) as [P Q]. split; [easy|]. intro. left. auto. }
  destruct (H a (or_introl eq_refl)) as [W F]. fold (wsum w f l) (wsum w g l). destruct Hb as [->|Hb].
  - pose proof (Rmult_lt_compat_l (w b) _ _ Wb (F Wb)). lra.
  - assert (wsum w f l < wsum w g l) by (apply IH; [intros; apply H; now right|now exists b]).
    destruct W as [W|W]; [pose proof (Rmult_lt_compat_l (w a) _ _ W (F W)); lra|rewrite <- W; lra].
Qed.
Lemma wsum_scale {A} (w f : A -> R) k l : wsum w (fun a => k * f a) l = k * wsum w f l.
Proof. induction l as [|a l IH]; cbn; [lra|]. unfold wsum in IH. rewrite IH. lra. Qed.
Lemma wsum_0 {A} (w : A -> R) l : wsum w (fun _ => 0) l = 0.
Proof. induction l as [|a l IH]; cbn; [lra|]. unfold wsum in IH. rewrite IH. lra. Qed.
Lemma wsum_pos {A} (w f : A -> R) l : (forall a, In a l -> 0 <= w a /\ (0 < w a -> 0 < f a)) -> (exists a, In a l /\ 0 < w a) -> 0 < wsum w f l.
Proof. intros H E. rewrite <- (wsum_0 w l). now apply wsum_lt. Qed.
Lemma vdot_wsum {A} (w f : A -> R) l : vdot (map (fun a => Some (f a)) l) (map w l) = Some (wsum w f l).
Proof. induction l as [|a l IH]; cbn; [easy|]. rewrite IH. fold (wsum w f l). f_equal. lra. Qed.
Lemma rsum_wsum {A} (w : A -> R) l : rsum (map w l) = wsum w (fun _ => 1) l.
Proof. induction l as [|a l IH]; cbn; [easy|]. rewrite IH. fold (wsum w (fun _ => 1) l). lra. Qed.

(** ** one ratio *)
Lemma inv_bounds a x lo hi : 0 < a -> 0 < lo -> lo <= hi -> a / hi <= x -> x <= a / lo -> lo <= a / x /\ a / x <= hi.
Proof.
  intros Ha Hlo Hh H1 H2. assert (0 < hi) by lra. assert (0 < a / hi) by (now apply Rdiv_lt_0_compat). assert (0 < x) by lra. split.
  - apply Rmult_le_reg_r with x; [easy|]. unfold Rdiv at 1. rewrite Rmult_assoc, Rinv_l, Rmult_1_r by lra.
    apply Rmult_le_compat_l with (r := lo) in H2; [|lra]. replace (lo * (a / lo)) with a in H2 by (field; lra). lra.
  - apply Rmult_le_reg_r with x; [easy|]. unfold Rdiv at 1. rewrite Rmult_assoc, Rinv_l, Rmult_1_r by lra.
    apply Rmult_le_compat_l with (r := hi) in H1; [|lra]. replace (hi * (a / hi)) with a in H1 by (field; lra). lra.
Qed.
Lemma sqrt_bounds a L lo hi : 0 < a -> 0 < lo -> lo <= hi -> a ^ 2 / (2 * hi ^ 2) <= L -> L <= a ^ 2 / (2 * lo ^ 2) ->
  lo <= a * (1 / sqrt L) / sqrt 2 /\ a * (1 / sqrt L) / sqrt 2 <= hi.
Proof.
  intros Ha Hlo Hh H1 H2. assert (0 < hi) by lra.
  assert (0 < a ^ 2 / (2 * hi ^ 2)) by (apply Rdiv_lt_0_compat; [nra|]; assert (0 < hi ^ 2) by nra; lra).
  assert (HL : 0 < L) by lra. assert (0 < sqrt L) by now apply sqrt_lt_R0. assert (0 < sqrt 2) by (apply sqrt_lt_R0; lra).
  replace (a * (1 / sqrt L) / sqrt 2) with (a / sqrt (2 * L)) by (rewrite sqrt_mult by lra; field; lra).
  assert (S : forall x, 0 < x -> sqrt (2 * (a ^ 2 / (2 * x ^ 2))) = a / x).
  { intros x Hx. replace (2 * (a ^ 2 / (2 * x ^ 2))) with ((a / x) ^ 2) by (field; lra). apply sqrt_pow2.
    left. now apply Rdiv_lt_0_compat. }
  apply inv_bounds; try easy.
  - rewrite <- (S hi) by easy. apply sqrt_le_1_alt. lra.
  - rewrite <- (S lo) by easy. apply sqrt_le_1_alt. lra.
Qed.
Lemma log_ratio_bounds p x lo hi a : 0 < p -> 0 < x -> p * exp (- (a / lo)) <= x -> x <= p * exp (- (a / hi)) -> 0 < a / hi ->
  exists L, log_ratio (Some p) (Some x) = LFin L /\ 0 < L /\ a / hi <= L /\ L <= a / lo.
Proof.
  intros Hp Hx H1 H2 Ha. exists (ln (p / x)). assert (Q : 0 < p / x) by now apply Rdiv_lt_0_compat.
  assert (B : a / hi <= ln (p / x) /\ ln (p / x) <= a / lo).
  { assert (E : forall y, ln (p / (p * exp (- y))) = y).
    { intro y. pose proof (exp_pos y). replace (p / (p * exp (- y))) with (exp y) by (rewrite exp_Ropp; field; lra). apply ln_exp. }
    assert (M : forall y z, 0 < y -> 0 < z -> y <= z -> ln (p / z) <= ln (p / y)).
    { intros y z Hy Hz Hyz. assert (p / z <= p / y) by (apply Rmult_le_compat_l; [lra|]; now apply Rinv_le_contravar).
      assert (0 < p / z) by now apply Rdiv_lt_0_compat. destruct H as [H|H]; [left; now apply ln_increasing|rewrite H; lra]. }
    split.
    - rewrite <- (E (a / hi)) at 1. apply M; try easy. apply Rmult_lt_0_compat; [easy|apply exp_pos].
    - rewrite <- (E (a / lo)). apply M; try easy. apply Rmult_lt_0_compat; [easy|apply exp_pos]. }
  split; [|lra]. cbn. destruct (Req_EM_T x 0); [lra|]. destruct (Rlt_dec 0 (p / x)); [easy|lra].
Qed.

(** ** Gaussian matrices *)
Section Gauss.
Variables (n c : nat) (l : list pixel).
Hypothesis PH : physical l.
Let T := wsum p_weight (fun _ => 1) l.
Definition mean_response (o : Z) : R := wsum p_weight (fun p => response p o) l / wsum p_weight (fun _ => 1) l.

Lemma total_pos : 0 < T.
Proof. destruct PH as [P E]. apply wsum_pos; [|easy]. intros a Ha. split; [apply (P a Ha)|lra]. Qed.
Lemma response_0 p : response p 0 = p_height p.
Proof. unfold response. replace (- 0 ^ 2 / (2 * p_sigma p ^ 2)) with 0 by (unfold Rdiv; ring). rewrite exp_0. lra. Qed.
Lemma response_pos p o : In p l -> 0 < response p o.
Proof. intro H. apply Rmult_lt_0_compat; [apply PH, H|apply exp_pos]. Qed.
Lemma mean_pos o : 0 < mean_response o.
Proof.
  apply Rdiv_lt_0_compat; [|apply total_pos]. apply wsum_pos; [|apply PH]. intros a Ha. split; [apply PH, Ha|]. intro. now apply response_pos.
Qed.
Lemma sq_pos o : o <> 0%Z -> 0 < IZR o ^ 2.
Proof. intro H. assert (IZR o <> 0) by (now apply not_0_IZR). nra. Qed.
Lemma mean_less o : o <> 0%Z -> mean_response o < mean_response 0.
Proof.
  intro H. apply Rmult_lt_compat_r; [apply Rinv_0_lt_compat, total_pos|]. apply wsum_lt; [|apply PH].
  intros a Ha. destruct PH as [P _]. destruct (P a Ha) as (P1 & P2 & P3 & P4). split; [easy|]. intros _. rewrite response_0. unfold response.
  rewrite <- (Rmult_1_r (p_height a)) at 2. apply Rmult_lt_compat_l; [easy|]. rewrite <- exp_0. apply exp_increasing.
  assert (0 < IZR o ^ 2 / (2 * p_sigma a ^ 2)). { apply Rdiv_lt_0_compat; [now apply sq_pos|]. assert (0 < p_sigma a ^ 2) by nra. lra. }
  unfold Rdiv in *. lra.
Qed.
Lemma rows : map (fun row => vdiv (vdot row (map p_weight l)) (rsum (map p_weight l))) (gaussian_matrix n c l) =
  map Some (map (fun d => mean_response (Z.of_nat d - Z.of_nat c)) (seq 0 n)).
Proof.
  unfold gaussian_matrix. rewrite !map_map. apply map_ext. intro d.
  rewrite (vdot_wsum p_weight (fun p => response p (Z.of_nat d - Z.of_nat c))), rsum_wsum. cbn. pose proof total_pos. unfold T in *. destruct Req_EM_T; [lra|]. easy.
Qed.
Lemma peak : (c < n)%nat -> argmax (map Some (map (fun d => mean_response (Z.of_nat d - Z.of_nat c)) (seq 0 n))) = Some c.
Proof.
  intro H. replace n with (c + S (n - S c))%nat by lia. rewrite seq_app, map_app. cbn [seq map plus].
  rewrite argmax_spec; [now rewrite map_length, seq_length| |]; intros y Hy; apply in_map_iff in Hy; destruct Hy as (d & <- & Hd); apply in_seq in Hd;
    rewrite Z.sub_diag; [|left]; apply mean_less; lia.
Qed.
Lemma index_at (f : nat -> R) i : (0 <= i < Z.of_nat n)%Z -> index (map Some (map f (seq 0 n))) i = Some (Some (f (Z.to_nat i))).
Proof.
  intro H. unfold index. rewrite !map_length, seq_length. destruct (i <? 0)%Z eqn:E; [lia|]. rewrite E.
  rewrite map_map. apply (map_nth_error (fun x => Some (f x))).
  rewrite (nth_error_nth' _ 0%nat) by (rewrite seq_length; lia). rewrite seq_nth by lia. easy.
Qed.
Lemma index_out (f : nat -> R) i : (Z.of_nat n <= i)%Z -> index (map Some (map f (seq 0 n))) i = None.
Proof.
  intro H. unfold index. rewrite !map_length, seq_length. destruct (i <? 0)%Z eqn:E; [lia|]. rewrite E.
  apply nth_error_None. rewrite !map_length, seq_length. lia.
Qed.
Variables (lo hi : R).
Hypothesis LO : 0 < lo.
Hypothesis IN : forall p, In p l -> 0 < p_weight p -> lo <= p_sigma p <= hi.
Lemma lo_hi : lo <= hi.
Proof. destruct PH as [_ [p [Hp W]]]. pose proof (IN p Hp W). lra. Qed.
Lemma mean_bounds o : o <> 0%Z ->
  mean_response 0 * exp (- (IZR o ^ 2 / (2 * lo ^ 2))) <= mean_response o /\ mean_response o <= mean_response 0 * exp (- (IZR o ^ 2 / (2 * hi ^ 2))).
Proof.
  intro Ho. pose proof (sq_pos o Ho) as SQ. pose proof lo_hi as LH.
  assert (I : forall x y, 0 < x -> x <= y -> exp (- (IZR o ^ 2 / (2 * x ^ 2))) <= exp (- (IZR o ^ 2 / (2 * y ^ 2)))).
  { intros x y Hx Hy. assert (IZR o ^ 2 / (2 * y ^ 2) <= IZR o ^ 2 / (2 * x ^ 2)).
    { apply Rmult_le_compat_l; [lra|]. apply Rinv_le_contravar; nra. }
    destruct (Req_dec (IZR o ^ 2 / (2 * y ^ 2)) (IZR o ^ 2 / (2 * x ^ 2))) as [->|]; [lra|]. left. apply exp_increasing. lra. }
  assert (F : forall k, mean_response 0 * k = wsum p_weight (fun p => k * p_height p) l / T).
  { intro k. rewrite wsum_scale. unfold mean_response. rewrite (wsum_ext p_weight (fun p => response p 0) p_height) by (intros; apply response_0).
    unfold T, Rdiv. ring. }
  rewrite !F. unfold mean_response. fold T. pose proof (Rinv_0_lt_compat _ total_pos).
  split; (apply Rmult_le_compat_r; [lra|]); apply wsum_le; intros a Ha; destruct PH as [P _]; destruct (P a Ha) as (P1 & P2 & P3 & P4);
    (split; [easy|]); intro W; pose proof (IN a Ha W); unfold response; rewrite (Rmult_comm _ (p_height a)); (apply Rmult_le_compat_l; [lra|]);
    replace (- IZR o ^ 2 / (2 * p_sigma a ^ 2)) with (- (IZR o ^ 2 / (2 * p_sigma a ^ 2))) by (unfold Rdiv; ring); apply I; lra.
Qed.
Lemma one_offset o : o <> 0%Z -> exists L, log_ratio (Some (mean_response 0)) (Some (mean_response o)) = LFin L /\ 0 < L /\
  lo <= IZR (Z.abs o) * (1 / sqrt L) / sqrt 2 <= hi.
Proof.
  intro Ho. destruct (mean_bounds o Ho) as [B1 B2]. pose proof lo_hi. pose proof (sq_pos o Ho).
  assert (E : forall x, 0 < x -> IZR o ^ 2 / (2 * x ^ 2) = (IZR o ^ 2 / 2) / x ^ 2) by (intros; field; lra).
  assert (0 < hi ^ 2) by nra.
  destruct (log_ratio_bounds (mean_response 0) (mean_response o) (lo ^ 2) (hi ^ 2) (IZR o ^ 2 / 2)) as (L & L1 & L2 & L3 & L4);
    [apply mean_pos|apply mean_pos|rewrite <- E by lra; easy|rewrite <- E by lra; easy|apply Rdiv_lt_0_compat; lra|].
  exists L. split; [easy|]. split; [easy|]. assert (A : IZR (Z.abs o) ^ 2 = IZR o ^ 2) by (rewrite abs_IZR; apply pow2_abs).
  apply sqrt_bounds; try easy.
  - rewrite abs_IZR. apply Rabs_pos_lt. now apply not_0_IZR.
  - rewrite A, E by lra. easy.
  - rewrite A, E by lra. easy.
Qed.
Lemma shapes : forallb (fun row => Nat.eqb (length row) (length (map p_weight l))) (gaussian_matrix n c l) &&
  Nat.eqb (length (map p_wave l)) (length (map p_weight l)) = true.
Proof.
  apply andb_true_iff. split.
  - apply forallb_forall. intros row Hr. apply in_map_iff in Hr. destruct Hr as (d & <- & _). rewrite !map_length. apply Nat.eqb_refl.
  - rewrite !map_length. apply Nat.eqb_refl.
Qed.
Lemma gaussian_thm dwave : (2 <= c)%nat -> (c + 2 < n)%nat ->
  exists v, lo <= v <= hi /\
    mean_resolution dwave (Some (gaussian_matrix n c l)) (map p_wave l) (map p_weight l) = Value (v * 300000 * dwave / mean_wave l).
Proof.
  intros H1 H2.
  destruct (one_offset (-2)) as (La & Ea & Pa & Ba); [easy|]. destruct (one_offset (-1)) as (Lb & Eb & Pb & Bb); [easy|].
  destruct (one_offset 1) as (Lc & Ec & Pc & Bc); [easy|]. destruct (one_offset 2) as (Ld & Ed & Pd & Bd); [easy|].
  exists ((IZR (Z.abs (-2)) * (1 / sqrt La) / sqrt 2 + IZR (Z.abs (-1)) * (1 / sqrt Lb) / sqrt 2 + IZR (Z.abs 1) * (1 / sqrt Lc) / sqrt 2
           + IZR (Z.abs 2) * (1 / sqrt Ld) / sqrt 2) / 4). split; [lra|].
  unfold mean_resolution. rewrite shapes, rows. cbv zeta. rewrite peak by lia.
  assert (N : nth_error (map Some (map (fun d => mean_response (Z.of_nat d - Z.of_nat c)) (seq 0 n))) c = Some (Some (mean_response 0))).
  { pose proof (index_at (fun d => mean_response (Z.of_nat d - Z.of_nat c)) (Z.of_nat c) ltac:(lia)) as K. unfold index in K.
    destruct (Z.of_nat c <? 0)%Z eqn:E; [lia|]. rewrite E, Nat2Z.id, Z.sub_diag in K. exact K. }
  rewrite N. unfold off_idx. cbn [map indices combine]. rewrite !index_at by lia. rewrite !Z2Nat.id by lia.
  replace (Z.of_nat c + -2 - Z.of_nat c)%Z with (-2)%Z by lia. replace (Z.of_nat c + -1 - Z.of_nat c)%Z with (-1)%Z by lia.
  replace (Z.of_nat c + 1 - Z.of_nat c)%Z with 1%Z by lia. replace (Z.of_nat c + 2 - Z.of_nat c)%Z with 2%Z by lia.
  cbn [map combine]. rewrite Ea, Eb, Ec, Ed. cbn [positive new_ratio fst snd rsum map combine].
  do 4 (destruct Rlt_dec; [|lra]). rewrite map_map, (vdot_wsum p_weight p_wave), rsum_wsum. cbn [vdiv]. destruct Req_EM_T; [lra|].
  destruct Req_EM_T as [C|_]; [pose proof total_pos; unfold T in *; lra|].
  f_equal. unfold mean_wave. f_equal. f_equal. f_equal.
  assert (0 < sqrt 2) by (apply sqrt_lt_R0; lra). cbn [Z.abs].
  field. repeat split; try lra; apply Rgt_not_eq, sqrt_lt_R0; easy.
Qed.
Lemma few_thm dwave : (c < n)%nat -> (n <= c + 2)%nat ->
  mean_resolution dwave (Some (gaussian_matrix n c l)) (map p_wave l) (map p_weight l) = Raised.
Proof.
  intros H1 H2. unfold mean_resolution. rewrite shapes, rows. cbv zeta. rewrite peak by lia.
  destruct (nth_error _ c); [|easy]. unfold off_idx. cbn [map indices].
  rewrite (index_out _ (Z.of_nat c + 2)) by lia.
  repeat match goal with |- context[match index ?a ?b with _ => _ end] => destruct (index a b) end; easy.
Qed.
End Gauss.

(** ** scale of the weights *)
Lemma vdot_scale k row : forall w, vdot row (map (Rmult k) w) = option_map (Rmult k) (vdot row w).
Proof.
  induction row as [|[x|] row IH]; intros [|y w]; cbn; try (now f_equal; lra).
  rewrite IH. destruct (vdot row w); cbn; [f_equal; lra|easy].
Qed.
Lemma rsum_scale k w : rsum (map (Rmult k) w) = k * rsum w.
Proof. induction w as [|x w IH]; cbn; [lra|]. rewrite IH. lra. Qed.
Lemma vdiv_scale k x t : k <> 0 -> vdiv (option_map (Rmult k) x) (k * t) = vdiv x t.
Proof.
  intro H. destruct x as [x|]; cbn; [|easy]. destruct (Req_EM_T t 0) as [->|N].
  - rewrite Rmult_0_r. now destruct Req_EM_T.
  - destruct Req_EM_T as [E|E]; [apply Rmult_integral in E; now destruct E|]. f_equal. field. easy.
Qed.
Lemma scale_thm k dwave m wave weight : k <> 0 -> mean_resolution dwave m wave (map (Rmult k) weight) = mean_resolution dwave m wave weight.
Proof.
  intro H. destruct m as [m|]; [|easy]. unfold mean_resolution. rewrite map_length, rsum_scale, vdot_scale, vdiv_scale by easy.
  rewrite (map_ext (fun row => vdiv (vdot row (map (Rmult k) weight)) (k * rsum weight)) (fun row => vdiv (vdot row weight) (rsum weight))); [easy|].
  intro row. rewrite vdot_scale. now apply vdiv_scale.
Qed.

(** ** pixels without weight *)
Lemma vdot_agree w : forall row row', agree w row row' -> vdot (map Some row) w = vdot (map Some row') w.
Proof.
  induction w as [|x w IH]; intros row row' [L A]; destruct row as [|a row], row' as [|b row']; try easy. cbn.
  rewrite (IH row row'); [|split; [now injection L|intros k; apply (A (S k))]].
  destruct (vdot (map Some row') w); [|easy]. f_equal. destruct (Req_dec x 0) as [->|N]; [lra|].
  pose proof (A 0%nat x eq_refl N) as K. cbn in K. injection K as ->. easy.
Qed.
Lemma masked_thm dwave m m' wave wave' weight : Forall2 (agree weight) m m' -> agree weight wave wave' ->
  mean_resolution dwave (Some (finite_matrix m)) wave weight = mean_resolution dwave (Some (finite_matrix m')) wave' weight.
Proof.
  intros M W. unfold mean_resolution, finite_matrix. rewrite (vdot_agree weight wave wave' W). destruct W as [-> _].
  assert (E : forallb (fun row : list val => Nat.eqb (length row) (length weight)) (map (map Some) m) =
              forallb (fun row : list val => Nat.eqb (length row) (length weight)) (map (map Some) m')).
  { induction M as [|a b m m' [L _] M IH]; cbn; [easy|]. now rewrite !map_length, L, IH. }
  assert (F : map (fun row => vdiv (vdot row weight) (rsum weight)) (map (map Some) m) =
              map (fun row => vdiv (vdot row weight) (rsum weight)) (map (map Some) m')).
  { clear E. induction M as [|a b m m' A M IH]; cbn; [easy|]. rewrite IH. f_equal. f_equal. now apply vdot_agree. }
  now rewrite E, F.
Qed.

(** ** a column of nan *)
Lemma vdot_nan k : forall row w, nth_error row k = Some None -> length row = length w -> vdot row w = None.
Proof.
  induction k as [|k IH]; intros [|x row] [|y w] H L; try easy; cbn in *.
  - injection H as ->. easy.
  - rewrite (IH row w H ltac:(lia)). now destruct x.
Qed.
Lemma nan_thm dwave m wave weight k : (3 <= length m)%nat -> length wave = length weight ->
  (forall row, In row m -> length row = length weight /\ nth_error row k = Some None) ->
  mean_resolution dwave (Some m) wave weight = Nan.
Proof.
  intros L W H. unfold mean_resolution.
  assert (forallb (fun row : list val => Nat.eqb (length row) (length weight)) m = true) as ->.
  { apply forallb_forall. intros row Hr. apply Nat.eqb_eq. now apply H. }
  rewrite W, Nat.eqb_refl. cbn [andb]. cbv zeta.
  assert (map (fun row => vdiv (vdot row weight) (rsum weight)) m = repeat None (length m)) as ->.
  { clear L. induction m as [|row m IH]; cbn; [easy|]. rewrite IH by (intros; apply H; now right). destruct (H row (or_introl eq_refl)).
    now rewrite (vdot_nan k). }
  destruct m as [|r1 [|r2 [|r3 m]]]; cbn in L; try lia. generalize (vdiv (vdot (map Some wave) weight) (rsum weight)). intro le.
  cbn [length]. change (argmax (repeat None (S (S (S (length m)))))) with (Some 0%nat). cbn [nth_error repeat].
  set (l := None :: None :: None :: repeat None (length m)).
  assert (A : forall i, (-2 <= i < 3)%Z -> index l i = Some None).
  { intros i Hi. unfold index. assert (length l = S (S (S (length m)))) by (unfold l; cbn; now rewrite repeat_length).
    assert (R : forall j, (j < length l)%nat -> nth_error l j = Some None).
    { intros j Hj. change l with (repeat (@None R) (S (S (S (length m))))). rewrite H0 in Hj. apply nth_error_repeat. exact Hj. }
    destruct (i <? 0)%Z eqn:E1.
    - destruct (i + Z.of_nat (length l) <? 0)%Z eqn:E2; [lia|]. apply R. lia.
    - rewrite E1. apply R. lia. }
  unfold off_idx. cbn [map indices]. rewrite !A by (cbn; lia). cbn [map log_ratio combine positive new_ratio rsum fst snd].
  cbn [vdiv]. destruct Req_EM_T as [_|N]; [easy|]. exfalso. apply N. lra.
Qed.
Lemma mean_wave_thm l a b : physical l -> (forall p, In p l -> 0 < p_weight p -> a <= p_wave p <= b) -> a <= mean_wave l <= b.
Proof.
  intros PH H. pose proof (total_pos l PH) as T. destruct PH as [P E].
  assert (K : forall x, x = wsum p_weight (fun _ => x * 1) l / wsum p_weight (fun _ => 1) l) by (intro x; rewrite wsum_scale; field; lra).
  pose proof (Rinv_0_lt_compat _ T). split; [rewrite (K a)|rewrite (K b)]; apply Rmult_le_compat_r; try lra; apply wsum_le; intros p Hp;
    (split; [apply P, Hp|]); intro W; pose proof (H p Hp W); lra.
Qed.
Lemma constant_thm n c l sigma dwave : physical l ->
  (forall p, In p l -> 0 < p_weight p -> p_sigma p = sigma) -> (2 <= c)%nat -> (c + 2 < n)%nat ->
  mean_resolution dwave (Some (gaussian_matrix n c l)) (map p_wave l) (map p_weight l) = Value (sigma * 300000 * dwave / mean_wave l).
Proof.
  intros P I H1 H2. assert (0 < sigma). { destruct P as [P [p [Hp W]]]. rewrite <- (I p Hp W). now apply P. }
  destruct (gaussian_thm n c l P sigma sigma H) with (dwave := dwave) as (v & B & ->); try easy.
  - intros p Hp W. rewrite (I p Hp W). lra.
  - replace v with sigma by lra. easy.
Qed.
