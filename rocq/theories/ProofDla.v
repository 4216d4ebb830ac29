(** Proofs about the DLA absorption profile. *)
From Coq Require Import Reals List Lra Lia Permutation.
From Coquelicot Require Import Coquelicot.
From Verif Require Import ModelDla.
Import ListNotations.
Local Open Scope R_scope.

(** ** Taylor bounds of exp *)
Lemma increasing_by_derivative (f f' : R -> R) a b : a <= b ->
  (forall c, a <= c <= b -> is_derive f c (f' c)) -> (forall c, a <= c <= b -> 0 <= f' c) -> f a <= f b.
Proof.
  intros [L| ->] D N; [|lra].
  destruct (MVT_cor2 f f' a b L) as (c & E & I).
  - intros c Hc. apply is_derive_Reals. now apply D.
  - assert (0 <= f' c * (b - a)) by (apply Rmult_le_pos; [apply N; lra|lra]). lra.
Qed.
Lemma exp2 x : 0 <= x -> 1 + x + x ^ 2 / 2 <= exp x.
Proof.
  intro H. pose proof (increasing_by_derivative (fun t => exp t - (1 + t + t ^ 2 / 2)) (fun t => exp t - (1 + t)) 0 x H) as K.
  cbv beta in K. rewrite exp_0 in K.
  assert (1 - (1 + 0 + 0 ^ 2 / 2) <= exp x - (1 + x + x ^ 2 / 2)); [|lra].
  apply K.
  - intros c _. auto_derive; [easy|field].
  - intros c [Hc _]. destruct (Rle_lt_or_eq_dec 0 c Hc) as [L|E]; [pose proof (exp_ineq1 c); lra|]. rewrite <- E, exp_0. lra.
Qed.
Lemma exp3 x : 0 <= x -> 1 + x + x ^ 2 / 2 + x ^ 3 / 6 <= exp x.
Proof.
  intro H. pose proof (increasing_by_derivative (fun t => exp t - (1 + t + t ^ 2 / 2 + t ^ 3 / 6)) (fun t => exp t - (1 + t + t ^ 2 / 2)) 0 x H) as K.
  cbv beta in K. rewrite exp_0 in K.
  assert (1 - (1 + 0 + 0 ^ 2 / 2 + 0 ^ 3 / 6) <= exp x - (1 + x + x ^ 2 / 2 + x ^ 3 / 6)); [|lra].
  apply K.
  - intros c _. auto_derive; [easy|field].
  - intros c [Hc _]. pose proof (exp2 c Hc). lra.
Qed.
Lemma sinh1 x : 0 <= x -> 2 * x <= exp x - exp (- x).
Proof.
  intro H. pose proof (increasing_by_derivative (fun t => exp t - exp (- t) - 2 * t) (fun t => exp t + exp (- t) - 2) 0 x H) as K.
  cbv beta in K. rewrite Ropp_0, exp_0 in K.
  assert (1 - 1 - 2 * 0 <= exp x - exp (- x) - 2 * x); [|lra].
  apply K.
  - intros c _. auto_derive; [easy|field].
  - intros c [Hc _]. rewrite exp_Ropp. pose proof (exp_pos c). set (e := exp c) in *.
    assert (e + / e - 2 = (e - 1) ^ 2 * / e) as -> by (field; lra).
    apply Rmult_le_pos; [apply pow2_ge_0|]. left. now apply Rinv_0_lt_compat.
Qed.

(** ** the profile as a function of P *)
Definition G (p : R) : R := (exp (- p) ^ 2 * (4 * p ^ 2 + 7 * p + 4 + (3 / 2) / p) - (3 / 2) / p - 1) / p.
Definition profile (k p : R) : R := exp (- p) - k * G p.

Lemma G_upper p : 0 < p -> G p <= 2 * exp (- p).
Proof.
  intro Hp. unfold G. pose proof (exp_pos (- p)) as E. set (e := exp (- p)) in *.
  assert (exp p = / e) as Ei by (unfold e; rewrite exp_Ropp, Rinv_inv; reflexivity).
  assert (0 <= p) as Hp0 by lra.
  pose proof (sinh1 p Hp0) as S. fold e in S. rewrite Ei in S.
  pose proof (exp2 p Hp0) as T. rewrite Ei in T.
  assert (e * / e = 1) as Ee by (field; lra).
  apply Rmult_le_reg_r with p; [assumption|]. unfold Rdiv at 1. rewrite Rmult_assoc, Rinv_l, Rmult_1_r by lra.
  (* (4p^2+7p+4) e <= 4 + 3p *)
  assert ((4 * p ^ 2 + 7 * p + 4) * e <= 4 + 3 * p) as A.
  { assert (e * (1 + p + p ^ 2 / 2) <= 1) as B by (rewrite <- Ee; apply Rmult_le_compat_l; lra).
    assert (4 * p ^ 2 + 7 * p + 4 <= (4 + 3 * p) * (1 + p + p ^ 2 / 2)) as C by nra.
    assert ((4 * p ^ 2 + 7 * p + 4) * e <= (4 + 3 * p) * (1 + p + p ^ 2 / 2) * e) by (apply Rmult_le_compat_r; lra).
    assert ((4 + 3 * p) * (e * (1 + p + p ^ 2 / 2)) <= (4 + 3 * p) * 1) by (apply Rmult_le_compat_l; lra).
    nra. }
  assert ((3 / 2) / p * (/ e - e) >= 3) as Bq.
  { assert ((3 / 2) / p * (/ e - e) >= (3 / 2) / p * (2 * p)); [|assert ((3 / 2) / p * (2 * p) = 3) by (field; lra); lra].
    apply Rle_ge, Rmult_le_compat_l; [|lra]. left. apply Rmult_lt_0_compat; [lra|now apply Rinv_0_lt_compat]. }
  set (q := (3 / 2) / p) in *.
  (* divide by e *)
  assert (e ^ 2 * (4 * p ^ 2 + 7 * p + 4 + q) - q - 1 =
          e * ((4 * p ^ 2 + 7 * p + 4) * e - q * (/ e - e) - / e)) as ->.
  { transitivity (e ^ 2 * (4 * p ^ 2 + 7 * p + 4 + q) - q * (e * / e) - e * / e); [rewrite Ee; ring|]. ring. }
  assert (2 * e * p = e * (2 * p)) as -> by ring.
  apply Rmult_le_compat_l; [lra|]. nra.
Qed.

Definition G' (p : R) : R :=
  (3 + p - exp (- p) ^ 2 * (8 * p ^ 4 + 10 * p ^ 3 + 8 * p ^ 2 + 7 * p + 3)) / p ^ 3.
Lemma G_derive p : 0 < p -> is_derive G p (G' p).
Proof.
  intro Hp. unfold G, G'. auto_derive; [repeat split; lra|]. field. lra.
Qed.
Lemma G'_lower p : 0 < p -> - (6 * exp (- p)) <= G' p.
Proof.
  intro Hp. unfold G'. pose proof (exp_pos (- p)) as E. set (e := exp (- p)) in *.
  assert (exp p = / e) as Ei by (unfold e; rewrite exp_Ropp, Rinv_inv; reflexivity).
  assert (0 <= p) as Hp0 by lra.
  pose proof (exp3 p Hp0) as T. rewrite Ei in T.
  assert (e * / e = 1) as Ee by (field; lra).
  assert (0 < p ^ 3) as P3 by (apply pow_lt; lra).
  apply Rmult_le_reg_r with (p ^ 3); [assumption|]. unfold Rdiv at 1. rewrite Rmult_assoc, Rinv_l, Rmult_1_r by lra.
  assert (e * (1 + p + p ^ 2 / 2 + p ^ 3 / 6) <= 1) as B by (rewrite <- Ee; apply Rmult_le_compat_l; lra).
  set (t := 1 + p + p ^ 2 / 2 + p ^ 3 / 6) in *.
  assert (e * (8 * p ^ 4 + 10 * p ^ 3 + 8 * p ^ 2 + 7 * p + 3) <= 3 + 4 * p + (5 / 2) * p ^ 2 + 7 * p ^ 3) as A.
  { assert (0 < p ^ 2) by (apply pow_lt; lra). assert (0 < p ^ 4) by (apply pow_lt; lra).
    assert (0 < p ^ 5) by (apply pow_lt; lra). assert (0 < p ^ 6) by (apply pow_lt; lra).
    assert (8 * p ^ 4 + 10 * p ^ 3 + 8 * p ^ 2 + 7 * p + 3 <= t * (3 + 4 * p + (5 / 2) * p ^ 2 + 7 * p ^ 3)) as C.
    { unfold t. match goal with |- ?a <= ?b => assert (b - a = 2 * p ^ 3 + (7 + 5 / 4 + 4 / 6 - 8) * p ^ 4 + (7 / 2 + 5 / 12) * p ^ 5 + 7 / 6 * p ^ 6) by field end.
      nra. }
    assert (0 < 3 + 4 * p + (5 / 2) * p ^ 2 + 7 * p ^ 3) by nra.
    apply Rle_trans with (e * (t * (3 + 4 * p + (5 / 2) * p ^ 2 + 7 * p ^ 3))); [apply Rmult_le_compat_l; lra|].
    rewrite <- Rmult_assoc. apply Rle_trans with (1 * (3 + 4 * p + (5 / 2) * p ^ 2 + 7 * p ^ 3)); [|lra].
    apply Rmult_le_compat_r; lra. }
  assert ((3 + p) * t <= (3 + p) * / e) as D by (apply Rmult_le_compat_l; lra).
  assert (3 + 4 * p + (5 / 2) * p ^ 2 + p ^ 3 <= (3 + p) * t) as F.
  { unfold t. assert (0 < p ^ 4) by (apply pow_lt; lra). match goal with |- ?a <= ?b => assert (b - a = p ^ 4 / 6) by field end. lra. }
  assert (3 + p - e ^ 2 * (8 * p ^ 4 + 10 * p ^ 3 + 8 * p ^ 2 + 7 * p + 3) =
          e * ((3 + p) * / e - e * (8 * p ^ 4 + 10 * p ^ 3 + 8 * p ^ 2 + 7 * p + 3))) as ->.
  { transitivity ((3 + p) * (e * / e) - e ^ 2 * (8 * p ^ 4 + 10 * p ^ 3 + 8 * p ^ 2 + 7 * p + 3)); [rewrite Ee; ring|]. ring. }
  assert (- (6 * e) * p ^ 3 = e * (- 6 * p ^ 3)) as -> by ring.
  apply Rmult_le_compat_l; [lra|]. lra.
Qed.

Lemma profile_pos k p : 0 <= k < 1 / 2 -> 0 < p -> 0 < profile k p.
Proof.
  intros Hk Hp. unfold profile. pose proof (G_upper p Hp) as U. pose proof (exp_pos (- p)) as E. set (e := exp (- p)) in *.
  assert (k * G p <= k * (2 * e)) by (apply Rmult_le_compat_l; lra). nra.
Qed.
Lemma profile_decr k p q : 0 <= k < 1 / 6 -> 0 < p < q -> profile k q < profile k p.
Proof.
  intros Hk [Hp Hq].
  destruct (MVT_cor2 (profile k) (fun p => - exp (- p) - k * G' p) p q Hq) as (c & E & I).
  - intros c Hc. apply is_derive_Reals. unfold profile. apply (is_derive_minus (fun x => exp (- x)) (fun x => k * G x)).
    + auto_derive; [easy|ring].
    + apply is_derive_scal. apply G_derive. lra.
  - assert (0 < c) as Hc by lra. pose proof (G'_lower c Hc) as L. pose proof (exp_pos (- c)) as Ep. set (e := exp (- c)) in *.
    assert (k * - (6 * e) <= k * G' c) by (apply Rmult_le_compat_l; lra).
    assert (- e - k * G' c < 0) by nra. nra.
Qed.

Lemma H_profile a u : H_tepper_garcia a u = profile (a / sqrt_pi) (u ^ 2 + 1 / 10 ^ 12).
Proof.
  unfold H_tepper_garcia, profile, G. cbv zeta. assert (1.5 = 3 / 2) as -> by lra.
  assert (0 < u ^ 2 + 1 / 10 ^ 12) by (pose proof (pow2_ge_0 u); lra).
  set (P := u ^ 2 + 1 / 10 ^ 12) in *. unfold Rdiv. ring.
Qed.
Lemma sqrt_pi_pos : 0 < sqrt_pi.
Proof. unfold sqrt_pi. lra. Qed.
Lemma H_pos a u : 0 <= a <= 1 / 2 -> 0 < H_tepper_garcia a u.
Proof.
  intro Ha. rewrite H_profile. apply profile_pos.
  - unfold sqrt_pi. lra.
  - pose proof (pow2_ge_0 u); lra.
Qed.
Lemma H_decr a u v : 0 <= a <= 1 / 4 -> Rabs u < Rabs v -> H_tepper_garcia a v < H_tepper_garcia a u.
Proof.
  intros Ha L. rewrite !H_profile. apply profile_decr.
  - unfold sqrt_pi. lra.
  - pose proof (pow2_ge_0 u). assert (u ^ 2 < v ^ 2) by (rewrite <- !Rsqr_pow2; now apply Rsqr_lt_abs_1). lra.
Qed.

(** the two lines *)
Definition is_line (lambda f A : R) : Prop := 0 < lambda /\ 0 < f /\ 0 < A /\ lambda * A < 8 * 10 ^ 11.
Lemma lya_line : is_line wave_lya_A f12_lya A12_lya.
Proof. unfold is_line, wave_lya_A, f12_lya, A12_lya. lra. Qed.
Lemma lyb_line : is_line wave_lyb_A f12_lyb A12_lyb.
Proof. unfold is_line, wave_lyb_A, f12_lyb, A12_lyb. lra. Qed.
Lemma PI_gt_2 : 2 < PI.
Proof. pose proof PI2_1. lra. Qed.
Lemma c_cms_pos : 0 < c_cms.
Proof. unfold c_cms, LIGHT_SPEED. lra. Qed.
Lemma aij_pos : 0 < aij_coeff.
Proof.
  unfold aij_coeff. pose proof PI_gt_2. pose proof c_cms_pos.
  apply Rdiv_lt_0_compat; [|assumption]. apply Rdiv_lt_0_compat; [|unfold me; lra].
  apply Rmult_lt_0_compat; [lra|]. apply pow_lt. unfold qe. lra.
Qed.

(** damping parameter *)
Lemma damping lambda f A b : is_line lambda f A -> 1 / 10 <= b ->
  0 <= A * lambda * (1 / 10 ^ 8) / 4 / PI / c_cms / (b / LIGHT_SPEED) <= 1 / 4.
Proof.
  intros (L0 & F0 & A0 & B) Hb. pose proof PI_gt_2 as Hpi.
  assert (0 < LIGHT_SPEED) as HL by (unfold LIGHT_SPEED; lra).
  assert (A * lambda * (1 / 10 ^ 8) / 4 / PI / c_cms / (b / LIGHT_SPEED) = A * lambda / (4 * 10 ^ 13 * PI * b)) as ->.
  { unfold c_cms. field. repeat split; lra. }
  assert (0 < A * lambda) as AL by nra. assert (lambda * A = A * lambda) as K by ring. rewrite K in B.
  assert (0 < PI * b) as Pb by nra.
  assert (2 / 10 <= PI * b) as Pb2 by nra.
  assert (0 < 4 * 10 ^ 13 * PI * b) as Hd by nra.
  split.
  - left. apply Rdiv_lt_0_compat; assumption.
  - apply Rmult_le_reg_r with (4 * 10 ^ 13 * PI * b); [assumption|].
    unfold Rdiv at 1. rewrite Rmult_assoc, Rinv_l, Rmult_1_r by lra. nra.
Qed.

Lemma depth_factor lambda f A n b : is_line lambda f A -> 1 / 10 <= b ->
  0 < aij_coeff * f * Rpower 10 (n - 13) * (lambda / b) / sqrt_pi.
Proof.
  intros (L0 & F0 & _) Hb. pose proof aij_pos. pose proof sqrt_pi_pos.
  assert (0 < Rpower 10 (n - 13)) by (unfold Rpower; apply exp_pos).
  assert (0 < lambda / b) by (apply Rdiv_lt_0_compat; lra).
  apply Rdiv_lt_0_compat; [|assumption].
  apply Rmult_lt_0_compat; [apply Rmult_lt_0_compat; [apply Rmult_lt_0_compat|]|]; assumption.
Qed.

Lemma depth_pos w lambda n b f A : is_line lambda f A -> 1 / 10 <= b -> 0 < get_optical_depth w lambda n b f A.
Proof.
  intros L Hb. unfold get_optical_depth, voigt_tepper_garcia. cbv zeta. apply Rmult_lt_0_compat.
  - apply H_pos. pose proof (damping lambda f A b L Hb). lra.
  - now apply (depth_factor lambda f A).
Qed.
Lemma Rpower_lt10 x y : x < y -> Rpower 10 x < Rpower 10 y.
Proof. intro H. apply Rpower_lt; lra. Qed.
Lemma depth_n w lambda m n b f A : is_line lambda f A -> 1 / 10 <= b -> m < n ->
  get_optical_depth w lambda m b f A < get_optical_depth w lambda n b f A.
Proof.
  intros L Hb Hn. unfold get_optical_depth, voigt_tepper_garcia. cbv zeta. apply Rmult_lt_compat_l.
  - apply H_pos. pose proof (damping lambda f A b L Hb). lra.
  - destruct L as (L0 & F0 & _). pose proof aij_pos. pose proof sqrt_pi_pos.
    assert (Rpower 10 (m - 13) < Rpower 10 (n - 13)) by (apply Rpower_lt10; lra).
    assert (0 < lambda / b) by (apply Rdiv_lt_0_compat; lra).
    unfold Rdiv at 1 3. apply Rmult_lt_compat_r; [now apply Rinv_0_lt_compat|].
    apply Rmult_lt_compat_r; [assumption|]. apply Rmult_lt_compat_l; [|assumption]. now apply Rmult_lt_0_compat.
Qed.
Lemma depth_wing v w lambda n b f A : is_line lambda f A -> 1 / 10 <= b -> Rabs (v - lambda) < Rabs (w - lambda) ->
  get_optical_depth w lambda n b f A < get_optical_depth v lambda n b f A.
Proof.
  intros L Hb Hw. unfold get_optical_depth, voigt_tepper_garcia. cbv zeta. apply Rmult_lt_compat_r.
  - now apply (depth_factor lambda f A).
  - apply H_decr; [exact (damping lambda f A b L Hb)|].
    destruct L as (L0 & _). assert (0 < LIGHT_SPEED) as HL by (unfold LIGHT_SPEED; lra).
    assert (forall x, (x / lambda - 1) / (b / LIGHT_SPEED) = (x - lambda) * (LIGHT_SPEED / (lambda * b))) as K by (intro x; field; lra).
    rewrite !K, !Rabs_mult. apply Rmult_lt_compat_r; [|assumption]. apply Rabs_pos_lt.
    apply Rgt_not_eq. apply Rdiv_lt_0_compat; [assumption|nra].
Qed.

(** ** one DLA *)
Lemma flux_range w z n b : 1 / 10 <= b -> 0 < get_dla_flux w z n b < 1.
Proof.
  intro Hb. unfold get_dla_flux. cbv zeta. split; [apply exp_pos|].
  match goal with |- ?x < _ => apply Rlt_le_trans with (exp 0); [|rewrite exp_0; apply Rle_refl] end. apply exp_increasing.
  pose proof (depth_pos (w / (1 + z)) _ n b _ _ lya_line Hb). pose proof (depth_pos (w / (1 + z)) _ n b _ _ lyb_line Hb). lra.
Qed.
Lemma flux_n w z m n b : 1 / 10 <= b -> m < n -> get_dla_flux w z n b < get_dla_flux w z m b.
Proof.
  intros Hb Hn. unfold get_dla_flux. cbv zeta. apply exp_increasing.
  pose proof (depth_n (w / (1 + z)) _ m n b _ _ lya_line Hb Hn). pose proof (depth_n (w / (1 + z)) _ m n b _ _ lyb_line Hb Hn). lra.
Qed.
Lemma rest_lt z v w : 0 < 1 + z -> v < w -> v / (1 + z) < w / (1 + z).
Proof. intros. unfold Rdiv. apply Rmult_lt_compat_r; [now apply Rinv_0_lt_compat|assumption]. Qed.
Lemma rest_ge z l w : 0 < 1 + z -> l * (1 + z) <= w -> l <= w / (1 + z).
Proof. intros Hz H. apply Rmult_le_reg_r with (1 + z); [assumption|]. unfold Rdiv. rewrite Rmult_assoc, Rinv_l, Rmult_1_r by lra. assumption. Qed.
Lemma rest_le z l w : 0 < 1 + z -> w <= l * (1 + z) -> w / (1 + z) <= l.
Proof. intros Hz H. apply Rmult_le_reg_r with (1 + z); [assumption|]. unfold Rdiv. rewrite Rmult_assoc, Rinv_l, Rmult_1_r by lra. assumption. Qed.
Lemma lyb_lt_lya : wave_lyb_A < wave_lya_A.
Proof. unfold wave_lyb_A, wave_lya_A. lra. Qed.
Lemma flux_red v w z n b : 0 < 1 + z -> 1 / 10 <= b -> wave_lya_A * (1 + z) <= v < w ->
  get_dla_flux v z n b < get_dla_flux w z n b.
Proof.
  intros Hz Hb [Hv Hw]. unfold get_dla_flux. cbv zeta. apply exp_increasing. pose proof lyb_lt_lya.
  pose proof (rest_lt z v w Hz Hw). pose proof (rest_ge z _ v Hz Hv).
  assert (forall l, l <= wave_lya_A -> Rabs (v / (1 + z) - l) < Rabs (w / (1 + z) - l)) as K
    by (intros l Hl; rewrite !Rabs_pos_eq by lra; lra).
  pose proof (depth_wing (v / (1 + z)) (w / (1 + z)) _ n b _ _ lya_line Hb (K wave_lya_A ltac:(lra))).
  pose proof (depth_wing (v / (1 + z)) (w / (1 + z)) _ n b _ _ lyb_line Hb (K wave_lyb_A ltac:(lra))). lra.
Qed.
Lemma flux_blue v w z n b : 0 < 1 + z -> 1 / 10 <= b -> v < w <= wave_lyb_A * (1 + z) ->
  get_dla_flux w z n b < get_dla_flux v z n b.
Proof.
  intros Hz Hb [Hw Hv]. unfold get_dla_flux. cbv zeta. apply exp_increasing. pose proof lyb_lt_lya.
  pose proof (rest_lt z v w Hz Hw). pose proof (rest_le z _ w Hz Hv).
  assert (forall l, wave_lyb_A <= l -> Rabs (w / (1 + z) - l) < Rabs (v / (1 + z) - l)) as K
    by (intros l Hl; rewrite !Rabs_left1 by lra; lra).
  pose proof (depth_wing (w / (1 + z)) (v / (1 + z)) _ n b _ _ lya_line Hb (K wave_lya_A ltac:(lra))).
  pose proof (depth_wing (w / (1 + z)) (v / (1 + z)) _ n b _ _ lyb_line Hb (K wave_lyb_A ltac:(lra))). lra.
Qed.

(** ** all DLAs of a sight line *)
Lemma all_app w l m : get_all_dlas w (l ++ m) = get_all_dlas w l * get_all_dlas w m.
Proof.
  unfold get_all_dlas. rewrite fold_left_app. set (a := fold_left _ l 1). clearbody a. revert a.
  assert (forall a, fold_left (fun t d => t * get_dla_flux w (fst d) (snd d) 10) m a =
                    a * fold_left (fun t d => t * get_dla_flux w (fst d) (snd d) 10) m 1) as K; [|exact K].
  induction m as [|d m IH]; intro a; cbn [fold_left]; [ring|]. rewrite IH. rewrite (IH (1 * _)). ring.
Qed.
Lemma all_one w d : get_all_dlas w [d] = get_dla_flux w (fst d) (snd d) 10.
Proof. unfold get_all_dlas. cbn. ring. Qed.
Lemma all_range w l : 0 < get_all_dlas w l <= 1.
Proof.
  induction l as [|d l IH]; [unfold get_all_dlas; cbn; lra|].
  change (d :: l) with ([d] ++ l). rewrite all_app, all_one.
  pose proof (flux_range w (fst d) (snd d) 10 ltac:(lra)) as F. split; [apply Rmult_lt_0_compat; lra|nra].
Qed.
Lemma all_more w l m : m <> [] -> get_all_dlas w (l ++ m) < get_all_dlas w l.
Proof.
  intro Hm. rewrite all_app. pose proof (all_range w l). destruct m as [|d m]; [contradiction|].
  change (d :: m) with ([d] ++ m). rewrite all_app, all_one. pose proof (all_range w m).
  pose proof (flux_range w (fst d) (snd d) 10 ltac:(lra)) as F.
  assert (get_dla_flux w (fst d) (snd d) 10 * get_all_dlas w m < 1) by nra. nra.
Qed.
Lemma all_perm w l m : Permutation l m -> get_all_dlas w l = get_all_dlas w m.
Proof.
  induction 1 as [|d l m _ IH|d e l|l m n _ IH1 _ IH2]; [reflexivity| | |congruence].
  - change (d :: l) with ([d] ++ l). change (d :: m) with ([d] ++ m). now rewrite !all_app, IH.
  - change (e :: d :: l) with ([e] ++ [d] ++ l). change (d :: e :: l) with ([d] ++ [e] ++ l). rewrite !all_app. ring.
Qed.
Lemma all_mono v w l : (forall d, In d l -> get_dla_flux v (fst d) (snd d) 10 < get_dla_flux w (fst d) (snd d) 10) ->
  get_all_dlas v l <= get_all_dlas w l /\ (l <> [] -> get_all_dlas v l < get_all_dlas w l).
Proof.
  induction l as [|d l IH]; intro H; [split; [unfold get_all_dlas; cbn [fold_left]; lra|intro K; now destruct K]|].
  assert (get_all_dlas v (d :: l) < get_all_dlas w (d :: l)) as K.
  { change (d :: l) with ([d] ++ l). rewrite !all_app, !all_one.
    destruct IH as (IH & _); [intros; apply H; now right|]. pose proof (H d (or_introl eq_refl)) as Hd.
    pose proof (all_range v l). pose proof (all_range w l).
    pose proof (flux_range v (fst d) (snd d) 10 ltac:(lra)). nra. }
  split; [lra|intros _; exact K].
Qed.

Lemma wings_thm : forall v w l, l <> [] ->
  (forall d, In d l -> 0 < 1 + fst d /\
     ((wave_lya_A * (1 + fst d) <= v /\ v < w) \/ (w < v /\ v <= wave_lyb_A * (1 + fst d)))) ->
  get_all_dlas v l < get_all_dlas w l.
Proof.
  intros v w l Hl H. apply all_mono; [|exact Hl]. intros d Hd. destruct (H d Hd) as (Hz & [K|K]).
  - apply flux_red; [exact Hz|lra|exact K].
  - apply flux_blue; [exact Hz|lra|exact K].
Qed.
Lemma range_thm : forall wave dlas, (forall d, In d dlas -> 0 < 1 + fst d) -> 0 < get_all_dlas wave dlas <= 1.
Proof. intros wave dlas _. apply all_range. Qed.
Lemma more_thm : forall wave dlas more, (forall d, In d (dlas ++ more) -> 0 < 1 + fst d) -> more <> [] ->
  get_all_dlas wave (dlas ++ more) < get_all_dlas wave dlas.
Proof. intros wave dlas more _ H. now apply all_more. Qed.
Lemma column_thm : forall wave z nhi nhi', 0 < 1 + z -> nhi < nhi' -> get_dla_flux wave z nhi' 10 < get_dla_flux wave z nhi 10.
Proof. intros wave z nhi nhi' _ H. apply flux_n; [lra|exact H]. Qed.
