(** Proofs about fft_gaussian_smooth (C65). *)
From Coq Require Import String Reals List ZArith Lra Lia.
From Verif Require Import Exn ModelSmooth SpecSmooth ProofSmooth ModelFft SpecFft.
Import ListNotations.
Local Open Scope R_scope.

(** ** finite sums *)
Lemma sumn_ext n f g : (forall i, (i < n)%nat -> f i = g i) -> sumn n f = sumn n g.
Proof. induction n as [|n IH]; intro H; cbn; [easy|]. rewrite IH, H by (intros; try apply H; lia). easy. Qed.
Lemma sumn_plus n f g : sumn n (fun i => f i + g i) = sumn n f + sumn n g.
Proof. induction n as [|n IH]; cbn; [lra|]. rewrite IH. lra. Qed.
Lemma sumn_scal n f c : sumn n (fun i => c * f i) = c * sumn n f.
Proof. induction n as [|n IH]; cbn; [lra|]. rewrite IH. lra. Qed.
Lemma sumn_0 n : sumn n (fun _ => 0) = 0.
Proof. induction n as [|n IH]; cbn; [easy|]. rewrite IH. lra. Qed.
Lemma sumn_1 n : sumn n (fun _ => 1) = INR n.
Proof. induction n as [|n IH]; [easy|]. rewrite S_INR. cbn [sumn]. rewrite IH. lra. Qed.
Lemma sumn_swap n m (f : nat -> nat -> R) : sumn n (fun i => sumn m (f i)) = sumn m (fun j => sumn n (fun i => f i j)).
Proof.
  induction n as [|n IH]; cbn; [now rewrite sumn_0|]. rewrite IH, <- sumn_plus. easy.
Qed.
Lemma sumn_le n f g : (forall i, (i < n)%nat -> f i <= g i) -> sumn n f <= sumn n g.
Proof. induction n as [|n IH]; intro H; cbn; [lra|]. pose proof (IH (fun i Hi => H i ltac:(lia))). pose proof (H n ltac:(lia)). lra. Qed.
Lemma sum_range_sumn f a n : sum_range f a n = sumn n (fun i => f (a + Z.of_nat i)%Z).
Proof. induction n as [|n IH]; cbn; [easy|]. now rewrite IH. Qed.

(** ** sums of cosines *)
Lemma cos_telescope th a n : 2 * sin (th / 2) * sumn n (fun i => cos (a - INR i * th)) = sin (a + th / 2) - sin (a - INR n * th + th / 2).
Proof.
  induction n as [|n IH]; cbn [sumn].
  - cbn. replace (a - 0 * th + th / 2) with (a + th / 2) by lra. lra.
  - rewrite Rmult_plus_distr_l, IH. rewrite S_INR.
    replace (a - (INR n + 1) * th + th / 2) with ((a - INR n * th) - th / 2) by lra.
    rewrite sin_minus, (sin_plus (a - INR n * th) (th / 2)). lra.
Qed.
Lemma sin_shift a k : sin (a - 2 * PI * INR k) = sin a.
Proof. replace a with ((a - 2 * PI * INR k) + 2 * INR k * PI) at 2 by lra. now rewrite sin_period. Qed.
Lemma cos_sum N k a : (0 < k < N)%nat -> sumn N (fun i => cos (a - INR i * (2 * PI * INR k / INR N))) = 0.
Proof.
  intro H. set (th := 2 * PI * INR k / INR N). assert (HN : 0 < INR N) by (apply lt_0_INR; lia). assert (HK : 0 < INR k) by (apply lt_0_INR; lia).
  assert (KN : INR k < INR N) by (apply lt_INR; lia).
  pose proof (cos_telescope th a N) as T.
  replace (a - INR N * th + th / 2) with ((a + th / 2) - 2 * PI * INR k) in T by (unfold th; field; lra). rewrite sin_shift in T.
  assert (S : 0 < sin (th / 2)).
  { pose proof PI_RGT_0. assert (th / 2 = PI * (INR k / INR N)) as -> by (unfold th; field; lra).
    assert (0 < INR k / INR N) by now apply Rdiv_lt_0_compat.
    assert (INR k / INR N < 1). { apply Rmult_lt_reg_r with (INR N); [easy|]. unfold Rdiv. rewrite Rmult_assoc, Rinv_l; lra. }
    apply sin_gt_0; nra. }
  nra.
Qed.

(** ** the kernel *)
Definition damp (N : nat) (s : R) (k : nat) : R := exp (- (rfftfreq N k * s) ^ 2 / 2).
Definition kernel (N : nat) (s : R) (d : Z) : R :=
  (1 + sumn ((N - 1) / 2) (fun k => 2 * damp N s (S k) * cos (IZR d * (2 * PI * INR (S k) / INR N)))
   + (if Nat.even N then damp N s (N / 2) * cos (IZR d * PI) else 0)) / INR N.
Lemma kernel_even N s d : kernel N s (- d) = kernel N s d.
Proof.
  unfold kernel. f_equal. f_equal; [f_equal|].
  - apply sumn_ext. intros k _. rewrite opp_IZR, Ropp_mult_distr_l_reverse, cos_neg. easy.
  - destruct (Nat.even N); [|easy]. rewrite opp_IZR, Ropp_mult_distr_l_reverse, cos_neg. easy.
Qed.
Lemma half N : (0 < N)%nat -> Nat.even N = true -> INR N = 2 * INR (N / 2) /\ (0 < N / 2 < N)%nat.
Proof.
  intros H E. apply Nat.even_spec in E. destruct E as (m & ->). rewrite Nat.mul_comm, Nat.div_mul by easy. rewrite mult_INR. cbn [INR]. split; [lra|lia].
Qed.
Lemma kernel_total N s (j a : Z) : (0 < N)%nat -> sumn N (fun i => kernel N s (j - (a + Z.of_nat i))) = 1.
Proof.
  intro H. assert (HN : 0 < INR N) by (apply lt_0_INR; lia). unfold kernel, Rdiv.
  rewrite (sumn_ext N _ (fun i => / INR N * (1 + (sumn ((N - 1) / 2) (fun k => 2 * damp N s (S k) * cos (IZR (j - (a + Z.of_nat i)) * (2 * PI * INR (S k) * / INR N)))
     + (if Nat.even N then damp N s (N / 2) * cos (IZR (j - (a + Z.of_nat i)) * PI) else 0))))) by (intros; lra).
  rewrite sumn_scal, !sumn_plus, sumn_1, sumn_swap.
  assert (C : forall k, (0 < k < N)%nat -> sumn N (fun i => cos (IZR (j - (a + Z.of_nat i)) * (2 * PI * INR k * / INR N))) = 0).
  { intros k Hk. rewrite <- (cos_sum N k (IZR (j - a) * (2 * PI * INR k / INR N)) Hk). apply sumn_ext. intros i _. f_equal.
    rewrite !minus_IZR, plus_IZR, <- INR_IZR_INZ. unfold Rdiv. ring. }
  rewrite (sumn_ext ((N - 1) / 2) _ (fun _ => 0)).
  2:{ intros k Hk. rewrite sumn_scal, C; [lra|]. pose proof (Nat.div_mod_eq (N - 1) 2). lia. }
  rewrite sumn_0. destruct (Nat.even N) eqn:E.
  - destruct (half N H E) as [E1 E2]. rewrite sumn_scal. rewrite (sumn_ext N (fun i => cos (IZR (j - (a + Z.of_nat i)) * PI))
      (fun i => cos (IZR (j - (a + Z.of_nat i)) * (2 * PI * INR (N / 2) * / INR N)))).
    + rewrite C by easy. field. lra.
    + intros i _. f_equal. f_equal. rewrite E1. field. rewrite E1 in HN. lra.
  - rewrite sumn_0. field. lra.
Qed.
Lemma sin_Zpi i : sin (PI * INR i) = 0.
Proof. apply sin_eq_0_1. exists (Z.of_nat i). rewrite <- INR_IZR_INZ. lra. Qed.
Lemma irfft_kernel (x : list R) s j : (0 < length x)%nat ->
  irfft (fun k => rfft_re x k * damp (length x) s k) (fun k => rfft_im x k * damp (length x) s k) (length x) j =
  sumn (length x) (fun i => kernel (length x) s (Z.of_nat j - Z.of_nat i) * nth i x 0).
Proof.
  intro H. set (N := length x) in *. assert (HN : 0 < INR N) by (apply lt_0_INR; lia). unfold irfft.
  assert (D0 : rfft_re x 0 * damp N s 0 = sumn N (fun i => nth i x 0)).
  { unfold rfft_re, damp, rfftfreq. fold N. cbn [INR]. replace (- (0 / INR N * s) ^ 2 / 2) with 0 by (unfold Rdiv; ring). rewrite exp_0, Rmult_1_r.
    apply sumn_ext. intros i _. replace (2 * PI * INR i * 0 / INR N) with 0 by (unfold Rdiv; ring). rewrite cos_0. lra. }
  rewrite D0.
  assert (DK : forall k, 2 * (rfft_re x (S k) * damp N s (S k) * cos (2 * PI * INR j * INR (S k) / INR N)
                 - rfft_im x (S k) * damp N s (S k) * sin (2 * PI * INR j * INR (S k) / INR N)) =
      sumn N (fun i => nth i x 0 * (2 * damp N s (S k) * cos (IZR (Z.of_nat j - Z.of_nat i) * (2 * PI * INR (S k) / INR N))))).
  { intro k. unfold rfft_re, rfft_im. fold N.
    rewrite (sumn_ext N (fun j0 => - (nth j0 x 0 * sin (2 * PI * INR j0 * INR (S k) / INR N))) (fun j0 => -1 * (nth j0 x 0 * sin (2 * PI * INR j0 * INR (S k) / INR N)))) by (intros; lra).
    rewrite sumn_scal.
    transitivity ((2 * damp N s (S k) * cos (2 * PI * INR j * INR (S k) / INR N)) * sumn N (fun j0 => nth j0 x 0 * cos (2 * PI * INR j0 * INR (S k) / INR N)) +
                  (2 * damp N s (S k) * sin (2 * PI * INR j * INR (S k) / INR N)) * sumn N (fun j0 => nth j0 x 0 * sin (2 * PI * INR j0 * INR (S k) / INR N))); [ring|].
    rewrite <- !sumn_scal, <- sumn_plus. apply sumn_ext. intros i _.
    replace (IZR (Z.of_nat j - Z.of_nat i) * (2 * PI * INR (S k) / INR N)) with (2 * PI * INR j * INR (S k) / INR N - 2 * PI * INR i * INR (S k) / INR N).
    - rewrite cos_minus. ring.
    - rewrite minus_IZR, <- !INR_IZR_INZ. unfold Rdiv. ring. }
  rewrite (sumn_ext _ _ _ (fun k _ => DK k)). rewrite sumn_swap.
  assert (DN : (if Nat.even N then rfft_re x (N / 2) * damp N s (N / 2) * cos (PI * INR j) else 0) =
               sumn N (fun i => nth i x 0 * (if Nat.even N then damp N s (N / 2) * cos (IZR (Z.of_nat j - Z.of_nat i) * PI) else 0))).
  { destruct (Nat.even N) eqn:E.
    - destruct (half N H E) as [E1 E2]. unfold rfft_re. fold N. rewrite Rmult_assoc, Rmult_comm, <- sumn_scal. apply sumn_ext. intros i _.
      replace (2 * PI * INR i * INR (N / 2) / INR N) with (PI * INR i) by (rewrite E1; field; rewrite E1 in HN; lra).
      replace (IZR (Z.of_nat j - Z.of_nat i) * PI) with (PI * INR j - PI * INR i) by (rewrite minus_IZR, <- !INR_IZR_INZ; ring).
      rewrite cos_minus, !sin_Zpi. ring.
    - rewrite (sumn_ext N _ (fun _ => 0)) by (intros; ring). now rewrite sumn_0. }
  rewrite DN. unfold Rdiv at 1. rewrite Rmult_comm, <- !sumn_plus, <- sumn_scal. apply sumn_ext. intros i _. unfold kernel. rewrite sumn_scal. unfold Rdiv. ring.
Qed.

(** ** padding *)
Lemma pad_length x p : length (pad_edge x p) = (length x + 2 * p)%nat.
Proof. unfold pad_edge. rewrite !app_length, !repeat_length. lia. Qed.
Lemma pad_nth x p i : (i < length x + 2 * p)%nat -> nth i (pad_edge x p) 0 = edge x (Z.of_nat i - Z.of_nat p).
Proof.
  intro H. unfold pad_edge, edge. destruct (Z.of_nat i - Z.of_nat p <? 0)%Z eqn:E.
  - rewrite app_nth1 by (rewrite repeat_length; lia). apply nth_error_nth. apply nth_error_repeat. lia.
  - rewrite app_nth2 by (rewrite repeat_length; lia). rewrite repeat_length. destruct (Z.of_nat (length x) <=? Z.of_nat i - Z.of_nat p)%Z eqn:F.
    + rewrite app_nth2 by lia. apply nth_error_nth. apply nth_error_repeat. lia.
    + rewrite app_nth1 by lia. f_equal. lia.
Qed.
Lemma pad_pos s : (0 < pad_size s)%nat.
Proof. unfold pad_size. lia. Qed.
Lemma firstn_nth {A} (l : list A) n i d : (i < n)%nat -> nth i (firstn n l) d = nth i l d.
Proof. revert n i; induction l as [|a l IH]; intros [|n] [|i] H; cbn; try lia; try easy. apply IH. lia. Qed.
Lemma skipn_nth {A} (l : list A) n i d : nth i (skipn n l) d = nth (n + i) l d.
Proof. revert n; induction l as [|a l IH]; intros [|n]; cbn; try easy; try (now destruct i); try apply IH. Qed.

Lemma kernel_thm s n : (0 < n)%nat -> exists h, averaging h (pad_size s) n /\
  forall x, length x = n -> exists y, fft_gaussian_smooth x s = Ok y /\ smooths_with h (pad_size s) n x y.
Proof.
  intro Hn. set (p := pad_size s). exists (kernel (n + 2 * p) s). split.
  - split; [apply kernel_even|]. intro j. rewrite sum_range_sumn. apply kernel_total. lia.
  - intros x Hx. unfold fft_gaussian_smooth. destruct x as [|a x]; [cbn in Hx; lia|]. fold p. rewrite Hx.
    set (xx := a :: x) in *. eexists. split; [reflexivity|].
    assert (L : length (pad_edge xx p) = (n + 2 * p)%nat) by now rewrite pad_length, Hx. split.
    + rewrite firstn_length, skipn_length, map_length, seq_length. lia.
    + intros j Hj. rewrite firstn_nth, skipn_nth by lia.
      rewrite (nth_indep _ 0 (irfft (fun k => rfft_re (pad_edge xx p) k * damp (n + 2 * p) s k) (fun k => rfft_im (pad_edge xx p) k * damp (n + 2 * p) s k) (n + 2 * p) 0))
        by (rewrite map_length, seq_length; lia).
      unfold damp. rewrite map_nth, seq_nth by lia. change (fun k => exp (- (rfftfreq (n + 2 * p) k * s) ^ 2 / 2)) with (damp (n + 2 * p) s).
      cbn [plus]. rewrite sum_range_sumn.
      pose proof (irfft_kernel (pad_edge xx p) s (p + j)) as K. rewrite L in K. unfold damp in K. rewrite K by lia. apply sumn_ext. intros i Hi.
      rewrite pad_nth by lia. replace (Z.of_nat j - (- Z.of_nat p + Z.of_nat i))%Z with (Z.of_nat (p + j) - Z.of_nat i)%Z by lia.
      now replace (- Z.of_nat p + Z.of_nat i)%Z with (Z.of_nat i - Z.of_nat p)%Z by lia.
Qed.
Lemma edge_repeat c n z : (0 < n)%nat -> edge (repeat c n) z = c.
Proof.
  intro H. unfold edge. destruct n as [|n]; [lia|]. destruct (z <? 0)%Z eqn:E; [easy|]. rewrite repeat_length. destruct (Z.of_nat (S n) <=? z)%Z eqn:F.
  - clear. induction n as [|n IH]; [easy|]. cbn in *. destruct n; easy.
  - apply nth_error_nth. apply nth_error_repeat. apply Z.ltb_ge in E. apply Z.leb_gt in F. lia.
Qed.
Lemma flat_thm s c n : (0 < n)%nat -> fft_gaussian_smooth (repeat c n) s = Ok (repeat c n).
Proof.
  intro H. destruct (kernel_thm s n H) as (h & [_ A] & K). destruct (K (repeat c n) (repeat_length _ _)) as (y & -> & L & Y). f_equal.
  apply nth_ext with 0 0; [now rewrite repeat_length|]. intros j Hj. rewrite Y by lia.
  assert (nth j (repeat c n) 0 = c) as -> by (apply nth_error_nth, nth_error_repeat; lia).
  rewrite sum_range_sumn. rewrite (sumn_ext _ _ (fun i => c * h (Z.of_nat j - (- Z.of_nat (pad_size s) + Z.of_nat i))%Z)).
  - rewrite sumn_scal. specialize (A (Z.of_nat j)). rewrite sum_range_sumn in A. rewrite A. lra.
  - intros i _. rewrite edge_repeat by easy. lra.
Qed.
Lemma edge_lin a b x x' z : length x = length x' ->
  edge (map (fun q => a * fst q + b * snd q) (combine x x')) z = a * edge x z + b * edge x' z.
Proof.
  intro L. assert (N : forall i, nth i (map (fun q => a * fst q + b * snd q) (combine x x')) 0 = a * nth i x 0 + b * nth i x' 0).
  { intro i. set (f := fun q => a * fst q + b * snd q). assert (0 = f (0, 0)) as F by (unfold f; cbn; lra). rewrite F at 1.
    rewrite map_nth, combine_nth by easy. easy. }
  unfold edge. rewrite map_length, combine_length, <- L, Nat.min_id. destruct (z <? 0)%Z.
  - destruct x, x'; cbn; try easy. lra.
  - destruct (Z.of_nat (length x) <=? z)%Z; [|apply N].
    assert (Z : forall l : list R, last l 0 = nth (length l - 1) l 0).
    { clear. induction l as [|u l IH]; [easy|]. cbn [length]. rewrite Nat.sub_succ, Nat.sub_0_r. destruct l as [|r l]; [easy|].
      change (last (u :: r :: l) 0) with (last (r :: l) 0). rewrite IH. cbn [length nth]. now rewrite Nat.sub_succ, Nat.sub_0_r. }
    rewrite !Z, N, map_length, combine_length, <- L, Nat.min_id. easy.
Qed.
Lemma linear_thm s a b x x' y y' : length x = length x' -> fft_gaussian_smooth x s = Ok y -> fft_gaussian_smooth x' s = Ok y' ->
  fft_gaussian_smooth (map (fun q => a * fst q + b * snd q) (combine x x')) s = Ok (map (fun q => a * fst q + b * snd q) (combine y y')).
Proof.
  intros L E E'. assert (0 < length x)%nat by (destruct x; [discriminate E|cbn; lia]).
  destruct (kernel_thm s _ H) as (h & _ & K).
  destruct (K x eq_refl) as (y0 & E0 & L0 & Y0). destruct (K x' (eq_sym L)) as (y1 & E1 & L1 & Y1).
  assert (y = y0) by congruence. assert (y' = y1) by congruence. subst y0 y1.
  destruct (K (map (fun q => a * fst q + b * snd q) (combine x x'))) as (z & -> & LZ & Z); [rewrite map_length, combine_length; lia|].
  f_equal. apply nth_ext with 0 0; [rewrite map_length, combine_length; lia|]. intros j Hj. rewrite Z by lia.
  set (f := fun q => a * fst q + b * snd q) at 2. assert (0 = f (0, 0)) as F by (unfold f; cbn; lra). rewrite F.
  rewrite map_nth, combine_nth by lia. unfold f. cbn [fst snd].
  rewrite Y0, Y1 by lia. rewrite !sum_range_sumn, <- !sumn_scal, <- sumn_plus. apply sumn_ext. intros i _. rewrite edge_lin by easy. ring.
Qed.

(** ** the width *)
Lemma damp_pos N s k : 0 < damp N s k.
Proof. apply exp_pos. Qed.
Lemma kernel_peak N s : 3 <= s -> s <= INR N -> (3 <= N)%nat -> 1 / s <= kernel N s 0.
Proof.
  intros Hs HN H3. assert (P : 0 < INR N) by lra. unfold kernel.
  destruct (archimed (INR N / s)) as [A1 A2]. set (K := Z.to_nat (up (INR N / s) - 1)).
  assert (Q : 0 < INR N / s) by (apply Rdiv_lt_0_compat; lra).
  assert (HK : INR K = IZR (up (INR N / s)) - 1).
  { unfold K. rewrite INR_IZR_INZ, Z2Nat.id; [now rewrite minus_IZR|]. assert (0 < up (INR N / s))%Z by (apply lt_IZR; cbn; lra). lia. }
  assert (K1 : INR K <= INR N / s) by lra. assert (K2 : INR N / s < INR K + 1) by lra.
  assert (KN : (K <= (N - 1) / 2)%nat).
  { assert (3 * INR K <= INR N). { apply Rmult_le_compat_r with (r := s) in K1; [|lra]. unfold Rdiv in K1. rewrite Rmult_assoc, Rinv_l in K1 by lra. pose proof (pos_INR K). nra. }
    assert (3 * K <= N)%nat. { apply INR_le. rewrite mult_INR. cbn [INR]. lra. }
    pose proof (Nat.div_mod_eq (N - 1) 2). pose proof (Nat.mod_upper_bound (N - 1) 2). lia. }
  assert (D : forall k, (k < K)%nat -> 1 <= 2 * damp N s (S k) * cos (0 * (2 * PI * INR (S k) / INR N))).
  { intros k Hk. rewrite Rmult_0_l, cos_0, Rmult_1_r. unfold damp, rfftfreq.
    assert (B : INR (S k) / INR N * s <= 1).
    { assert (INR (S k) <= INR K) by (apply le_INR; lia). apply Rmult_le_reg_r with (INR N / s); [easy|].
      replace (INR (S k) / INR N * s * (INR N / s)) with (INR (S k)) by (field; lra). lra. }
    assert (0 <= INR (S k) / INR N * s). { apply Rmult_le_pos; [|lra]. apply Rmult_le_pos; [apply pos_INR|]. left. now apply Rinv_0_lt_compat. }
    assert (- 1 / 2 <= - (INR (S k) / INR N * s) ^ 2 / 2) by nra.
    assert (exp (- 1 / 2) <= exp (- (INR (S k) / INR N * s) ^ 2 / 2)).
    { destruct H0 as [H0|H0]; [left; now apply exp_increasing|rewrite H0; lra]. }
    pose proof (exp_ineq1_le (- 1 / 2)). lra. }
  assert (S : INR K <= sumn ((N - 1) / 2) (fun k => 2 * damp N s (S k) * cos (0 * (2 * PI * INR (S k) / INR N)))).
  { replace ((N - 1) / 2)%nat with (K + ((N - 1) / 2 - K))%nat by lia. induction ((N - 1) / 2 - K)%nat as [|m IH].
    - rewrite Nat.add_0_r, <- sumn_1. now apply sumn_le.
    - rewrite Nat.add_succ_r. cbn [sumn]. apply Rle_trans with (1 := IH). rewrite Rmult_0_l, cos_0, Rmult_1_r. pose proof (damp_pos N s (Datatypes.S (K + m))). lra. }
  assert (E : 0 <= (if Nat.even N then damp N s (N / 2) * cos (0 * PI) else 0)).
  { destruct (Nat.even N); [|lra]. rewrite Rmult_0_l, cos_0, Rmult_1_r. left. apply damp_pos. }
  apply Rmult_le_reg_r with (INR N); [easy|]. match goal with |- _ <= ?X / ?n * ?n => replace (X / n * n) with X by (field; lra) end.
  replace (1 / s * INR N) with (INR N / s) by (unfold Rdiv; ring). cbn [IZR]. lra.
Qed.
Lemma edge_impulse b a z : (0 < b)%nat -> (0 < a)%nat -> edge (impulse b a) z = if (z =? Z.of_nat b)%Z then 1 else 0.
Proof.
  intros Hb Ha. unfold edge, impulse. destruct b as [|b]; [lia|]. destruct a as [|a]; [lia|]. destruct (z <? 0)%Z eqn:E.
  - apply Z.ltb_lt in E. destruct (z =? Z.of_nat (S b))%Z eqn:F; [apply Z.eqb_eq in F; lia|easy].
  - apply Z.ltb_ge in E. rewrite app_length, repeat_length. cbn [length]. rewrite repeat_length.
    destruct (Z.of_nat (S b + S (S a)) <=? z)%Z eqn:G.
    + apply Z.leb_le in G. destruct (z =? Z.of_nat (S b))%Z eqn:F; [apply Z.eqb_eq in F; lia|].
      assert (LR : forall m, last (repeat 0 (S m)) 0 = 0) by (clear; induction m as [|m IH]; [easy|exact IH]).
      change (1 :: repeat 0 (S a)) with ([1] ++ repeat 0 (S a)). rewrite app_assoc.
      assert (LA : forall l m, last (l ++ repeat 0 (S m)) 0 = 0).
      { intros l m. induction l as [|u l IH]; [apply LR|]. cbn [app]. destruct (l ++ repeat 0 (S m)) eqn:X; [destruct l; discriminate X|exact IH]. }
      apply LA.
    + apply Z.leb_gt in G. destruct (z =? Z.of_nat (S b))%Z eqn:F.
      * apply Z.eqb_eq in F. subst z. rewrite Nat2Z.id, app_nth2; rewrite repeat_length; [|lia]. now rewrite Nat.sub_diag.
      * apply Z.eqb_neq in F. destruct (Z_lt_dec z (Z.of_nat (S b))).
        -- rewrite app_nth1 by (rewrite repeat_length; lia). apply nth_error_nth, nth_error_repeat. lia.
        -- rewrite app_nth2; rewrite repeat_length; [|lia]. replace (Z.to_nat z - S b)%nat with (S (Z.to_nat z - S (S b))) by lia. cbn [nth].
           apply nth_error_nth, nth_error_repeat. lia.
Qed.
Lemma sumn_single n f k : (k < n)%nat -> (forall i, (i < n)%nat -> i <> k -> f i = 0) -> sumn n f = f k.
Proof.
  induction n as [|n IH]; intros Hk H; [lia|]. cbn. destruct (Nat.eq_dec k n) as [->|N].
  - rewrite (sumn_ext n f (fun _ => 0)) by (intros; apply H; lia). rewrite sumn_0. lra.
  - rewrite IH by (intros; try apply H; lia). rewrite (H n) by lia. lra.
Qed.
Lemma int_part_le x : 0 <= x -> x - 1 < INR (Z.to_nat (Int_part x)).
Proof.
  intro H. destruct (base_Int_part x) as [B1 B2]. rewrite INR_IZR_INZ, Z2Nat.id; [lra|].
  assert (-1 < Int_part x)%Z by (apply lt_IZR; cbn; lra). lia.
Qed.
Lemma width_thm s b a : 3 <= s -> (0 < b)%nat -> (0 < a)%nat ->
  exists y, fft_gaussian_smooth (impulse b a) s = Ok y /\ 1 / s <= nth b y 0 /\ forall x, gaussian_density s x < 1 / (2 * s).
Proof.
  intros Hs Hb Ha. assert (L : length (impulse b a) = (b + S a)%nat) by (unfold impulse; rewrite app_length, repeat_length; cbn; now rewrite repeat_length).
  set (p := pad_size s). set (N := (b + S a + 2 * p)%nat).
  assert (HP : 3 * s - 1 < INR p).
  { apply Rlt_le_trans with (1 := int_part_le (3 * s) ltac:(lra)). apply le_INR. unfold p, pad_size. lia. }
  assert (HN : s <= INR N). { unfold N. rewrite !plus_INR, S_INR, mult_INR. cbn [INR]. pose proof (pos_INR b). pose proof (pos_INR a). lra. }
  unfold fft_gaussian_smooth. destruct (impulse b a) as [|q x] eqn:EI; [cbn in L; lia|]. rewrite <- EI in *. fold p. rewrite L. fold N.
  eexists. split; [reflexivity|]. split.
  - rewrite firstn_nth, skipn_nth by (unfold N; lia).
    assert (LP : length (pad_edge (impulse b a) p) = N) by now rewrite pad_length, L.
    rewrite (nth_indep _ 0 (irfft (fun k => rfft_re (pad_edge (impulse b a) p) k * damp N s k) (fun k => rfft_im (pad_edge (impulse b a) p) k * damp N s k) N 0))
        by (rewrite map_length, seq_length; unfold N; lia).
    unfold damp. rewrite map_nth, seq_nth by (unfold N; lia). cbn [plus].
    pose proof (irfft_kernel (pad_edge (impulse b a) p) s (p + b)) as K. rewrite LP in K. unfold damp in K. rewrite K by (unfold N; lia).
    rewrite (sumn_single _ _ (p + b)).
    + rewrite pad_nth by (rewrite L; lia). rewrite edge_impulse by easy.
      replace (Z.of_nat (p + b) - Z.of_nat p =? Z.of_nat b)%Z with true by (symmetry; apply Z.eqb_eq; lia).
      rewrite Z.sub_diag, Rmult_1_r. apply kernel_peak; [easy|easy|unfold N; pose proof (pad_pos s); unfold p; lia].
    + unfold N. lia.
    + intros i Hi Ni. rewrite pad_nth by (rewrite L; unfold N in Hi; lia). rewrite edge_impulse by easy.
      replace (Z.of_nat i - Z.of_nat p =? Z.of_nat b)%Z with false by (symmetry; apply Z.eqb_neq; lia). lra.
  - intro x0. unfold gaussian_density. assert (0 <= x0 ^ 2 / (2 * s ^ 2)).
    { apply Rmult_le_pos; [nra|]. left. apply Rinv_0_lt_compat. nra. }
    assert (exp (- x0 ^ 2 / (2 * s ^ 2)) <= 1).
    { replace (- x0 ^ 2 / (2 * s ^ 2)) with (- (x0 ^ 2 / (2 * s ^ 2))) by (unfold Rdiv; ring). rewrite <- exp_0.
      destruct H as [H|H]; [left; apply exp_increasing; lra|rewrite <- H, Ropp_0; lra]. }
    assert (2 < sqrt (2 * PI)).
    { pose proof PI2_3_2. assert (sqrt (2 ^ 2) < sqrt (2 * PI)) as Q by (apply sqrt_lt_1; lra). rewrite sqrt_pow2 in Q; lra. }
    apply Rle_lt_trans with (1 / (s * sqrt (2 * PI))).
    + apply Rmult_le_compat_r; [|easy]. left. apply Rinv_0_lt_compat, Rmult_lt_0_compat; lra.
    + apply Rmult_lt_compat_l; [lra|]. generalize dependent (sqrt (2 * PI)). intros t Ht. apply Rinv_lt_contravar; [|nra]. apply Rmult_lt_0_compat; [lra|nra].
Qed.

(** ** in get_smooth_ivar *)
Lemma smooth_length x s y : fft_gaussian_smooth x s = Ok y -> length y = length x.
Proof.
  intro E. assert (0 < length x)%nat by (destruct x; [discriminate E|cbn; lia]).
  destruct (kernel_thm s _ H) as (h & _ & K). destruct (K x eq_refl) as (y' & E' & L & _). congruence.
Qed.
Lemma gauss_fin q s : gauss (map XF q) s = match fft_gaussian_smooth q s with Ok y => map XF y | Err _ => [] end.
Proof.
  unfold gauss. assert (fold_right (fun x acc => match x, acc with XF r, Some q => Some (r :: q) | _, _ => None end) (Some []) (map XF q) = Some q) as ->; [|easy].
  induction q as [|r q IH]; cbn in *; [easy|]. now rewrite IH.
Qed.
Lemma gauss_length l s : length (gauss l s) = length l.
Proof.
  unfold gauss. destruct (fold_right _ _ l) as [q|] eqn:E; [|apply map_length].
  assert (length q = length l).
  { revert q E. induction l as [|x l IH]; cbn; intros q E; [now injection E as <-|].
    destruct x; try discriminate E. destruct (fold_right _ _ l) as [q'|]; [|discriminate E]. injection E as <-. cbn. f_equal. now apply IH. }
  destruct (fft_gaussian_smooth q s) as [y|] eqn:F.
  - rewrite map_length, (smooth_length q s y F). easy.
  - destruct q; [easy|discriminate F].
Qed.
Lemma rmedian_const l c : l <> [] -> (forall x, In x l -> x = c) -> rmedian l = XF c.
Proof.
  intros N H. destruct (rmedian_some l N) as (m & E). rewrite E. f_equal. apply rmedian_spec in E.
  destruct E as (s & P & _ & M). assert (A : forall k v, nth_error s k = Some v -> v = c).
  { intros k v K. apply H. apply Permutation.Permutation_in with s; [now apply Permutation.Permutation_sym|]. now apply nth_error_In with k. }
  destruct M as [(k & _ & K)|(k & a & b & _ & K1 & K2 & ->)]; [now apply A with k|]. rewrite (A _ _ K1), (A _ _ K2). lra.
Qed.
Lemma flat_ivar_thm s esigma v ivar : 0 < v -> (forall i, In i ivar -> i = v \/ i = 0) ->
  get_smooth_ivar gauss s esigma ivar = Ok (map XF ivar).
Proof.
  intros Hv H. destruct (in_dec Req_EM_T v ivar) as [I|NI].
  2:{ rewrite smooth_all_masked; [|intro; apply gauss_length|].
      - f_equal. apply map_ext_in. intros i Hi. destruct (H i Hi) as [->| ->]; easy.
      - intros i Hi. destruct (H i Hi) as [->| ->]; [easy|lra]. }
  assert (NE : ivar <> []) by (now destruct ivar).
  assert (G : forall i, In i ivar -> rltb 0 i = true -> i = v).
  { intros i Hi E. apply rltb_true in E. destruct (H i Hi); [easy|lra]. }
  set (c := 1 / sqrt v). assert (SV : 0 < sqrt v) by now apply sqrt_lt_R0.
  unfold get_smooth_ivar.
  assert (MG : map (fun i => 1 / sqrt i) (filter (fun i => rltb 0 i) ivar) <> [] /\
               forall x, In x (map (fun i => 1 / sqrt i) (filter (fun i => rltb 0 i) ivar)) -> x = c).
  { split.
    - assert (In c (map (fun i => 1 / sqrt i) (filter (fun i => rltb 0 i) ivar))) as K; [|now destruct (map _ _)].
      apply in_map_iff. exists v. split; [easy|]. apply filter_In. split; [easy|]. now apply rltb_true.
    - intros x Hx. apply in_map_iff in Hx. destruct Hx as (i & <- & Hi). apply filter_In in Hi. now rewrite (G i) by apply Hi. }
  destruct MG as [MG1 MG2]. set (good := map (fun i => 1 / sqrt i) (filter (fun i => rltb 0 i) ivar)) in *.
  cbv zeta. rewrite (rmedian_const good c MG1 MG2).
  assert (xmedian (map (fun e => xabs (xsub (XF e) (XF c))) good) = XF 0) as ->.
  { rewrite (map_ext_in _ (fun _ => XF 0)).
    - rewrite <- (map_map (fun _ => 0) XF), xmedian_fin. apply rmedian_const; [now destruct good|].
      intros x Hx. apply in_map_iff in Hx. destruct Hx as (? & <- & _). easy.
    - intros e He. rewrite (MG2 e He). cbn. f_equal. rewrite Rminus_diag_eq by easy. apply Rabs_R0. }
  cbn [xscale]. rewrite !Rmult_0_r.
  rewrite (map_ext_in (fun i => if rltb 0 i then XF (1 / sqrt i) else XF c) (fun _ => XF c)).
  2:{ intros i Hi. destruct (rltb 0 i) eqn:E; [|easy]. now rewrite (G i Hi E). }
  assert (W : xgtb (xsub (XF c) (XF c)) (XF 0) = false). { cbn. apply rltb_false. lra. }
  rewrite !map_map. rewrite W.
  assert (R : map (fun _ : R => XF c) ivar = map XF (repeat c (length ivar))).
  { clear. induction ivar as [|i ivar IH]; cbn; [easy|]. now rewrite IH. }
  rewrite R, gauss_fin, flat_thm by (destruct ivar; [easy|cbn; lia]).
  rewrite map_length, repeat_length, Nat.eqb_refl. f_equal.
  clear - Hv H SV. subst c. induction ivar as [|i ivar IH]; cbn; [easy|]. f_equal.
  - destruct (H i (or_introl eq_refl)) as [->| ->].
    + replace (rltb 0 v) with true by (symmetry; now apply rltb_true). unfold xinv_sq.
      assert (1 / sqrt v <> 0). { unfold Rdiv. rewrite Rmult_1_l. apply Rinv_neq_0_compat. lra. }
      destruct (reqb (1 / sqrt v) 0) eqn:E; [apply reqb_true in E; easy|]. f_equal. rewrite <- (sqrt_sqrt v) at 3 by lra. field. lra.
    + replace (rltb 0 0) with false by (symmetry; apply rltb_false; lra). easy.
  - apply IH. intros j Hj. apply H. now right.
Qed.
