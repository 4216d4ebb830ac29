(** C46: smoothing keeps the mask.  C53: the outlier mask. *)
From Coq Require Import Reals List Bool Arith Lra Lia Sorted Permutation.
From Verif Require Import Exn ModelSmooth SpecSmooth ProofSmooth.
Import ListNotations.
Local Open Scope nat_scope.

(** ** C46 *)
(** For every result of the smoothing [gauss] of the array [inp] (the errors with masked pixels and outliers
    replaced by the median): the length is kept, masked pixels stay 0, outliers keep their ivar, all other pixels
    get the inverse square of the smoothed error, which is 0 nowhere. *)
Theorem C46_smooth : forall gauss sigma esigma ivar, (forall l, length (gauss l sigma) = length l) ->
  exists out inp, get_smooth_ivar gauss sigma esigma ivar = Ok out /\ length out = length ivar /\ length inp = length ivar /\
    forall k i, nth_error ivar k = Some i ->
      (~ (0 < i)%R -> nth_error out k = Some (XF 0)) /\
      ((0 < i)%R -> forall med mad, noise_scale ivar med mad ->
         (error_outlier esigma med mad i -> nth_error out k = Some (XF i) /\ nth_error inp k = Some (XF med)) /\
         (~ error_outlier esigma med mad i -> nth_error inp k = Some (XF (/ sqrt i)) /\
            exists e, nth_error (gauss inp sigma) k = Some e /\
              (forall r, e = XF r -> r <> 0%R -> nth_error out k = Some (XF (/ (r * r)))) /\
              (e = XF 0 -> nth_error out k = Some XInf))) /\
      (~ (0 < i)%R -> forall med mad, noise_scale ivar med mad -> nth_error inp k = Some (XF med)).
Proof. exact (fun g s e i H => smooth_spec g s e i H). Qed.
Print Assumptions C46_smooth.

(** the scale exists as soon as there is one good pixel, and is unique *)
Theorem C46_scale : forall ivar, (exists i, In i ivar /\ (0 < i)%R) ->
  exists med mad, noise_scale ivar med mad /\ forall med' mad', noise_scale ivar med' mad' -> med' = med /\ mad' = mad.
Proof.
  intros ivar (i & Hi & Hp).
  set (errs := map (fun i => (/ sqrt i)%R) (filter (fun i => if Rlt_dec 0 i then true else false) ivar)).
  assert (errs <> []) as Hne.
  { intro E. assert (In (/ sqrt i)%R errs) as K; [|now rewrite E in K].
    unfold errs. apply in_map_iff. exists i. split; [easy|]. apply filter_In. split; [easy|]. now destruct (Rlt_dec 0 i). }
  destruct (rmedian_some errs Hne) as (med & Em).
  destruct (rmedian_some (map (fun e => Rabs (e - med)) errs)) as (mad & Ea).
  { intro E. apply Hne. now destruct errs. }
  exists med, mad. split.
  - exists errs. split; [easy|]. split; now apply rmedian_spec.
  - intros med' mad' (e' & -> & M1 & M2). fold errs in M1, M2. apply rmedian_spec in M1, M2.
    assert (med' = med) as -> by congruence. split; [easy|]. congruence.
Qed.
Print Assumptions C46_scale.
(** if there is none, the result is 0 everywhere *)
Theorem C46_all_masked : forall gauss sigma esigma ivar, (forall l, length (gauss l sigma) = length l) ->
  (forall i, In i ivar -> ~ (0 < i)%R) -> get_smooth_ivar gauss sigma esigma ivar = Ok (map (fun _ => XF 0) ivar).
Proof. exact smooth_all_masked. Qed.
Print Assumptions C46_all_masked.

(** errors 1, 1, 4 (two masked pixels): the last pixel is an outlier *)
Example C46_ex : noise_scale [1; 0; 1; / 16; 0]%R 1 0 /\ error_outlier 3.5 1 0 (/ 16).
Proof.
  assert (sqrt (/ 16) = / 4)%R as S16.
  { rewrite <- (sqrt_square (/ 4)) by lra. f_equal. lra. }
  split.
  - exists [1; 1; 4]%R. split.
    + unfold errors_of. cbn [filter]. destruct (Rlt_dec 0 1); [|lra]. destruct (Rlt_dec 0 0); [lra|]. destruct (Rlt_dec 0 (/ 16)); [|lra].
      cbn [map]. rewrite S16, sqrt_1. repeat f_equal; lra.
    + split.
      * exists [1; 1; 4]%R. split; [easy|]. split; [repeat constructor; lra|]. left. exists 1. now split.
      * exists [0; 0; 3]%R. split.
        -- cbn [map]. replace (1 - 1)%R with 0%R by lra. replace (4 - 1)%R with 3%R by lra.
           rewrite Rabs_R0, (Rabs_pos_eq 3) by lra. easy.
        -- split; [repeat constructor; lra|]. left. exists 1. now split.
  - split; [lra|]. rewrite S16. lra.
Qed.

(** ** C53 *)
(** A pixel is flagged iff its ivar is zero or its deviation from the running median exceeds esigma times each of the
    pixel noise, the scaled running MAD (plus 1e-12) and 1.  Missing: without the extra 1 (refuted below). *)
Theorem C53_mask_partial : forall running_median esigma nwindow flux ivar,
  (forall l, length (running_median l nwindow) = length l) -> (0 < esigma)%R ->
  length flux = length ivar -> (forall i, In i ivar -> (0 <= i)%R) ->
  (forall l, (forall x, In x l -> (0 <= x)%R) -> forall m, In m (running_median l nwindow) -> (0 <= m)%R) ->
  let good := filter isgood (combine flux ivar) in
  let med := running_median (map fst good) nwindow in
  let dev := map (fun p => Rabs (fst p - snd p)) (combine (map fst good) med) in
  let mad := running_median dev nwindow in
  length (get_median_outlier_mask running_median esigma nwindow flux ivar) = length flux /\
  forall k f i, nth_error flux k = Some f -> nth_error ivar k = Some i ->
    exists b, nth_error (get_median_outlier_mask running_median esigma nwindow flux ivar) k = Some b /\
     (i = 0%R -> b = true) /\
     (i <> 0%R -> let r := length (filter isgood (firstn k (combine flux ivar))) in
        exists m s, nth_error med r = Some m /\ nth_error mad r = Some s /\
        (b = true <-> (esigma * / sqrt i < Rabs (f - m) /\ esigma < Rabs (f - m) /\
                       esigma * (14826 / 10000 * s + / 1000000000000) < Rabs (f - m))%R)).
Proof. exact (fun rm e n f i H He => outlier_spec rm e n H He f i). Qed.
Print Assumptions C53_mask_partial.

(** Flux 0 0 1 0 0 with noise 0.1, running median 0 and running MAD 0 (windows of 3): the deviation 1 is ten times
    the noise, but the pixel is not flagged for esigma = 3.5. *)
Theorem C53_mask_refuted : let zero := fun (l : list R) (_ : nat) => map (fun _ => 0%R) l in
  let flux := [0; 0; 1; 0; 0]%R in let ivar := [100; 100; 100; 100; 100]%R in
  (Rabs (1 - 0) > 3.5 * Rmax (/ sqrt 100) (1.4826 * 0))%R /\
  nth_error (get_median_outlier_mask zero 3.5 3 flux ivar) 2 = Some false.
Proof.
  intros zero flux ivar.
  assert (sqrt 100 = 10)%R as S100 by (rewrite <- (sqrt_square 10) by lra; f_equal; lra).
  split.
  - rewrite S100, Rmult_0_r, Rmax_left by lra. rewrite Rabs_pos_eq; lra.
  - destruct (C53_mask_partial zero 3.5 3 flux ivar) as [_ H].
    + intro l. apply map_length.
    + lra.
    + easy.
    + cbn. intros i Hi. decompose [or] Hi; try contradiction; subst i; lra.
    + intros l _ m Hm. apply in_map_iff in Hm as (? & <- & _). lra.
    + destruct (H 2 1%R 100%R eq_refl eq_refl) as (b & E & _ & K). rewrite E. destruct K as (m & s & Em & _ & K); [lra|].
      destruct b; [|easy]. destruct (proj1 K eq_refl) as (_ & K2 & _). exfalso.
      apply nth_error_In in Em. apply in_map_iff in Em as (? & <- & _). rewrite Rabs_pos_eq in K2; lra.
Qed.
Print Assumptions C53_mask_refuted.
