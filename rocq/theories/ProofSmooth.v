(** Proofs about smoothing and outlier masks. *)
From Coq Require Import String Reals List Bool Arith Lia Lra Sorted Permutation.
From Verif Require Import Exn ModelSmooth SpecSmooth.
Import ListNotations.
Local Open Scope nat_scope.

Lemma rltb_true x y : rltb x y = true <-> (x < y)%R.
Proof. unfold rltb. destruct (Rlt_dec x y); split; intro; try easy. Qed.
Lemma rltb_false x y : rltb x y = false <-> ~ (x < y)%R.
Proof. unfold rltb. destruct (Rlt_dec x y); split; intro; try easy. Qed.
Lemma reqb_true x y : reqb x y = true <-> x = y.
Proof. unfold reqb. destruct (Req_EM_T x y); split; intro; try easy. Qed.
Lemma reqb_false x y : reqb x y = false <-> x <> y.
Proof. unfold reqb. destruct (Req_EM_T x y); split; intro; try easy. Qed.

Lemma rinsert_perm x l : Permutation (x :: l) (rinsert x l).
Proof.
  induction l as [|y l IH]; cbn; [easy|]. destruct (Rle_dec x y); [easy|].
  transitivity (y :: x :: l); [constructor|now constructor].
Qed.
Lemma rsort_perm l : Permutation l (rsort l).
Proof. induction l as [|x l IH]; cbn; [easy|]. transitivity (x :: rsort l); [now constructor|apply rinsert_perm]. Qed.
Lemma rinsert_sorted x l : StronglySorted Rle l -> StronglySorted Rle (rinsert x l).
Proof.
  induction l as [|y l IH]; intro H; cbn; [repeat constructor|]. inversion H as [|? ? H1 H2]; subst.
  destruct (Rle_dec x y) as [L|L].
  - constructor; [exact H|]. constructor; [exact L|]. rewrite Forall_forall in *. intros z Hz. specialize (H2 z Hz). lra.
  - constructor; [now apply IH|]. rewrite Forall_forall in *. intros z Hz.
    apply (Permutation_in z (Permutation_sym (rinsert_perm x l))) in Hz. destruct Hz as [<-|Hz]; [lra|now apply H2].
Qed.
Lemma rsort_sorted l : StronglySorted Rle (rsort l).
Proof. induction l; cbn; [constructor|now apply rinsert_sorted]. Qed.
Lemma sorted_unique l : forall s, StronglySorted Rle l -> StronglySorted Rle s -> Permutation l s -> l = s.
Proof.
  induction l as [|x l IH]; intros [|y s] H1 H2 P.
  - easy.
  - now apply Permutation_nil in P.
  - now apply Permutation_sym, Permutation_nil in P.
  - inversion H1 as [|? ? A B]; inversion H2 as [|? ? C D]; subst. rewrite Forall_forall in B, D.
    assert (x = y) as ->.
    { assert (In x (y :: s)) as I1 by (apply (Permutation_in x P); now left).
      assert (In y (x :: l)) as I2 by (apply (Permutation_in y (Permutation_sym P)); now left).
      destruct I1 as [->|I1]; [easy|]. destruct I2 as [->|I2]; [easy|]. specialize (B y I2). specialize (D x I1). lra. }
    f_equal. apply IH; auto. now apply Permutation_cons_inv in P.
Qed.

Lemma rmedian_spec l m : is_median l m <-> rmedian l = XF m.
Proof.
  unfold rmedian. pose proof (rsort_perm l) as P. pose proof (rsort_sorted l) as SS.
  pose proof (Permutation_length P) as L. split.
  - intros (s & P' & S' & H). assert (s = rsort l) as ->.
    { apply sorted_unique; auto. transitivity l; [now apply Permutation_sym|exact P]. }
    destruct H as [(k & Hk & E)|(k & a & b & Hk & Ea & Eb & ->)].
    + rewrite L, Hk. replace (2 * k + 1) with (S (2 * k)) by lia. cbn [Nat.eqb].
      replace (Nat.odd (S (2 * k))) with true by (symmetry; rewrite Nat.odd_succ, Nat.even_mul; easy).
      replace (S (2 * k) / 2) with k by (apply Nat.div_unique with 1; lia).
      f_equal. now apply nth_error_nth.
    + rewrite L, Hk. replace (2 * k + 2) with (S (S (2 * k))) by lia. cbn [Nat.eqb].
      replace (Nat.odd (S (S (2 * k)))) with false by (symmetry; rewrite Nat.odd_succ, Nat.even_succ, Nat.odd_mul; easy).
      replace (S (S (2 * k)) / 2) with (S k) by (apply Nat.div_unique with 0; lia).
      replace (S k - 1) with k by lia. f_equal. f_equal. f_equal; now apply nth_error_nth.
  - destruct (Nat.eqb_spec (length l) 0) as [|N]; [easy|]. intro E. exists (rsort l). split; [exact P|]. split; [exact SS|].
    destruct (Nat.odd (length l)) eqn:O.
    + left. apply Nat.odd_spec in O as (k & Hk). exists k. split; [now rewrite <- L|].
      rewrite Hk in E. replace ((2 * k + 1) / 2) with k in E by (apply Nat.div_unique with 1; lia).
      injection E as <-. apply nth_error_nth'. rewrite <- L. lia.
    + right. assert (Nat.even (length l) = true) as Ev by (rewrite <- Nat.negb_odd, O; easy).
      apply Nat.even_spec in Ev as (k & Hk). destruct k as [|k]; [lia|].
      rewrite Hk in E. replace (2 * S k / 2) with (S k) in E by (apply Nat.div_unique with 0; lia).
      replace (S k - 1) with k in E by lia. injection E as <-.
      exists k, (nth k (rsort l) 0%R), (nth (S k) (rsort l) 0%R). split; [rewrite <- L; lia|].
      split; [apply nth_error_nth'; rewrite <- L; lia|]. split; [apply nth_error_nth'; rewrite <- L; lia|easy].
Qed.
Lemma rmedian_some l : l <> [] -> exists m, rmedian l = XF m.
Proof.
  intro H. unfold rmedian. destruct (Nat.eqb_spec (length l) 0) as [E|E]; [now destruct l|].
  destruct (Nat.odd _); now eexists.
Qed.
Lemma xmedian_fin l : xmedian (map XF l) = rmedian l.
Proof.
  unfold xmedian.
  assert (fold_right (fun x acc => match x, acc with XF r, Some q => Some (r :: q) | _, _ => None end) (Some []) (map XF l) = Some l) as ->; [|easy].
  induction l as [|x l IH]; cbn [map fold_right]; [easy|]. now rewrite IH.
Qed.

Section Smooth.
Variable gauss : list xr -> R -> list xr.
Variables (sigma esigma : R) (ivar : list R).
Hypothesis Hlen : forall l, length (gauss l sigma) = length l.

Lemma nth_error_combine {A B} (a : list A) (b : list B) k :
  nth_error (combine a b) k = match nth_error a k, nth_error b k with Some x, Some y => Some (x, y) | _, _ => None end.
Proof.
  revert b k. induction a as [|x a IH]; intros [|y b] [|k]; cbn; try easy.
  - now destruct (nth_error a k).
Qed.

Lemma smooth_spec :
  exists out inp, get_smooth_ivar gauss sigma esigma ivar = Ok out /\ length out = length ivar /\ length inp = length ivar /\
    forall k i, nth_error ivar k = Some i ->
      (~ (0 < i)%R -> nth_error out k = Some (XF 0)) /\
      ((0 < i)%R -> forall med mad, noise_scale ivar med mad ->
         (error_outlier esigma med mad i -> nth_error out k = Some (XF i) /\ nth_error inp k = Some (XF med)) /\
         (~ error_outlier esigma med mad i -> nth_error inp k = Some (XF (/ sqrt i)) /\
            exists e, nth_error (gauss inp sigma) k = Some e /\
              (forall r, e = XF r -> r <> 0%R -> nth_error out k = Some (XF (/ (r * r)))) /\
              (e = XF 0 -> nth_error out k = Some XInf))) /\
      (~ (0 < i)%R -> forall med mad, noise_scale ivar med mad -> nth_error inp k = Some (XF med)).
Proof.
  unfold get_smooth_ivar.
  set (good := map (fun i => (1 / sqrt i)%R) (filter (fun i => rltb 0 i) ivar)).
  set (med0 := rmedian good).
  set (error := map (fun i => if rltb 0 i then XF (1 / sqrt i) else med0) ivar).
  set (mad0 := xscale (14826 / 10000) (xmedian (map (fun e => xabs (xsub (XF e) med0)) good))).
  set (out1 := fun e => xgtb (xsub e med0) (xscale esigma mad0)).
  set (inp := map (fun e => if xgtb (xsub e med0) (xscale esigma mad0) then med0 else e) error).
  assert (length inp = length ivar) as Li by (unfold inp, error; now rewrite !map_length).
  assert (length (gauss inp sigma) = length ivar) as Lg by now rewrite Hlen.
  rewrite Lg, Nat.eqb_refl. eexists. exists inp. split; [reflexivity|].
  split; [unfold error; rewrite !map_length, !combine_length, !map_length, !combine_length, !map_length, Lg; lia|]. split; [exact Li|].
  assert (forall i, (0 < i)%R -> In i ivar -> In (/ sqrt i)%R good) as Hin.
  { intros i Hi Hi'. unfold good. apply in_map_iff. exists i. split; [lra|]. apply filter_In. split; [exact Hi'|now apply rltb_true]. }
  assert (forall med mad, noise_scale ivar med mad -> med0 = XF med /\ mad0 = XF (14826 / 10000 * mad)) as Hns.
  { intros med mad (errs & E & M1 & M2).
    assert (errs = good) as ->.
    { rewrite E. unfold good. transitivity (map (fun i => (1 / sqrt i)%R) (filter (fun i => if Rlt_dec 0 i then true else false) ivar)); [|easy].
      apply map_ext. intro. lra. }
    apply rmedian_spec in M1. fold med0 in M1. split; [exact M1|]. unfold mad0. rewrite M1.
    replace (map (fun e => xabs (xsub (XF e) (XF med))) good) with (map XF (map (fun e => Rabs (e - med)) good)) by (now rewrite map_map).
    rewrite xmedian_fin. apply rmedian_spec in M2. now rewrite M2. }
  intros k i Hk.
  assert (nth_error error k = Some (if rltb 0 i then XF (1 / sqrt i) else med0)) as Ee by (unfold error; now rewrite nth_error_map, Hk).
  assert (exists g, nth_error (gauss inp sigma) k = Some g) as (g & Eg).
  { destruct (nth_error (gauss inp sigma) k) eqn:Q; [now eexists|]. apply nth_error_None in Q. rewrite Lg in Q.
    apply nth_error_None in Q. congruence. }
  match goal with |- context [map ?f (combine ivar ?r)] => set (F := f); set (restored := r) end.
  assert (nth_error restored k = Some (if out1 (if rltb 0 i then XF (1 / sqrt i) else med0) then (if rltb 0 i then XF (1 / sqrt i) else med0) else g)) as Er.
  { unfold restored. rewrite nth_error_map, !nth_error_combine, nth_error_map, Ee, Eg. reflexivity. }
  assert (nth_error (map F (combine ivar restored)) k = Some (if rltb 0 i then xinv_sq (if out1 (if rltb 0 i then XF (1 / sqrt i) else med0) then (if rltb 0 i then XF (1 / sqrt i) else med0) else g) else XF 0)) as Eo.
  { rewrite nth_error_map, nth_error_combine, Hk, Er. reflexivity. }
  assert (nth_error inp k = Some (if out1 (if rltb 0 i then XF (1 / sqrt i) else med0) then med0 else (if rltb 0 i then XF (1 / sqrt i) else med0))) as Ei.
  { unfold inp. rewrite nth_error_map, Ee. reflexivity. }
  rewrite Eo, Ei, Eg. split; [|split].
  - intro H. apply rltb_false in H. now rewrite H.
  - intros H med mad Hs. destruct (Hns med mad Hs) as [Q1 Q2]. rewrite Q1, (proj2 (rltb_true 0 i) H).
    assert (0 < sqrt i)%R as Hsq by now apply sqrt_lt_R0.
    assert (out1 (XF (1 / sqrt i)) = true <-> error_outlier esigma med mad i) as Ho.
    { unfold out1, error_outlier. rewrite Q1, Q2. cbn [xsub xscale xgtb]. rewrite rltb_true.
      replace (1 / sqrt i)%R with (/ sqrt i)%R by lra. split; [intro; split; [exact H|lra]|intros [_ Q]; lra]. }
    split.
    + intro O. apply Ho in O. rewrite O. split; [|reflexivity]. cbn [xinv_sq]. rewrite (proj2 (reqb_false _ 0)).
      * do 2 f_equal. transitivity (sqrt i * sqrt i)%R; [field; lra|apply sqrt_sqrt; lra].
      * apply Rgt_not_eq. unfold Rdiv. rewrite Rmult_1_l. now apply Rinv_0_lt_compat.
    + intro O. destruct (out1 (XF (1 / sqrt i))) eqn:Q; [exfalso; apply O; now apply Ho|].
      split; [do 2 f_equal; lra|]. exists g. split; [reflexivity|]. split.
      * intros r -> Hr. cbn [xinv_sq]. rewrite (proj2 (reqb_false r 0) Hr). do 2 f_equal. lra.
      * intros ->. cbn [xinv_sq]. now rewrite (proj2 (reqb_true 0 0) eq_refl).
  - intros H med mad Hs. destruct (Hns med mad Hs) as [Q1 _]. rewrite (proj2 (rltb_false 0 i) H), Q1. destruct (out1 (XF med)); reflexivity.
Qed.
End Smooth.

Lemma smooth_all_masked gauss sigma esigma ivar : (forall l, length (gauss l sigma) = length l) ->
  (forall i, In i ivar -> ~ (0 < i)%R) ->
  get_smooth_ivar gauss sigma esigma ivar = Ok (map (fun _ => XF 0) ivar).
Proof.
  intros Hl Hi. unfold get_smooth_ivar. rewrite Hl, !map_length, Nat.eqb_refl. f_equal.
  match goal with |- map ?f (combine ivar ?r) = _ => set (F := f); assert (length r = length ivar) as L; [|generalize dependent r] end.
  { rewrite map_length, !combine_length, Hl, !map_length. lia. }
  unfold F. clear - Hi. induction ivar as [|i l IH]; intros [|x r] L; try easy. cbn [combine map fst snd].
  rewrite (proj2 (rltb_false 0 i) (Hi i (or_introl eq_refl))). f_equal. apply IH; [|now injection L].
  intros j Hj. apply Hi. now right.
Qed.

(** ** outlier mask *)
Section Out.
Variable rm : list R -> nat -> list R.
Variables (esigma : R) (nw : nat).
Hypothesis Hrm : forall l, length (rm l nw) = length l.
Hypothesis He : (0 < esigma)%R.

Lemma put_where_nth w : forall v k b, nth_error w k = Some b ->
  length v = length (filter (fun x => x) w) ->
  nth_error (put_where w v true) k =
    (if b then nth_error v (length (filter (fun x => x) (firstn k w))) else Some true).
Proof.
  induction w as [|x w IH]; intros v k b Hk L; [now destruct k|].
  destruct k as [|k].
  - injection Hk as ->. cbn. destruct b.
    + destruct v as [|y v]; [cbn in L; discriminate|]. reflexivity.
    + destruct v; reflexivity.
  - cbn [nth_error] in Hk. cbn [firstn filter]. destruct x.
    + destruct v as [|y v]; [cbn in L; discriminate|]. cbn [put_where nth_error length]. apply IH; [exact Hk|].
      cbn in L. now injection L.
    + cbn in L. destruct v; cbn [put_where nth_error]; apply IH; auto.
Qed.
Lemma rank_nth (l : list (R * R)) : forall k p, nth_error l k = Some p -> isgood p = true ->
  nth_error (filter isgood l) (length (filter isgood (firstn k l))) = Some p.
Proof.
  induction l as [|x l IH]; intros k p Hk Hg; [now destruct k|]. destruct k as [|k].
  - injection Hk as ->. cbn. now rewrite Hg.
  - cbn [nth_error] in Hk. cbn [firstn filter]. destruct (isgood x); cbn [length nth_error]; now apply IH.
Qed.
Lemma filter_map_snd (l : list (R * R)) : length (filter (fun x => x) (map (fun i => negb (reqb i 0)) (map snd l))) = length (filter isgood l).
Proof. induction l as [|x l IH]; cbn; [easy|]. unfold isgood at 1. destruct (negb _); cbn; now rewrite IH. Qed.

Lemma threshold a i m : (0 < i)%R -> (0 <= m)%R ->
  ((1 < a * (Rmin (sqrt i) (Rmin 1 (1 / (14826 / 10000 * m + / 1000000000000))) / esigma))%R <->
   (esigma * / sqrt i < a /\ esigma < a /\ esigma * (14826 / 10000 * m + / 1000000000000) < a)%R).
Proof.
  intros Hi Hm. set (s := (14826 / 10000 * m + / 1000000000000)%R).
  assert (0 < s)%R as Hs by (unfold s; lra). assert (0 < sqrt i)%R as Hq by now apply sqrt_lt_R0.
  assert (forall t, (0 < t)%R -> ((1 < a * (t / esigma))%R <-> (esigma * / t < a)%R)) as K.
  { intros t Ht. split; intro H.
    - apply Rmult_lt_reg_r with (t / esigma)%R; [now apply Rdiv_lt_0_compat|].
      replace (esigma * / t * (t / esigma))%R with 1%R by (field; lra). exact H.
    - apply Rmult_lt_compat_r with (r := (t / esigma)%R) in H; [|now apply Rdiv_lt_0_compat].
      replace (esigma * / t * (t / esigma))%R with 1%R in H by (field; lra). exact H. }
  assert (0 < 1 / s)%R as Hs' by (now apply Rdiv_lt_0_compat; [lra|]).
  assert (forall u v, (0 < u)%R -> (0 < v)%R -> ((1 < a * (Rmin u v / esigma))%R <-> (1 < a * (u / esigma) /\ 1 < a * (v / esigma))%R)) as M.
  { intros u v Hu Hv. assert (0 < Rmin u v)%R as Huv by now apply Rmin_glb_lt.
    rewrite (K u Hu), (K v Hv), (K _ Huv). unfold Rmin. destruct (Rle_dec u v) as [L|L]; split; try tauto; intro H.
    - split; [exact H|]. apply Rle_lt_trans with (esigma * / u)%R; [|exact H].
      apply Rmult_le_compat_l; [lra|]. now apply Rinv_le_contravar.
    - split; [|exact H]. apply Rle_lt_trans with (esigma * / v)%R; [|exact H].
      apply Rmult_le_compat_l; [lra|]. apply Rinv_le_contravar; lra. }
  rewrite M; [|exact Hq|apply Rmin_glb_lt; lra]. rewrite (M 1%R (1 / s)%R) by lra.
  rewrite !K by lra. replace (/ (1 / s))%R with s by (field; lra). rewrite Rinv_1, Rmult_1_r. tauto.
Qed.

Lemma outlier_spec flux ivar : length flux = length ivar -> (forall i, In i ivar -> (0 <= i)%R) ->
  (forall l, (forall x, In x l -> (0 <= x)%R) -> forall m, In m (rm l nw) -> (0 <= m)%R) ->
  let good := filter isgood (combine flux ivar) in
  let med := rm (map fst good) nw in
  let dev := map (fun p => Rabs (fst p - snd p)) (combine (map fst good) med) in
  let mad := rm dev nw in
  length (get_median_outlier_mask rm esigma nw flux ivar) = length flux /\
  forall k f i, nth_error flux k = Some f -> nth_error ivar k = Some i ->
    exists b, nth_error (get_median_outlier_mask rm esigma nw flux ivar) k = Some b /\
     (i = 0%R -> b = true) /\
     (i <> 0%R -> let r := length (filter isgood (firstn k (combine flux ivar))) in
        exists m s, nth_error med r = Some m /\ nth_error mad r = Some s /\
        (b = true <-> (esigma * / sqrt i < Rabs (f - m) /\ esigma < Rabs (f - m) /\
                       esigma * (14826 / 10000 * s + / 1000000000000) < Rabs (f - m))%R)).
Proof.
  intros Hlen Hpos Hmad good med dev mad.
  assert (map snd (combine flux ivar) = ivar) as Es.
  { clear - Hlen. revert ivar Hlen. induction flux as [|x l IH]; intros [|y l'] L; try easy. cbn. f_equal. apply IH. now injection L. }
  unfold get_median_outlier_mask.
  change (fun p : R * R => negb (reqb (snd p) 0)) with isgood. fold good.
  set (abs_diff := absdiff (map fst good) (rm (map fst good) nw)).
  assert (abs_diff = dev) as Ed by reflexivity. rewrite Ed. fold mad.
  assert (length med = length good) as Lm by (unfold med; now rewrite Hrm, map_length).
  assert (length dev = length good) as Ld by (unfold dev; rewrite map_length, combine_length, Lm, map_length; lia).
  assert (length mad = length good) as La by (unfold mad; now rewrite Hrm).
  match goal with |- context [put_where ?w ?v true] => set (W := w); set (V := v) end.
  assert (length V = length good) as LV.
  { unfold V. rewrite map_length, combine_length, map_length, combine_length, !map_length, Ld, La. lia. }
  assert (length (filter (fun x => x) W) = length good) as LW.
  { unfold W, good. rewrite <- Es at 1. apply filter_map_snd. }
  assert (forall w v, length (put_where w v true) = length w) as Lput.
  { induction w as [|[] w IH]; intros [|y v]; cbn; auto. }
  split; [rewrite Lput; unfold W; rewrite map_length; congruence|].
  intros k f i Hf Hi.
  assert (nth_error (combine flux ivar) k = Some (f, i)) as Hc by (now rewrite nth_error_combine, Hf, Hi).
  assert (nth_error W k = Some (negb (reqb i 0))) as HW by (unfold W; now rewrite nth_error_map, Hi).
  rewrite (put_where_nth W V k _ HW) by congruence.
  destruct (reqb i 0) eqn:Q; cbn [negb].
  - apply reqb_true in Q. exists true. split; [easy|]. split; [easy|]. intro N. contradiction.
  - apply reqb_false in Q.
    assert (length (filter (fun x => x) (firstn k W)) = length (filter isgood (firstn k (combine flux ivar)))) as ->.
    { unfold W. rewrite firstn_map. rewrite <- Es at 1. rewrite firstn_map. apply filter_map_snd. }
    set (r := length (filter isgood (firstn k (combine flux ivar)))).
    assert (nth_error good r = Some (f, i)) as Hg.
    { apply rank_nth; [exact Hc|]. unfold isgood. cbn. now rewrite (proj2 (reqb_false i 0)). }
    assert (r < length good) as Hr by (apply nth_error_Some; congruence).
    assert (exists m, nth_error med r = Some m) as (m & Em).
    { rewrite <- Lm in Hr. apply nth_error_Some in Hr. destruct (nth_error med r); [now eexists|easy]. }
    assert (exists s, nth_error mad r = Some s) as (s & Esd).
    { rewrite <- La in Hr. apply nth_error_Some in Hr. destruct (nth_error mad r); [now eexists|easy]. }
    assert (nth_error dev r = Some (Rabs (f - m))) as Edv.
    { unfold dev. now rewrite nth_error_map, nth_error_combine, nth_error_map, Hg, Em. }
    assert (nth_error V r = Some (rltb 1 (Rabs (f - m) * (Rmin (sqrt i) (Rmin 1 (1 / (14826 / 10000 * s + / 1000000000000))) / esigma)))) as EV.
    { unfold V. rewrite nth_error_map, nth_error_combine, Edv, nth_error_map, nth_error_combine, nth_error_map, Hg, nth_error_map, Esd. reflexivity. }
    rewrite EV. eexists. split; [reflexivity|]. split; [intro; contradiction|]. intros _. exists m, s.
    split; [exact Em|]. split; [exact Esd|]. rewrite rltb_true. apply threshold.
    + assert (0 <= i)%R by (apply Hpos; now apply nth_error_In in Hi). lra.
    + apply (Hmad dev); [|now apply nth_error_In in Esd]. intros x Hx. unfold dev in Hx. apply in_map_iff in Hx as (q & <- & _). apply Rabs_pos.
Qed.
End Out.
