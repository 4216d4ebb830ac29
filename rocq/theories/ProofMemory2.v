(** C77: the coadded spectrum and what is written, with two contents of np.empty. *)
From Coq Require Import ZArith String List Bool Arith Lia Qcanon.
From Verif Require Import Num NpList NpListFacts Exn Dict Mpi ModelSpectrum ModelDelta ModelIO SpecMemory ProofSpectrum1 ProofMemory.
Import ListNotations.
Local Open Scope nat_scope.

Definition dark (iv fl wt : arr) (c c' : arr) (k : nat) : Prop :=
  nth_error iv k = Some n0 /\ nth_error fl k = Some n0 /\ (nth_error wt k = Some n0 \/ nth_error wt k = Some NaN) /\
  exists q q', nth_error c k = Some (Fin q) /\ nth_error c' k = Some (Fin q').
Definition twin (s s' : spec) : Prop :=
  exists w fl iv wt c c', fw (s_f s) = [("brz"%string, w)] /\ ff (s_f s) = [("brz"%string, fl)] /\ fivar (s_f s) = [("brz"%string, iv)] /\
    fweight (s_f s) = [("brz"%string, wt)] /\ s_cont s = [("brz"%string, c)] /\ s' = set_cont [("brz"%string, c')] s /\ length c = length c' /\
    forall k, nth_error c k = nth_error c' k \/ dark iv fl wt c c' k.
Definition alikes (s s' : spec) : Prop := s = s' \/ twin s s'.

Lemma zero_div y : ndiv n0 y = n0 \/ ndiv n0 y = NaN.
Proof.
  destruct y as [d| | |]; cbn; auto. unfold n0. destruct (qeqb d 0) eqn:E.
  - right. now lazy.
  - left. f_equal. unfold Qcdiv. ring.
Qed.
Lemma zero_term v q q' : nmul n0 (nmul v (nsq (Fin q))) = nmul n0 (nmul v (nsq (Fin q'))).
Proof.
  assert (forall x, nmul n0 (infsgn x PInf NInf) = NaN /\ nmul n0 (infsgn x NInf PInf) = NaN) as I.
  { intro x. unfold infsgn. destruct (qeqb x 0); [now split|]. destruct (qltb 0 x); now split. }
  destruct v as [v| | |]; cbn [nmul nsq].
  - unfold n0, nsq. cbn [nmul]. f_equal. ring.
  - reflexivity.
  - unfold nsq. cbn [nmul]. now rewrite (proj1 (I (q * q)%Qc)), (proj1 (I (q' * q')%Qc)).
  - unfold nsq. cbn [nmul]. now rewrite (proj2 (I (q * q)%Qc)), (proj2 (I (q' * q')%Qc)).
Qed.
Lemma zero_times q : nmul n0 (nsq (Fin q)) = n0.
Proof. unfold n0, nsq. cbn [nmul]. f_equal. ring. Qed.

(** ** The weights *)
Lemma weight_twin vl e wave iv c c' : length c = length c' ->
  (forall k, nth_error c k = nth_error c' k \/ (nth_error iv k = Some n0 /\ exists q q', nth_error c k = Some (Fin q) /\ nth_error c' k = Some (Fin q'))) ->
  weight_arm vl e wave iv c = weight_arm vl e wave iv c'.
Proof.
  intros L H. unfold weight_arm, zip2 at 1. unfold zip2 at 4. rewrite <- L. destruct (Nat.eqb_spec (length wave) (length c)) as [Lw|]; [|reflexivity]. cbn [rbind].
  rewrite (zip2_same nmul nmul iv (map2 (fun w x => nmul (vl w) (nsq x)) wave c) (map2 (fun w x => nmul (vl w) (nsq x)) wave c')).
  - reflexivity.
  - rewrite !map2_len; congruence.
  - intros k x y y' Hx Hy Hy'. apply map2_at in Hy as (w & a & W & A & ->). apply map2_at in Hy' as (w' & a' & W' & A' & ->).
    assert (w' = w) as -> by congruence. destruct (H k) as [E|(I & q & q' & Q & Q')]; [congruence|].
    assert (x = n0) as -> by congruence. assert (a = Fin q) as -> by congruence. assert (a' = Fin q') as -> by congruence. apply zero_term.
Qed.
Lemma weight_dark vl e wave iv c wt k : weight_arm vl e wave iv c = Ok wt -> k < length iv -> nth_error iv k = Some n0 ->
  nth_error wt k = Some n0 \/ nth_error wt k = Some NaN.
Proof.
  unfold weight_arm. intros H K I. destruct (zip2 _ wave c) as [a|]; [|discriminate]. cbn [rbind] in H.
  destruct (zip2 nmul iv a) as [b|]; [|discriminate]. cbn [rbind] in H. destruct (zip2 _ wave b) as [d|]; [|discriminate]. cbn [rbind] in H.
  unfold zip2 in H. destruct (Nat.eqb_spec (length iv) (length d)) as [Ld|]; [|discriminate]. injection H as <-.
  destruct (nth_error (map2 ndiv iv d) k) as [v|] eqn:V.
  - apply map2_at in V as (x & y & X & Y & ->). assert (x = n0) as -> by congruence. destruct (zero_div y) as [->| ->]; auto.
  - apply nth_error_None in V. rewrite map2_len in V by assumption. lia.
Qed.

(** ** Coadding *)
Lemma smooth_brz smooth dw sc (s : spec) w fl iv : fw (s_f s) = [("brz"%string, w)] -> ff (s_f s) = [("brz"%string, fl)] ->
  fivar (s_f s) = [("brz"%string, iv)] -> ri (s_f s) < length (hp (s_f s)) ->
  let f := s_f (set_smooth_forestivar smooth dw sc s) in
  fw f = [("brz"%string, w)] /\ ff f = [("brz"%string, fl)] /\ fivar f = [("brz"%string, iv)] /\ rs f < length (hp f) /\ ri f < length (hp f) /\ rw f = rs f /\
  exists sm, fivar_sm f = [("brz"%string, sm)] /\ (keeps_masked smooth -> forall k, nth_error iv k = Some n0 -> nth_error sm k = Some n0).
Proof.
  intros W F I Ri. unfold set_smooth_forestivar. destruct (qleb sc 0); cbn.
  - repeat split; try assumption. exists iv. split; [exact I|auto].
  - rewrite app_length. cbn. repeat split; try assumption; try lia.
    + unfold fivar in *. cbn. now rewrite app_nth1.
    + unfold fivar in I. exists (smooth iv (sc / dw)%Qc). unfold fivar_sm, fivar. cbn.
      rewrite app_nth2 by lia. rewrite Nat.sub_diag. cbn. rewrite I. split; [reflexivity|]. intros K k Hk. now apply K.
Qed.

Section Coadd.
Variables (nsqrt : num -> num) (smooth : arr -> Qc -> arr) (dw : Qc) (vl e : Qc -> num).

(** the last steps of coadd_arms_forest *)
Definition last_steps (fl iv : arr) (s : spec) (c : dict arr) (f : forest) : res spec :=
  rbind (set_forest_weight vl e (set_smooth_forestivar smooth dw (s_sscale s) (set_cont c (set_f f s)))) (fun s3 =>
  rbind (ndot (map nsqrt iv) fl) (fun d => Ok (set_msnr [("brz"%string, ndiv d (ncount npos iv))] s3))).
Lemma last_twin fl iv s c c' f w : keeps_masked smooth ->
  fw f = [("brz"%string, w)] -> ff f = [("brz"%string, fl)] -> fivar f = [("brz"%string, iv)] -> ri f < length (hp f) ->
  length c = length c' -> 
  (forall k, nth_error c k = nth_error c' k \/
     (nth_error iv k = Some n0 /\ nth_error fl k = Some n0 /\ exists q q', nth_error c k = Some (Fin q) /\ nth_error c' k = Some (Fin q'))) ->
  same_res twin (last_steps fl iv s [("brz"%string, c)] f) (last_steps fl iv s [("brz"%string, c')] f).
Proof.
  intros KM W F I Ri L H. unfold last_steps.
  destruct (smooth_brz smooth dw (s_sscale s) (set_cont [("brz"%string, c)] (set_f f s)) w fl iv W F I Ri) as (W1 & F1 & I1 & Rs & Ri1 & Rw & sm & Sm & KS).
  specialize (KS KM).
  assert (set_smooth_forestivar smooth dw (s_sscale s) (set_cont [("brz"%string, c')] (set_f f s)) =
          set_cont [("brz"%string, c')] (set_smooth_forestivar smooth dw (s_sscale s) (set_cont [("brz"%string, c)] (set_f f s)))) as ->.
  { unfold set_smooth_forestivar. destruct (qleb (s_sscale s) 0); reflexivity. }
  assert (s_cont (set_smooth_forestivar smooth dw (s_sscale s) (set_cont [("brz"%string, c)] (set_f f s))) = [("brz"%string, c)]) as C1.
  { unfold set_smooth_forestivar. destruct (qleb (s_sscale s) 0); reflexivity. }
  set (s2 := set_smooth_forestivar smooth dw (s_sscale s) (set_cont [("brz"%string, c)] (set_f f s))) in *. clearbody s2.
  assert (forall k, nth_error c k = nth_error c' k \/ (nth_error sm k = Some n0 /\ exists q q', nth_error c k = Some (Fin q) /\ nth_error c' k = Some (Fin q'))) as Hs.
  { intro k. destruct (H k) as [E|(A & _ & B)]; [now left|right]. split; [now apply KS|assumption]. }
  set (D := ndot (map nsqrt iv) fl). clearbody D.
  unfold set_forest_weight. cbn [s_valid s_cont set_cont]. rewrite C1.
  destruct (s_valid s2) eqn:V; cbn [negb orb dtrue].
  - cbn [s_f set_cont]. rewrite W1. cbn [for_each fst snd]. rewrite Sm. unfold rget. cbn [dget]. rewrite String.eqb_refl. cbn [of_option rbind].
    rewrite <- (weight_twin vl e w sm c c' L Hs).
    destruct (weight_arm vl e w sm c) as [wt|x] eqn:Wt; [|reflexivity]. cbn [rbind for_each dset].
    destruct D as [d|]; [|reflexivity]. cbn [rbind same_res].
    exists w, fl, iv, wt, c, c'. cbn [s_f set_msnr set_f s_cont set_cont fw ff new_weight].
    split; [exact W1|]. split; [exact F1|]. split.
    { unfold fivar in *. cbn. now rewrite app_nth1. }
    split. { unfold fweight. cbn. rewrite app_nth2 by lia. now rewrite Nat.sub_diag. }
    split; [exact C1|]. split; [reflexivity|]. split; [exact L|].
    intro k. destruct (H k) as [E|(A & B & Q)]; [now left|right]. split; [exact A|]. split; [exact B|]. split; [|exact Q].
    apply (weight_dark vl e w sm c wt k Wt); [|now apply KS]. apply nth_error_Some. rewrite (KS k A). discriminate.
  - destruct D as [d|]; [|reflexivity]. cbn [rbind same_res].
    exists w, fl, iv, sm, c, c'. cbn [s_f set_msnr set_f s_cont set_cont fw ff alias_weight_to_sm].
    split; [exact W1|]. split; [exact F1|]. split; [exact I1|]. split; [exact Sm|].
    split; [exact C1|]. split; [reflexivity|]. split; [exact L|].
    intro k. destruct (H k) as [E|(A & B & Q)]; [now left|right]. split; [exact A|]. split; [exact B|]. split; [|exact Q].
    left. now apply KS.
Qed.

Lemma lands_covered mn n (d : dict (list Qc)) k :
  (exists arm idx, In (arm, idx) (dmap (map (pix_idx mn dw)) d) /\ lands n idx k) <-> covered dw mn n d k.
Proof.
  unfold covered, lands. split.
  - intros (arm & idx & I & z & Z & N). unfold dmap in I. apply in_map_iff in I as ([arm' wave] & E & I). cbn in E. injection E as -> <-.
    apply in_map_iff in Z as (w & <- & Iw). now exists arm, wave, w.
  - intros (arm & wave & w & I & Iw & N). exists arm, (map (pix_idx mn dw) wave). split.
    + unfold dmap. apply in_map_iff. exists (arm, wave). now split.
    + exists (pix_idx mn dw w). split; [now apply in_map|assumption].
Qed.
Lemma junk_apart n j j' : apart n j j' (fun _ => False) (map j (seq 0 n)) (map j' (seq 0 n)).
Proof.
  unfold apart. rewrite !map_length, !seq_length. split; [reflexivity|]. split; [reflexivity|]. intro k. rewrite !nth_error_map.
  destruct (Nat.lt_ge_cases k n) as [K|K].
  - right. rewrite (nth_error_nth' (seq 0 n) 0) by (rewrite seq_length; lia). rewrite seq_nth by assumption. cbn. auto.
  - left. assert (nth_error (seq 0 n) k = None) as -> by (apply nth_error_None; rewrite seq_length; lia). reflexivity.
Qed.

(** without a continuum np.empty is not used *)
Lemma coadd_nocont j j' s : dtrue (s_cont s) = false -> coadd_arms_forest nsqrt smooth j dw vl e s = coadd_arms_forest nsqrt smooth j' dw vl e s.
Proof. intro H. unfold coadd_arms_forest. rewrite H. reflexivity. Qed.

Lemma coadd_alikes j j' s : keeps_masked smooth -> finite j -> finite j' ->
  same_res alikes (coadd_arms_forest nsqrt smooth j dw vl e s) (coadd_arms_forest nsqrt smooth j' dw vl e s).
Proof.
  intros KM J J'. destruct (dtrue (s_cont s)) eqn:T.
  2: { rewrite (coadd_nocont j j' s T). destruct (coadd_arms_forest _ _ j' _ _ _ s); cbn; [now left|reflexivity]. }
  unfold coadd_arms_forest. rewrite T.
  destruct (rseq (map rfirst (dvals (fw (s_f s))))) as [firsts|]; [|reflexivity]. cbn [rbind].
  destruct (rseq (map rlast (dvals (fw (s_f s))))) as [lasts|]; [|reflexivity]. cbn [rbind].
  destruct (rmin firsts) as [mn|]; [|reflexivity]. cbn [rbind].
  destruct (rmax lasts) as [mx|]; [|reflexivity]. cbn [rbind].
  set (n := Z.to_nat (qtrunc ((mx - mn) / dw + fq 1 10) + 1)).
  match goal with |- context [for_each (fw (s_f s)) ?body ?init] => destruct (for_each (fw (s_f s)) body init) as [a|x] eqn:Sums end; [|reflexivity]. cbn [rbind].
  apply (sums_other (s_f s) mn dw n) in Sums as [_ Z]; [|unfold sized; cbn; rewrite repeat_length; auto].
  assert (forall k, k < n -> zero_at k (mkCo (repeat n0 n) (repeat n0 n) (repeat n0 n))) as Z0.
  { intros k K. unfold zero_at. cbn. rewrite (nth_error_nth' (repeat n0 n) n0) by (rewrite repeat_length; lia). rewrite nth_repeat. auto. }
  destruct (coadd_finish a) as [fl iv] eqn:Fin.
  pose proof (sets_apart n j j' (s_cont s) (dmap (map (pix_idx mn dw)) (fw (s_f s))) _ _ _ (junk_apart n j j')) as A.
  destruct (for_each (dmap (map (pix_idx mn dw)) (fw (s_f s))) _ (map j (seq 0 n))) as [c|x],
           (for_each (dmap (map (pix_idx mn dw)) (fw (s_f s))) _ (map j' (seq 0 n))) as [c'|x']; cbn [same_res] in A; try contradiction; cbn [rmap rbind]; [|exact A].
  destruct A as (L1 & L2 & A).
  destruct (if dtrue (fr (s_f s)) then _ else _) as [reso|x]; [|reflexivity]. cbn [rbind].
  set (f := set_fr reso _).
  change (same_res alikes (last_steps fl iv s [("brz"%string, c)] f) (last_steps fl iv s [("brz"%string, c')] f)).
  assert (same_res twin (last_steps fl iv s [("brz"%string, c)] f) (last_steps fl iv s [("brz"%string, c')] f)) as R.
  { apply last_twin with (w := linspace mn mx n); try assumption; try reflexivity.
    - unfold f, fivar. cbn. rewrite app_nth2 by lia. now rewrite Nat.sub_diag.
    - unfold f. cbn. rewrite app_length. cbn. lia.
    - congruence.
    - intro k. destruct (A k) as [E|(N & K & Q & Q')]; [now left|right].
      destruct (finish_zero a k) as [Zf Zi].
      { apply Z; [|now apply Z0]. intros (arm & wave & I & Ld). apply N. left. exists arm, (map (pix_idx mn dw) wave). split; [|assumption].
        unfold dmap. apply in_map_iff. now exists (arm, wave). }
      rewrite Fin in Zf, Zi. cbn [fst snd] in Zf, Zi. split; [exact Zi|]. split; [exact Zf|].
      destruct (J k) as [q E], (J' k) as [q' E']. exists q, q'. rewrite Q, Q', E, E'. auto. }
  destruct (last_steps fl iv s [("brz"%string, c)] f), (last_steps fl iv s [("brz"%string, c')] f); cbn [same_res] in *; try contradiction; [now right|assumption].
Qed.

(** if the arms cover all pixels of the coadd *)
Lemma coadd_covered j j' s : arms_cover dw s ->
  coadd_arms_forest nsqrt smooth j dw vl e s = coadd_arms_forest nsqrt smooth j' dw vl e s.
Proof.
  intro H. unfold arms_cover in H. destruct (dtrue (s_cont s)) eqn:T; [|now apply coadd_nocont].
  unfold coadd_arms_forest. rewrite T.
  destruct (rseq (map rfirst (dvals (fw (s_f s))))) as [firsts|]; [|reflexivity]. cbn [rbind].
  destruct (rseq (map rlast (dvals (fw (s_f s))))) as [lasts|]; [|reflexivity]. cbn [rbind].
  destruct (rmin firsts) as [mn|] eqn:Mn; [|reflexivity]. cbn [rbind].
  destruct (rmax lasts) as [mx|] eqn:Mx; [|reflexivity]. cbn [rbind].
  pose proof (fun k => H _ _ _ _ k eq_refl eq_refl Mn Mx) as H1. cbv zeta in H1. clear H. rename H1 into H.
  set (n := Z.to_nat (qtrunc ((mx - mn) / dw + fq 1 10) + 1)) in *.
  match goal with |- context [for_each (fw (s_f s)) ?body ?init] => destruct (for_each (fw (s_f s)) body init) as [a|x] end; [|reflexivity]. cbn [rbind].
  pose proof (sets_apart n j j' (s_cont s) (dmap (map (pix_idx mn dw)) (fw (s_f s))) _ _ _ (junk_apart n j j')) as A.
  destruct (for_each (dmap (map (pix_idx mn dw)) (fw (s_f s))) _ (map j (seq 0 n))) as [c|x],
           (for_each (dmap (map (pix_idx mn dw)) (fw (s_f s))) _ (map j' (seq 0 n))) as [c'|x']; cbn [same_res] in A; try contradiction; [|now rewrite A].
  destruct A as (L1 & L2 & A). assert (c = c') as ->; [|reflexivity].
  apply list_eq_nth_error. intro k. destruct (A k) as [E|(N & K & _)]; [exact E|]. exfalso. apply N. left. apply lands_covered. now apply H.
Qed.
End Coadd.

(** ** chi2 *)
Lemma zip2_case {A B C} (f : A -> B -> C) a b : zip2 f a b = if Nat.eqb (length a) (length b) then Ok (map2 f a b) else Err (OtherExn "ValueError: shapes").
Proof. reflexivity. Qed.
Lemma rget_brz {A} (x : A) : rget "brz" [("brz"%string, x)] = Ok x.
Proof. reflexivity. Qed.
Lemma chi2_alikes s s' : alikes s s' -> same_res alikes (calc_continuum_chi2 s) (calc_continuum_chi2 s').
Proof.
  intros [<-|(w & fl & iv & wt & c & c' & W & F & I & Wt & C & -> & L & H)].
  { destruct (calc_continuum_chi2 s); cbn; [now left|reflexivity]. }
  unfold calc_continuum_chi2. cbn [s_valid s_cont set_cont s_f]. rewrite C, W, F, Wt. cbn [dtrue negb]. rewrite orb_false_r.
  destruct (negb (s_valid s)).
  - cbn [same_res]. right. exists w, fl, iv, wt, c, c'. cbn. rewrite W, F, I, Wt, C. repeat split; try assumption.
  - cbn [for_each fst snd]. unfold rget. cbn [dget]. rewrite String.eqb_refl. cbn [of_option rbind]. rewrite (zip2_case _ fl c), (zip2_case _ fl c'), <- L.
    destruct (Nat.eqb_spec (length fl) (length c)) as [Lf|]; [|reflexivity]. cbn [rbind].
    unfold ndot. rewrite (zip2_same nmul nmul wt (map2 (fun x y => nsq (nsub x y)) fl c') (map2 (fun x y => nsq (nsub x y)) fl c)).
    + destruct (rmap nsum (zip2 nmul wt (map2 (fun x y => nsq (nsub x y)) fl c))) as [d|x]; [|reflexivity]. cbn [rbind same_res].
      right. exists w, fl, iv, wt, c, c'. cbn. rewrite W, F, I, Wt, C. repeat split; try assumption.
    + rewrite !map2_len; congruence.
    + intros k x y y' Hx Hy Hy'. apply map2_at in Hy as (u & a & U & A & ->). apply map2_at in Hy' as (u' & a' & U' & A' & ->).
      assert (u' = u) as -> by congruence. destruct (H k) as [E|(_ & Zf & Zw & q & q' & Q & Q')]; [congruence|].
      assert (u = n0) as -> by congruence. assert (a = Fin q') as -> by congruence. assert (a' = Fin q) as -> by congruence.
      destruct Zw as [Zw|Zw]; (assert (x = n0 \/ x = NaN) as [-> | ->] by (rewrite Hx in Zw; injection Zw; auto)); try reflexivity;
        unfold n0, nsq, nsub; cbn [nadd nneg nmul]; f_equal; ring.
Qed.

(** ** Writing *)
Lemma write_twin mr rd st s s' : (forall s c arm, mr (set_cont c s) arm = mr s arm) -> twin s s' ->
  same_res (Forall2 same_hdu) (spec_write mr rd st s) (spec_write mr rd st s').
Proof.
  intros Mr (w & fl & iv & wt & c & c' & W & F & I & Wt & C & -> & L & H). unfold spec_write. cbn [s_msnr set_cont s_f].
  destruct (s_msnr s) as [m|]; [|reflexivity]. cbn [of_option rbind]. rewrite W. cbn [for_each fst snd].
  destruct (rget "brz" m) as [snr|]; [|reflexivity]. cbn [rbind]. destruct (neqb snr n0); [cbn; constructor|].
  unfold write_arm. cbn [s_cont set_cont s_f s_cat]. rewrite Mr, C, F, I, Wt. rewrite !rget_brz. cbn [rbind].
  rewrite (zip2_case _ fl c), (zip2_case _ fl c'), <- L. destruct (Nat.eqb_spec (length fl) (length c)) as [Lf|]; [|reflexivity]. cbn [rbind].
  rewrite (zip2_same (fun i c => nmul i (nsq c)) (fun i c => nmul i (nsq c)) iv c' c);
    [|congruence|intros k x y y' Hx Hy Hy'; destruct (H k) as [E|(Zi & _ & _ & q & q' & Q & Q')]; [congruence|];
     assert (x = n0) as -> by congruence; assert (y = Fin q') as -> by congruence; assert (y' = Fin q) as -> by congruence; now rewrite !zero_times].
  destruct (zip2 (fun i c => nmul i (nsq c)) iv c) as [ivar|] eqn:Iv; [|reflexivity]. cbn [rbind].
  rewrite (zip2_same (fun i c => nmul i (nsq c)) (fun i c => nmul i (nsq c)) wt c' c);
    [|congruence|intros k x y y' Hx Hy Hy'; destruct (H k) as [E|(_ & _ & Zw & q & q' & Q & Q')]; [congruence|];
     assert (y = Fin q') as -> by congruence; assert (y' = Fin q) as -> by congruence;
     destruct Zw as [Zw|Zw]; (assert (x = n0 \/ x = NaN) as [-> | ->] by (rewrite Hx in Zw; injection Zw; auto)); try reflexivity; now rewrite !zero_times].
  destruct (zip2 (fun w c => nmul w (nsq c)) wt c) as [weight|]; [|reflexivity]. cbn [rbind].
  assert (forall k, dark iv fl wt c c' k -> nth_error ivar k = Some n0) as Dk.
  { intros k (Zi & _ & _ & q & q' & Q & _). unfold zip2 in Iv. destruct (Nat.eqb_spec (length iv) (length c)) as [Li|]; [|discriminate]. injection Iv as <-.
    destruct (nth_error (map2 (fun i c => nmul i (nsq c)) iv c) k) as [v|] eqn:V.
    - apply map2_at in V as (x & y & X & Y & ->). assert (x = n0) as -> by congruence. assert (y = Fin q) as -> by congruence. now rewrite zero_times.
    - apply nth_error_None in V. rewrite map2_len in V by assumption. assert (k < length c) by (apply nth_error_Some; congruence). lia. }
  rewrite (zip2_same (fun i d : num => if neqb i n0 then n0 else d) (fun i d : num => if neqb i n0 then n0 else d) ivar
             (map2 (fun f c => nsub (ndiv f c) n1) fl c') (map2 (fun f c => nsub (ndiv f c) n1) fl c)).
  2: rewrite !map2_len; congruence.
  2: { intros k x y y' Hx Hy Hy'. apply map2_at in Hy as (u & a & U & A & ->). apply map2_at in Hy' as (u' & a' & U' & A' & ->).
       assert (u' = u) as -> by congruence. destruct (H k) as [E|D]; [assert (a' = a) as -> by congruence; reflexivity|]. pose proof (Dk k D) as Z. assert (x = n0) as -> by congruence. reflexivity. }
  destruct (zip2 (fun i d : num => if neqb i n0 then n0 else d) ivar (map2 (fun f c => nsub (ndiv f c) n1) fl c)) as [delta|] eqn:De; [|reflexivity]. cbn [rbind].
  assert (forall k, dark iv fl wt c c' k -> nth_error delta k = Some n0) as Dd.
  { intros k D. pose proof (Dk k D) as Z. unfold zip2 in De. destruct (Nat.eqb_spec (length ivar) (length (map2 (fun f c => nsub (ndiv f c) n1) fl c))) as [Li|]; [|discriminate].
    injection De as <-. destruct (nth_error (map2 (fun i d : num => if neqb i n0 then n0 else d) ivar (map2 (fun f c => nsub (ndiv f c) n1) fl c)) k) as [v|] eqn:V.
    - apply map2_at in V as (x & y & X & Y & ->). assert (x = n0) as -> by congruence. reflexivity.
    - apply nth_error_None in V. rewrite map2_len in V by assumption. rewrite <- Li in V. assert (k < length ivar) by (apply nth_error_Some; congruence). lia. }
  assert (exists rest : res (list column), forall x,
    (if dtrue (fr (s_f s)) then rbind (mr s "brz"%string) (fun _ => rbind (rget "brz" (fr (s_f s))) (fun m0 => Ok ([CWave w; CNum delta; CNum ivar; CNum weight; CNum x] ++ [CMat m0])))
     else Ok [CWave w; CNum delta; CNum ivar; CNum weight; CNum x]) =
    rmap (fun r => CWave w :: CNum delta :: CNum ivar :: CNum weight :: CNum x :: r) rest) as [rest Rest].
  { destruct (dtrue (fr (s_f s))); [|now exists (Ok [])].
    destruct (mr s "brz"%string) as [u|x]; [|now exists (Err x)]. cbn [rbind].
    destruct (rget "brz" (fr (s_f s))) as [m0|x]; [|now exists (Err x)]. now exists (Ok [CMat m0]). }
  rewrite !Rest. destruct rest as [rest|x]; [|reflexivity]. cbn [rmap rbind]. unfold fits_table. cbn [length].
  destruct (Nat.eqb _ _); [|reflexivity]. cbn [rbind for_each same_res app]. constructor; [|constructor].
  unfold same_hdu. cbn [h_targetid h_arm h_expid h_meansnr h_blinding h_ra_dec h_cols]. do 6 (split; [reflexivity|]).
  exists (st_colnames st), w, delta, ivar, weight, c, c', rest. split; [reflexivity|]. split; [reflexivity|]. split; [exact L|].
  intro k. destruct (H k) as [E|D]; [now left|right]. auto.
Qed.
