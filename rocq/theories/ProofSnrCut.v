(** The signal-to-noise ratios behind the selection (C80). *)
From Coq Require Import ZArith String List Bool Arith Lia Qcanon.
From Verif Require Import Num NpList NpListFacts Exn Dict Mpi ModelMpiUtils ModelSpectrum ModelMasks ModelBlinding
  ModelFitter ModelCatalog ModelPipeline SpecMpi SpecFinal SpecSpectrum SpecSnr SpecPipeline SpecDrop SpecSelect SpecComplete SpecSnrCut ProofMpi ProofMpi2
  ProofLock ProofSafe ProofFitter ProofFinal ProofCat ProofSelect ProofSnr ProofRanks ProofRanks2 ProofRanks4 ProofRanks6 ProofAttributes ProofPipeline ProofPipeline2 ProofComplete.
Import ListNotations.
Local Open Scope nat_scope.

(** identity and MEANSNR *)
Definition mkey (s : spec) := (skey s, s_msnr s).
Definition keepsm (s : spec) (r : res spec) : Prop := okall (fun s' => mkey s' = mkey s) r.
Lemma drop_m dw a b c s : mkey (drop_short_arms dw a b c s) = mkey s.
Proof.
  unfold drop_short_arms. match goal with |- context [fold_left _ ?l s] => generalize l end. intro l.
  revert s. induction l as [|x l IH]; intro s; [reflexivity|]. cbn. now rewrite IH.
Qed.
Lemma mask_m p m s : keepsm s (mask_apply p m s).
Proof.
  destruct m as [k| |k].
  - apply okall_rmap. reflexivity.
  - cbn [mask_apply]. unfold balmask_apply. apply okall_bind. intros [|? ?]; [reflexivity|]. apply okall_rmap. reflexivity.
  - cbn [mask_apply]. unfold dlamask_apply. destruct (nonzero _); [reflexivity|]. apply okall_bind. intro. apply okall_rmap. reflexivity.
Qed.
Lemma masks_m p dw ms s : keepsm s (apply_masks_one p dw ms s).
Proof.
  unfold apply_masks_one. apply okall_rmap2 with (fun s' => mkey s' = mkey s); [|intros s' H; now rewrite drop_m].
  apply (okall_for_each (fun s' => mkey s' = mkey s)); [|reflexivity]. intros m s1 H. pose proof (mask_m p m s1) as K. unfold keepsm in K.
  destruct (mask_apply p m s1); [cbn in *; congruence|exact I].
Qed.
Lemma all_masks_m p dw ms l l' : apply_masks p dw ms l = Ok l' -> map mkey l' = map mkey l.
Proof.
  unfold apply_masks. destruct ms as [|m ms]; [intro E; now injection E as <-|]. intro E. exact (rseq_map _ mkey l (fun s => masks_m p dw (m :: ms) s) l' E).
Qed.
Lemma in_map_key {A K} (k : A -> K) l l' x' : map k l' = map k l -> In x' l' -> exists x, In x l /\ k x' = k x.
Proof. intros E H. apply (in_map k) in H. rewrite E in H. apply in_map_iff in H as (x & Ex & Hx). now exists x. Qed.
Lemma sublist_in {A} (P : A -> Prop) l l' x : sublist_of P l l' -> In x l' -> In x l /\ P x.
Proof.
  intro H. induction H as [|y l l' Py H IH|y l l' Py H IH]; [intros []| |].
  - intros [<-|Hx]; [split; [now left|exact Py]|]. destruct (IH Hx). split; [now right|assumption].
  - intro Hx. destruct (IH Hx). split; [now right|assumption].
Qed.

Section Select.
Variable dla_flux : Qc -> Qc -> Qc -> num.
Variable ev : interp -> Qc -> num.
Variable nsqrt : num -> num.
Variable sq : Qc -> Qc.
Variable smooth : arr -> Qc -> arr.
Variable junk : nat -> num.
Variable dwave : Qc.
Variable w : world.
Variable n : nat.
Hypothesis Hn : 1 <= n.
Hypothesis root : square_root nsqrt sq.
Notation select a := (select_spectra dla_flux ev nsqrt smooth junk dwave w false a (r_exposures a) (r_coadd a)).

Lemma calibrate_m a (rd cal : nat -> list spec) : finishes n (fun r => calibrate ev w false a r (rd r)) cal ->
  forall r, r < n -> map mkey (cal r) = map mkey (rd r) /\ (r_noise a = false -> r_flux a = false -> cal r = rd r).
Proof.
  intros Hcal r Hr.
  refine (leaf_finishes n _ cal (fun r x => map mkey x = map mkey (rd r) /\ (r_noise a = false -> r_flux a = false -> x = rd r)) _ Hcal r Hr).
  intros r' _. unfold calibrate.
  apply (leaf_bind (fun l1 => map mkey l1 = map mkey (rd r') /\ (r_noise a = false -> l1 = rd r'))).
  - destruct (r_noise a); [|exact (conj eq_refl (fun _ => eq_refl))]. apply leaf_bind_any. intro i. apply leaf_res. intros l1 E1. split; [|discriminate].
    refine (rseq_map _ mkey _ (fun s => _) l1 E1). apply okall_rmap. reflexivity.
  - intros l1 (E1 & E1'). destruct (r_flux a); [|exact (conj E1 (fun N _ => E1' N))]. apply leaf_bind_any. intro i. apply leaf_res. intros l2 E2. split; [|discriminate].
    rewrite <- E1. refine (rseq_map _ mkey l1 (fun s => _) l2 E2). apply okall_rmap. reflexivity.
Qed.

Lemma raw_thm a (ms : nat -> list masker) (q : nat -> list (list row)) took :
  finishes n (fun r => select a r (ms r) (q r)) took -> r_coadd a <> Before ->
  (forall r b cat m s, w_reader w false r b cat = Some m -> In s m -> readable s) ->
  forall r s', r < n -> In s' (took r) -> exists all s s1 m,
    read_from w false r (is_before (r_exposures a)) (q r) all /\ In s all /\ same_object s s' /\
    set_forest_region nsqrt (r_w1 a) (r_w2 a) (r_fw1 a) (r_fw2 a) s = Ok s1 /\ meansnr_of sq s' s1 /\
    get_effective_meansnr s1 = Ok m /\ nleb (r_minsnr a) m = true /\
    (r_noise a = false -> r_flux a = false -> ms r = [] -> meansnr_of sq s' s').
Proof.
  intros H Hc R r s' Hr Hs. apply select_stages in H as (rd & cal & masked & Hcal & H); [|exact Hn]. destruct (H r Hr) as (Er & _ & Em & Et).
  destruct (sublist_in _ _ _ _ Et Hs) as (Hm & (_ & eff & Eeff & Hmin)).
  destruct (calibrate_m a rd cal Hcal r Hr) as (Ec & Ec').
  pose proof (all_masks_m _ _ _ _ _ Em) as Ek. rewrite Ec in Ek. destruct (in_map_key mkey _ _ _ Ek Hm) as (s2 & H2 & K2).
  assert (is_before (r_coadd a) = false) as Hb by (clear - Hc; destruct (r_coadd a); [now destruct Hc|reflexivity|reflexivity]).
  destruct (selection_thm nsqrt smooth junk dwave w a false _ _ r (q r) (rd r) (fun b cat m s E Hi => proj1 (R r b cat m s E Hi)) Er) as (all & Ha & _ & Hcut).
  specialize (Hcut Hb).
  assert (forall x, In x (rd r) -> exists s s1, In s (filter (selected a) all) /\
    set_forest_region nsqrt (r_w1 a) (r_w2 a) (r_fw1 a) (r_fw2 a) s = Ok s1 /\ x = remove_nonforest_pixels s1) as F.
  { clear - Hcut. induction Hcut as [|y y' l l' (s1 & E & ->) Hcut IH]; [intros x []|]. intros x [<-|Hx].
    - exists y, s1. split; [now left|now split].
    - destruct (IH x Hx) as (s & s2 & A & B). exists s, s2. split; [now right|exact B]. }
  assert (forall x, In x (rd r) -> exists s s1, In s all /\ set_forest_region nsqrt (r_w1 a) (r_w2 a) (r_fw1 a) (r_fw2 a) s = Ok s1 /\
    x = remove_nonforest_pixels s1 /\ same_object s x /\ meansnr_of sq x s1) as G.
  { intros x Hx. destruct (F x Hx) as (s & s1 & A & E & ->). apply filter_In in A as (A & _). exists s, s1. split; [exact A|]. split; [exact E|]. split; [reflexivity|].
    split.
    - pose proof (region_cat nsqrt (r_w1 a) (r_w2 a) (r_fw1 a) (r_fw2 a) s) as K. unfold keeps in K. rewrite E in K. cbn in K. unfold skey in K. split; cbn; congruence.
    - assert (readable s) as ((F1 & F2 & F3 & F4) & U).
      { destruct Ha as (ll & Hll & ->). clear - Hll A R. induction Hll as [|c m q0 ll E Hll IH]; [destruct A|]. cbn [concat] in A.
        apply in_app_or in A as [A|A]; [exact (R r _ c m s E A)|now apply IH]. }
      destruct (forest_snr_thm nsqrt sq _ _ _ _ s s1 root F1 F2 F3 F4 U E) as ((m & Em1 & Ek1 & P) & _). exists m. cbn [s_msnr remove_nonforest_pixels]. now split. }
  destruct (G s2 H2) as (s & s1 & A & E & Es2 & O & M). unfold mkey in K2.
  assert (s_msnr s' = s_msnr s2 /\ skey s' = skey s2) as (Ks & Kk) by (split; congruence). unfold skey in Kk.
  assert (meansnr_of sq s' s1) as M' by (unfold meansnr_of in *; now rewrite Ks).
  exists all, s, s1, eff. split; [exact Ha|]. split; [exact A|]. split; [destruct O; split; congruence|]. split; [exact E|]. split; [exact M'|].
  split; [|split; [exact Hmin|]].
  - unfold get_effective_meansnr in *. rewrite <- Eeff, Ks, Es2. reflexivity.
  - intros N1 N2 N3. specialize (Ec' N1 N2). rewrite N3 in Em. cbn [apply_masks] in Em. injection Em as Em. rewrite <- Em, Ec' in Hm.
    destruct (G s' Hm) as (s3 & s4 & _ & _ & E4 & _ & M4). revert M4. rewrite E4. easy.
Qed.
End Select.

Lemma own_thm dla_flux ev nsqrt sq smooth junk dwave w n a (maskers : nat -> list masker) (queue : nat -> list (list row)) took :
  1 <= n -> square_root nsqrt sq ->
  finishes n (fun r => select_spectra dla_flux ev nsqrt smooth junk dwave w false a (r_exposures a) (r_coadd a) r (maskers r) (queue r)) took ->
  r_coadd a <> Before -> (forall r b cat m s, w_reader w false r b cat = Some m -> In s m -> readable s) ->
  r_noise a = false -> r_flux a = false -> (forall r, maskers r = []) ->
  forall r s, r < n -> In s (took r) -> meansnr_of sq s s.
Proof.
  intros Hn root H Hc R N1 N2 N3 r s Hr Hs.
  destruct (raw_thm dla_flux ev nsqrt sq smooth junk dwave w n Hn root a maskers queue took H Hc R r s Hr Hs) as (_ & _ & _ & _ & _ & _ & _ & _ & _ & _ & _ & K).
  exact (K N1 N2 (N3 r)).
Qed.
