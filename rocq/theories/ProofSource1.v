(** What the steps of a run do to the pixels that were read (C72). *)
From Coq Require Import ZArith String List Bool Arith Lia Qcanon.
From Verif Require Import Num NpList NpListFacts Exn Dict Mpi ModelSpectrum ModelMasks ModelFitArgs ModelCatalog ModelIO ModelVarFit ModelFitter ModelPipeline
  SpecSpectrum SpecMasks SpecSelect SpecPixels SpecSource
  ProofCat ProofSpectrum1 ProofSpectrum2 ProofMasks ProofMasks2 ProofMasks3 ProofAttributes ProofRanks5 ProofPixels1 ProofPixels2 ProofPixels3 ProofPixels4 ProofPixels5 ProofPixels6.
Import ListNotations.
Local Open Scope nat_scope.

Section Comes.
Variable w : world.
Variable a : runargs.
(** the pixels that an arm of a spectrum of the run should be made of *)
Variable src : spec -> string -> list pixel -> Prop.
(** s is made of the pixels of a spectrum that rank r has read, each related by K *)
Definition comes (K : catrow -> pixel -> pixel -> Prop) (r : nat) (s : spec) : Prop :=
  exists b cat m s0, w_reader w false r b cat = Some m /\ In s0 m /\ s_cat s0 = s_cat s /\
    forall arm wv, dget arm (fw (s_f s)) = Some wv -> exists px, src s0 arm px /\ wv = map p_wave px /\
      forall k p, nth_error px k = Some p -> exists q, pixel_at s arm k = Some q /\ p_wave q = p_wave p /\ K (s_cat s) p q.
Lemma comes_each (K K' : catrow -> pixel -> pixel -> Prop) R r s s' : s_cat s' = s_cat s -> each_pixel R s s' ->
  (forall arm k p q q', p_wave q = p_wave p -> p_wave q' = p_wave q -> R arm k q q' -> K (s_cat s) p q -> K' (s_cat s) p q') ->
  comes K r s -> comes K' r s'.
Proof.
  intros Ec (Ew & E) H (b & cat & m & s0 & A1 & A2 & A3 & A4). exists b, cat, m, s0. split; [exact A1|]. split; [exact A2|]. split; [congruence|].
  intros arm wv. rewrite Ew. intro Hw. destruct (A4 arm wv Hw) as (px & B1 & B2 & B3). exists px. split; [exact B1|]. split; [exact B2|].
  intros k p Hp. destruct (B3 k p Hp) as (q & C1 & C2 & C3). specialize (E arm k). rewrite C1 in E.
  destruct (pixel_at s' arm k) as [q'|]; [|contradiction]. destruct E as (E1 & E2). exists q'. split; [reflexivity|]. split; [congruence|].
  rewrite Ec. exact (H arm k p q q' C2 E1 E2 C3).
Qed.

(** ** reading *)
Lemma pixel_at_maps s arm px : dget arm (fw (s_f s)) = Some (map p_wave px) -> dget arm (ff (s_f s)) = Some (map p_flux px) ->
  dget arm (fivar (s_f s)) = Some (map p_ivar px) -> forall k, pixel_at s arm k = nth_error px k.
Proof.
  intros E1 E2 E3 k. unfold pixel_at, at_pix. rewrite E1, E2, E3, !nth_error_map. destruct (nth_error px k) as [[x y z]|]; reflexivity.
Qed.
(** ** calibration *)
Lemma eta_each e s s' : ready s -> noise_eta e s = Ok s' ->
  ready s' /\ s_cat s' = s_cat s /\ each_pixel (fun _ _ p p' => p_flux p' = p_flux p /\ p_ivar p' = ndiv (p_ivar p) (e (p_wave p))) s s'.
Proof.
  intros H E. split; [exact (okall_use _ _ _ (ready_eta e s H) E)|]. pose proof (eta_cat e s) as C. unfold keeps in C. rewrite E in C. cbn in C. unfold skey in C. split; [congruence|].
  unfold noise_eta in E. destruct H as (P & _).
  destruct (ivar_loop_mapped (fun _ _ x i => ndiv i (e x)) (fun _ w iv => zip2 ndiv iv (map e w)) s P) as (f' & E' & W & F1 & F5 & Q).
  { intros arm wv iv _ L. eexists. rewrite zip2_eq by (now rewrite map_length). split; [reflexivity|].
    split; [rewrite map2_length, map_length; lia|]. intros j x i Ex Ei. rewrite nth_error_map2, nth_error_map, Ex, Ei. easy. }
  rewrite E' in E. cbn [rmap] in E. injection E as <-. refine (each_mapped _ _ _ _ _ Q). intros arm k p _. cbn [p_wave p_flux p_ivar fst snd]. split; reflexivity.
Qed.
Lemma flux_each e s s' : ready s -> flux_calibrate1 e s = Ok s' ->
  ready s' /\ s_cat s' = s_cat s /\ each_pixel (fun _ _ p p' => p_flux p' = ndiv (p_flux p) (e (p_wave p)) /\ p_ivar p' = nmul (p_ivar p) (nsq (e (p_wave p)))) s s'.
Proof.
  intros H E. split; [exact (okall_use _ _ _ (ready_flux e s H) E)|]. pose proof (flux_cat e s) as C. unfold keeps in C. rewrite E in C. cbn in C. unfold skey in C. split; [congruence|].
  unfold flux_calibrate1 in E. destruct H as (P & _).
  set (g := fun p => (ndiv (p_flux p) (e (p_wave p)), nmul (p_ivar p) (nsq (e (p_wave p))))).
  destruct (arms_loop_mapped (fun _ _ => g) (fun _ w => flux_cal_arm e w) s P) as (f' & E' & W & F1 & _ & _ & _ & F5 & _ & _ & Q).
  { intros arm wv fl iv _ _ L1 L2. exists (kernel_of g wv fl iv).
    split; [|exact (kernel_of_ok g wv fl iv L1 L2)]. unfold flux_cal_arm.
    rewrite !zip2_eq by (now rewrite map_length). cbn [rbind]. f_equal. unfold kernel_of.
    revert fl iv L1 L2. induction wv as [|x wv IH]; intros [|y fl] [|q iv]; cbn [length]; try discriminate; [easy|].
    intros L1 L2. injection L1 as L1. injection L2 as L2. pose proof (IH fl iv L1 L2) as H. injection H as I1 I2.
    cbn [map map2 pixels]. rewrite I1, I2. easy. }
  rewrite E' in E. cbn [rmap] in E. injection E as <-. refine (each_mapped _ _ _ _ _ Q). intros arm k p _. cbn [p_wave p_flux p_ivar fst snd g]. split; reflexivity.
Qed.

(** ** masks *)
Lemma zeroes_keep (D : Qc -> Prop) s s' : (forall x, D x \/ ~ D x) -> zeroes_exactly D s s' -> each_pixel (fun _ _ p p' => ~ D (p_wave p) -> p' = p) s s'.
Proof.
  intros Hd (F & H). split; [exact F|]. intros arm k. specialize (H arm k). destruct (pixel_at s arm k) as [p|]; [|now rewrite H].
  destruct H as (H1 & H2). destruct (Hd (p_wave p)) as [Q|Q].
  - rewrite (H1 Q). split; [reflexivity|]. intro C. contradiction.
  - rewrite (H2 Q). split; reflexivity.
Qed.
Variable profile : Qc -> Qc -> Qc -> Qc.
Notation pf := (fun x z h => Fin (profile x z h)).
Lemma sky_keep rows s s' : mask_apply pf (MSky (skymask_init rows)) s = Ok s' -> ready s ->
  ready s' /\ s_cat s' = s_cat s /\ each_pixel (fun _ _ p p' => ~ sky_masked rows (s_z s) (p_wave p) -> p' = p) s s'.
Proof.
  intros E H. pose proof H as (P & _ & Z). destruct (sky_spec rows s P Z) as (t & Et & Pt & Rt & Zt).
  cbn [mask_apply] in E. assert (t = s') as -> by congruence. destruct (step_ready profile (MSky (skymask_init rows)) s s' E Pt Rt H) as (Q1 & Q2).
  split; [exact Q1|]. split; [exact Q2|]. now apply zeroes_keep; [apply sky_dec|].
Qed.
Lemma bal_keep s s' : mask_apply pf MBal s = Ok s' -> ready s ->
  ready s' /\ s_cat s' = s_cat s /\ each_pixel (fun _ _ p p' => ~ bal_masked (s_cat s) (p_wave p) -> p' = p) s s'.
Proof.
  intros E H. pose proof H as (P & _ & Z).
  assert (length (c_vmin450 (s_cat s) ++ c_vmin2000 (s_cat s)) = length (c_vmax450 (s_cat s) ++ c_vmax2000 (s_cat s))) as L.
  { cbn [mask_apply] in E. unfold balmask_apply, bal_velocities, zip2 in E. destruct (Nat.eqb_spec (length (c_vmin450 (s_cat s) ++ c_vmin2000 (s_cat s))) (length (c_vmax450 (s_cat s) ++ c_vmax2000 (s_cat s)))) as [Q|Q]; [exact Q|discriminate E]. }
  destruct (bal_spec s P L) as (t & Et & Pt & Rt & Zt).
  cbn [mask_apply] in E. assert (t = s') as -> by congruence. destruct (step_ready profile MBal s s' E Pt Rt H) as (Q1 & Q2).
  split; [exact Q1|]. split; [exact Q2|]. apply zeroes_keep; [|exact Zt]. intro x. exact (bal_dec (s_cat s) x L).
Qed.
Lemma dla_keep cat ids s s' : mask_apply pf (MDla (dlamask_init cat (Some ids) (fq 8 10))) s = Ok s' -> ready s -> In (c_targetid (s_cat s)) ids ->
  ready s' /\ s_cat s' = s_cat s /\ each_pixel (fun _ _ => dla_pixel profile cat (c_targetid (s_cat s)) (s_z s) (fq 8 10)) s s'.
Proof.
  intros E H Hin. pose proof H as (P & _ & Z). destruct (dla_spec profile cat (Some ids) (fq 8 10) s P) as (t & Et & Pt & Rt & _ & Zt).
  { vm_compute. discriminate. } { intros l El. now injection El as <-. }
  cbn [mask_apply] in E. change (pflux profile) with pf in *. assert (t = s') as -> by congruence.
  destruct (step_ready profile (MDla (dlamask_init cat (Some ids) (fq 8 10))) s s' E Pt Rt H) as (Q1 & Q2). split; [exact Q1|]. split; [exact Q2|]. exact Zt.
Qed.

(** ** the steps of the selection in terms of the run *)
Variable ev : interp -> Qc -> num.
Definition flux1 (x : Qc) (f : num) : num := match r_flux a, w_flux w false 0 with true, Some i => ndiv f (ev i x) | _, _ => f end.
Definition ivar1 (x : Qc) (i : num) : num := match r_noise a, w_noise w false 0 with true, Some e => ndiv i (ev (fst e) x) | _, _ => i end.
Definition ivar2 (x : Qc) (i : num) : num := match r_flux a, w_flux w false 0 with true, Some e => nmul (ivar1 x i) (nsq (ev e x)) | _, _ => ivar1 x i end.
Definition Kcal (_ : catrow) (p q : pixel) : Prop := p_flux q = flux1 (p_wave p) (p_flux p) /\ p_ivar q = ivar2 (p_wave p) (p_ivar p).
Definition Krun (quiet : Prop) (r : nat) (c : catrow) (p q : pixel) : Prop :=
  ~ masked_in_run profile w a r c (p_wave p) ->
  p_flux q = run_flux profile ev w a c (p_wave p) (p_flux p) /\ (quiet -> p_ivar q = run_ivar profile ev w a c (p_wave p) (p_ivar p)).

Lemma masks_comes r ids s : ready s -> In (c_targetid (s_cat s)) ids -> comes Kcal r s ->
  okall (fun s' => ready s' /\ comes (Krun True r) r s') (for_each (masks_at w a r ids) (mask_apply pf) s).
Proof.
  intros H Hin Hc. unfold masks_at. rewrite !for_each_app.
  set (K1 := fun (c : catrow) (p q : pixel) => ~ masked_in_run profile w a r c (p_wave p) -> Kcal c p q).
  apply okall_bind2 with (fun s1 => ready s1 /\ s_cat s1 = s_cat s /\ comes K1 r s1).
  { assert (comes K1 r s) as Hc1.
    { destruct Hc as (b & cat & m & s0 & A1 & A2 & A3 & A4). exists b, cat, m, s0. do 3 (split; [assumption|]). intros arm wv Hw. destruct (A4 arm wv Hw) as (px & B1 & B2 & B3).
      exists px. do 2 (split; [assumption|]). intros k p Hp. destruct (B3 k p Hp) as (q & C1 & C2 & C3). exists q. do 2 (split; [assumption|]). intros _. exact C3. }
    destruct (r_sky a) eqn:Es; [|split; [exact H|]; split; [reflexivity|exact Hc1]].
    destruct (w_sky w r) as [rows|] eqn:Er; [|split; [exact H|]; split; [reflexivity|exact Hc1]].
    cbn [for_each]. destruct (mask_apply pf (MSky (skymask_init rows)) s) as [s1|] eqn:E; [|exact I]. cbn [rbind okall].
    destruct (sky_keep rows s s1 E H) as (R1 & C1 & Z1). split; [exact R1|]. split; [exact C1|].
    refine (comes_each K1 K1 _ r s s1 C1 Z1 _ Hc1). intros arm k p q q' Q1 Q2 Q3 Hk Hm. rewrite Q3; [exact (Hk Hm)|]. intro X. apply Hm. left. split; [exact Es|]. exists rows. split; [exact Er|]. rewrite <- Q1. exact X. }
  intros s1 (R1 & C1 & Z1). rewrite for_each_app. apply okall_bind2 with (fun s2 => ready s2 /\ s_cat s2 = s_cat s /\ comes K1 r s2).
  { destruct (r_bal a) eqn:Eb; [|split; [exact R1|]; split; [exact C1|exact Z1]].
    cbn [for_each]. destruct (mask_apply pf MBal s1) as [s2|] eqn:E; [|exact I]. cbn [rbind okall].
    destruct (bal_keep s1 s2 E R1) as (R2 & C2 & Z2). split; [exact R2|]. split; [congruence|].
    refine (comes_each K1 K1 _ r s1 s2 C2 Z2 _ Z1). intros arm k p q q' Q1 Q2 Q3 Hk Hm. rewrite Q3; [exact (Hk Hm)|]. intro X. apply Hm. right. left. split; [exact Eb|]. rewrite <- Q1. exact X. }
  intros s2 (R2 & C2 & Z2).
  destruct (r_dla a) eqn:Ed.
  2: { cbn [for_each okall]. split; [exact R2|]. destruct Z2 as (b & cat & m & s0 & A1 & A2 & A3 & A4). exists b, cat, m, s0. do 3 (split; [assumption|]). intros arm wv Hw. destruct (A4 arm wv Hw) as (px & B1 & B2 & B3).
    exists px. do 2 (split; [assumption|]). intros k p Hp. destruct (B3 k p Hp) as (q & D1 & D2 & D3). exists q. do 2 (split; [assumption|]). intros Hm. destruct (D3 Hm) as (F & G).
    unfold run_flux, run_ivar. rewrite Ed. split; [exact F|]. intros _. exact G. }
  destruct (w_dla w 0) as [dlas|] eqn:Ew.
  2: { cbn [for_each okall]. split; [exact R2|]. destruct Z2 as (b & cat & m & s0 & A1 & A2 & A3 & A4). exists b, cat, m, s0. do 3 (split; [assumption|]). intros arm wv Hw. destruct (A4 arm wv Hw) as (px & B1 & B2 & B3).
    exists px. do 2 (split; [assumption|]). intros k p Hp. destruct (B3 k p Hp) as (q & D1 & D2 & D3). exists q. do 2 (split; [assumption|]). intros Hm. destruct (D3 Hm) as (F & G).
    unfold run_flux, run_ivar. rewrite Ed, Ew. split; [exact F|]. intros _. exact G. }
  cbn [for_each]. destruct (mask_apply pf (MDla _) s2) as [s3|] eqn:E; [|exact I]. cbn [rbind okall].
  destruct (dla_keep dlas ids s2 s3 E R2) as (R3 & C3 & Z3); [now rewrite C2|]. split; [exact R3|].
  refine (comes_each K1 (Krun True r) _ r s2 s3 C3 Z3 _ Z2). intros arm k p q q' Q1 Q2 (_ & Q3 & Q4 & Q5) Hk Hm. destruct (Hk Hm) as (F & G). unfold Kcal in *.
  unfold run_flux, run_ivar. rewrite Ed, Ew. fold (flux1 (p_wave p) (p_flux p)). fold (ivar1 (p_wave p) (p_ivar p)). fold (ivar2 (p_wave p) (p_ivar p)). cbv zeta in *. rewrite Q1 in *. unfold s_z in *.
  destruct (qltb (p_wave p) ((1 + c_z (s_cat s2)) * fq 121567 100)) eqn:X.
  - apply qltb_true in X. destruct (Qclt_le_dec (transmission profile dlas (c_targetid (s_cat s2)) (p_wave p)) (fq 8 10)) as [L|L].
    + exfalso. apply Hm. right. right. split; [exact Ed|]. exists dlas. split; [exact Ew|]. now split.
    + destruct (Q5 X L) as (Y1 & Y2). rewrite <- F, <- G. split; [exact Y1|]. intros _. exact Y2.
  - apply qltb_false in X. rewrite (Q3 X). split; [exact F|]. intros _. exact G.
Qed.
End Comes.

Lemma cut_comes w a nsqrt r b cat m s s1 : w_reader w false r b cat = Some m -> In s m -> SpecSelect.fresh s -> cut_forest nsqrt a s = Ok s1 ->
  comes w (fun s0 arm px => forest_pixels a s0 arm = Some px) (fun _ p q => q = p) r s1.
Proof.
  intros E Hs (He & N & D & Asc) Ec. unfold cut_forest in Ec. destruct (set_forest_region nsqrt _ _ _ _ s) as [t|] eqn:Et; [|discriminate]. cbn in Ec. injection Ec as <-.
  pose proof (region_cat nsqrt (r_w1 a) (r_w2 a) (r_fw1 a) (r_fw2 a) s) as K. unfold keeps in K. rewrite Et in K. cbn in K. unfold skey in K.
  assert (s_cat t = s_cat s) as Eq by congruence.
  exists b, cat, m, s. split; [exact E|]. split; [exact Hs|]. split; [cbn [remove_nonforest_pixels s_cat]; congruence|].
  cbn [remove_nonforest_pixels s_f]. intros arm wv Hw.
  destruct (set_forest_region_spec nsqrt _ _ _ _ s t He N D Et arm) as (H & _). unfold forest_pixels.
  destruct (dget arm (s_wave s)) as [w0|] eqn:Ew; [|destruct H; congruence].
  destruct (dget arm (s_flux s)) as [fl|]; [|destruct H; congruence].
  destruct (dget arm (s_ivar s)) as [iv|]; [|destruct H; congruence].
  specialize (H (Asc _ _ Ew)). destruct H as (H1 & H2).
  match type of H1 with (exists p, In p ?l /\ _) -> _ => set (px := l) in * end.
  assert ((exists p, In p px /\ good (p_ivar p)) \/ (forall p, In p px -> ~ good (p_ivar p))) as [C|C].
  { clear. induction px as [|p l [(q & Hq & G)|IH]]; [right; intros p []|left; exists q; split; [now right|easy]|].
    destruct (nltb n0 (p_ivar p)) eqn:G; [left; exists p; split; [now left|easy]|].
    right. intros q [<-|Hq]; [unfold good; congruence|auto]. }
  2: { destruct (H2 C) as (Q & _). congruence. }
  destruct (H1 C) as (Q1 & Q2 & Q3). exists px. split; [reflexivity|]. split; [congruence|].
  intros k p Hp. exists p. split; [|split; reflexivity]. change (pixel_at t arm k = Some p). now rewrite (pixel_at_maps t arm px Q1 Q2 Q3).
Qed.
