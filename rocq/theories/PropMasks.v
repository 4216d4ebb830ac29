(** C27-C30, C33: masks, calibrations, removal of short arms and spectra.
    Vocabulary: SpecSpectrum.v, SpecMasks.v, SpecDrop.v. *)
From Coq Require Import ZArith String List Bool Arith Sorted QArith Qcanon Lia.
From Verif Require Import Num NpList Exn Dict ModelSpectrum ModelMasks SpecSpectrum SpecMasks SpecDrop
  ProofMasks2 ProofMasks3 ProofDrop.
From Verif Require ModelInterp.
Import ListNotations.
Local Open Scope nat_scope.

(** A forest selected from a newly constructed spectrum on ascending grids meets the
    hypothesis [proper] of the theorems below, which all preserve it. *)
Theorem C27_forest_is_proper nsqrt w1 w2 lya1 lya2 s s' :
  s_f s = empty_forest -> NoDup (dkeys (s_wave s)) -> data_matches_grid s ->
  (forall arm w, dget arm (s_wave s) = Some w -> ascending w) ->
  set_forest_region nsqrt w1 w2 lya1 lya2 s = Ok s' -> proper s'.
Proof. exact (fresh_forest_proper nsqrt w1 w2 lya1 lya2 s s'). Qed.
Print Assumptions C27_forest_is_proper.

(** ** C27 *)
Theorem C27_sky_mask rows s :
  proper s -> (0 < 1 + s_z s)%Qc ->
  exists s', skymask_apply (skymask_init rows) s = Ok s' /\ proper s' /\ rest_unchanged s s' /\
    zeroes_exactly (sky_masked rows (s_z s)) s s'.
Proof. exact (sky_spec rows s). Qed.
Print Assumptions C27_sky_mask.

Theorem C27_bal_mask s :
  proper s ->
  length (c_vmin450 (s_cat s) ++ c_vmin2000 (s_cat s)) = length (c_vmax450 (s_cat s) ++ c_vmax2000 (s_cat s)) ->
  exists s', balmask_apply s = Ok s' /\ proper s' /\ rest_unchanged s s' /\
    zeroes_exactly (bal_masked (s_cat s)) s s'.
Proof. exact (bal_spec s). Qed.
Print Assumptions C27_bal_mask.

(** applying a wavelength mask again changes nothing *)
Theorem C27_sky_idempotent rows s :
  proper s -> (0 < 1 + s_z s)%Qc ->
  exists s1 s2, skymask_apply (skymask_init rows) s = Ok s1 /\
    skymask_apply (skymask_init rows) s1 = Ok s2 /\ same_pixels s1 s2.
Proof. exact (sky_idempotent rows s). Qed.
Print Assumptions C27_sky_idempotent.
Theorem C27_bal_idempotent s :
  maskable s ->
  exists s1 s2, balmask_apply s = Ok s1 /\ balmask_apply s1 = Ok s2 /\ same_pixels s1 s2.
Proof. exact (bal_idempotent s). Qed.
Print Assumptions C27_bal_idempotent.

(** the order of wavelength masks does not matter *)
Theorem C27_sky_sky_commute rows rows' s :
  maskable s ->
  exists a b c d, skymask_apply (skymask_init rows) s = Ok a /\ skymask_apply (skymask_init rows') a = Ok b /\
    skymask_apply (skymask_init rows') s = Ok c /\ skymask_apply (skymask_init rows) c = Ok d /\
    same_pixels b d.
Proof. exact (sky_sky_commute rows rows' s). Qed.
Print Assumptions C27_sky_sky_commute.
Theorem C27_sky_bal_commute rows s :
  maskable s ->
  exists a b c d, skymask_apply (skymask_init rows) s = Ok a /\ balmask_apply a = Ok b /\
    balmask_apply s = Ok c /\ skymask_apply (skymask_init rows) c = Ok d /\ same_pixels b d.
Proof. exact (sky_bal_commute rows s). Qed.
Print Assumptions C27_sky_bal_commute.

(** Example: pixels 3600 .. 3604 A in b, 3604, 3605 A in r, quasar at z = 2 *)
Definition ex_forest (z : Qc) (v1 v2 : Qc) : spec :=
  mkSpec (mkCatrow 39 7 z None [v1] [v2] [] []) [] [] [] [] n0 None
    (mkForest [("b"%string, map zq [3600; 3601; 3602; 3603; 3604]%Z); ("r"%string, map zq [3604; 3605]%Z)]
       [("b"%string, map (fun x => Fin (zq x)) [1; 2; 3; 4; 5]%Z); ("r"%string, map (fun x => Fin (zq x)) [6; 7]%Z)] []
       [[("b"%string, map (fun x => Fin (zq x)) [1; 0; 3; 1; 1]%Z); ("r"%string, map (fun x => Fin (zq x)) [1; 2]%Z)]] 0 0 0)
    0 true [] n0
    [("b"%string, map (fun x => Fin (zq x)) [1; 1; 2; 2; 1]%Z); ("r"%string, map (fun x => Fin (zq x)) [1; 2]%Z)].
Lemma ex_proper z v1 v2 : proper (ex_forest z v1 v2).
Proof.
  split; [|split; [|split; [|repeat split; cbn; lia]]].
  - intro arm. unfold len_at, fivar, fivar_sm, fweight. cbn.
    destruct (String.eqb arm "b"); [easy|]. now destruct (String.eqb arm "r").
  - cbn. repeat constructor; cbn; intuition discriminate.
  - intros arm w. cbn [dget fw s_f ex_forest]. destruct (String.eqb arm "b").
    { intro H. injection H as <-. repeat constructor. }
    destruct (String.eqb arm "r"); [|discriminate]. intro H. injection H as <-. repeat constructor.
Qed.
Lemma ex_maskable v1 v2 : maskable (ex_forest (zq 2) v1 v2).
Proof. split; [apply ex_proper|]. now split. Qed.
Definition ex_rows : list skyrow := [mkSky (zq 3601) (zq 3603) OBS; mkSky (fq 36045 30) (zq 2000) RF].
Definition shown (s : spec) (arm : string) : option (list Q) :=
  option_map (map (fun x => this (nval x))) (dget arm (fivar (s_f s))).
Example C27_ex_sky :
  exists s', skymask_apply (skymask_init ex_rows) (ex_forest (zq 2) 0 0) = Ok s' /\
    shown s' "b" = Some (map inject_Z [1; 0; 0; 1; 1]%Z) /\ shown s' "r" = Some (map inject_Z [1; 0]%Z) /\
    sky_masked ex_rows (zq 2) (zq 3602) /\ ~ sky_masked ex_rows (zq 2) (zq 3603).
Proof.
  eexists. split; [vm_compute; reflexivity|]. split; [reflexivity|]. split; [reflexivity|]. split.
  - exists (mkSky (zq 3601) (zq 3603) OBS). split; [now left|]. left. split; [easy|]. split; discriminate || reflexivity.
  - intros (r & [<-|[<-|[]]] & [(H & H1 & H2)|(H & H1 & H2)]); try discriminate H; vm_compute in H1, H2;
      try discriminate H2; now apply H1.
Qed.
(** a trough of Lya between 3601.5 A and 3603.5 A *)
Example C27_ex_bal :
  let v x := ((1 - x / (fq 12161 10 * zq 3)) * fq 299792458 1000)%Qc in
  exists s', balmask_apply (ex_forest (zq 2) (v (fq 36035 10)) (v (fq 36015 10))) = Ok s' /\
    shown s' "b" = Some (map inject_Z [1; 0; 0; 0; 1]%Z) /\ shown s' "r" = Some (map inject_Z [1; 2]%Z).
Proof. eexists. split; [vm_compute; reflexivity|]. split; reflexivity. Qed.

(** ** C28 *)
Theorem C28_dla_mask profile catalog local limit s :
  proper s -> (limit <= 1)%Qc ->
  (forall l, local = Some l -> In (c_targetid (s_cat s)) l) ->
  exists s', dlamask_apply (fun w z n => Fin (profile w z n)) (dlamask_init catalog local limit) s = Ok s' /\
    proper s' /\ rest_unchanged s s' /\
    (target_dlas catalog (c_targetid (s_cat s)) = [] -> s' = s) /\
    each_pixel (fun _ _ => dla_pixel profile catalog (c_targetid (s_cat s)) (s_z s) limit) s s'.
Proof. exact (dla_spec profile catalog local limit s). Qed.
Print Assumptions C28_dla_mask.

(** flux^2 ivar of a pixel is kept, or the pixel is masked *)
Theorem C28_signal_to_noise profile catalog tid z limit p p' :
  dla_pixel profile catalog tid z limit p p' -> (0 < limit)%Qc -> (limit <= 1)%Qc ->
  forall f i, p_flux p = Fin f -> p_ivar p = Fin i ->
  exists f' i', p_flux p' = Fin f' /\ p_ivar p' = Fin i' /\
    ((f' * f' * i' = f * f * i)%Qc \/ (f' = 0%Qc /\ i' = 0%Qc)).
Proof. exact (dla_snr_kept profile catalog tid z limit p p'). Qed.
Print Assumptions C28_signal_to_noise.

(** two DLAs of target 39 and one of target 40; transmission 1/2 or 1/10 each *)
Example C28_ex :
  exists s', dlamask_apply (fun w z n => Fin (if qltb w z then fq 1 10 else n))
      (dlamask_init [mkDla 40 (zq 3601) 0; mkDla 39 (zq 3601) (fq 1 2); mkDla 39 (zq 3602) (fq 1 2)] (Some [39%Z]) (fq 2 10))
      (ex_forest (zq 2) 0 0) = Ok s' /\
    shown s' "b" = Some [0; 0; 3 # 16; 1 # 16; 1 # 16]%Q.
Proof. eexists. split; [vm_compute; reflexivity|]. reflexivity. Qed.

(** ** C29 *)
Theorem C29_mask_sequence profile ms s :
  Forall constructed ms -> maskable s ->
  exists s', for_each ms (mask_apply (fun w z n => Fin (profile w z n))) s = Ok s' /\ maskable s' /\
    rest_unchanged s s' /\ each_pixel only_masked s s'.
Proof. exact (masks_each profile ms s). Qed.
Print Assumptions C29_mask_sequence.

Theorem C29_apply_masks profile dwave ms l :
  ms <> [] -> Forall constructed ms -> Forall maskable l ->
  exists l', apply_masks (fun w z n => Fin (profile w z n)) dwave ms l = Ok l' /\
    Forall2 (fun s s' =>
      (exists t, each_pixel only_masked s t /\ rest_unchanged s t /\ empty_arms_dropped t s') /\
      forall arm, dget arm (fw (s_f s')) <> None -> arm_alive s' arm) l l'.
Proof. exact (apply_masks_spec profile dwave ms l). Qed.
Print Assumptions C29_apply_masks.

Example C29_ex :
  Forall constructed [MSky (skymask_init [mkSky (zq 3604) (zq 3700) OBS]); MBal] /\ Forall maskable [ex_forest (zq 2) 0 0] /\
  exists s', apply_masks (fun _ _ _ => Fin 1) (zq 1) [MSky (skymask_init [mkSky (zq 3604) (zq 3700) OBS]); MBal]
      [ex_forest (zq 2) 0 0] = Ok [s'] /\
    dkeys (fw (s_f s')) = ["b"%string] /\ shown s' "b" = Some (map inject_Z [1; 0; 3; 1; 0]%Z).
Proof.
  split; [|split; [constructor; [apply ex_maskable|constructor]|]].
  - constructor; [left; eauto|]. constructor; [right; now left|constructor].
  - eexists. split; [vm_compute; reflexivity|]. split; reflexivity.
Qed.

(** ** C30 *)
Theorem C30_flux_calibration (sf : Qc -> Qc) s :
  proper s ->
  exists s', flux_calibrate1 (fun x => Fin (sf x)) s = Ok s' /\ proper s' /\ rest_unchanged s s' /\
    each_pixel (flux_calibrated sf) s s'.
Proof. exact (flux_cal_spec sf s). Qed.
Print Assumptions C30_flux_calibration.

Theorem C30_noise_eta_partial (eta : Qc -> Qc) s :
  proper s ->
  exists s', noise_eta (fun x => Fin (eta x)) s = Ok s' /\ proper s' /\ rest_unchanged s s' /\
    each_pixel (eta_calibrated eta) s s'.
Proof. exact (noise_eta_spec eta s). Qed.
Print Assumptions C30_noise_eta_partial.

Theorem C30_noise_additive (eta varlss : Qc -> Qc) s :
  proper s -> cont_matches s ->
  exists s', noise_additive (fun x => Fin (eta x)) (fun x => Fin (varlss x)) s = Ok s' /\ proper s' /\
    rest_unchanged s s' /\ each_pixel (additive_calibrated eta varlss (s_cont s)) s s'.
Proof. exact (noise_additive_spec eta varlss s). Qed.
Print Assumptions C30_noise_additive.

(** all spectra of a rank: calibrated if each has a continuum, an exception if one has none *)
Theorem C30_needs_continuum (eta varlss : Qc -> Qc) l :
  Forall proper l ->
  (Forall (fun s => s_cont s <> [] /\ cont_matches s) l ->
   exists l', noise_calibrate (fun x => Fin (eta x)) (Some (fun x => Fin (varlss x))) l = Ok l' /\
     Forall2 (fun s s' => proper s' /\ rest_unchanged s s' /\ each_pixel (additive_calibrated eta varlss (s_cont s)) s s') l l') /\
  (Exists (fun s => s_cont s = []) l ->
   exists e, noise_calibrate (fun x => Fin (eta x)) (Some (fun x => Fin (varlss x))) l = Err e).
Proof. exact (noise_apply eta varlss l). Qed.
Print Assumptions C30_needs_continuum.

(** without the additive term a table of positive eta can give a negative ivar: the
    spline through the table is negative between nodes and nothing clips the result *)
Theorem C30_eta_negative_refuted junk :
  exists c s s' p p',
    ModelInterp.cubic_init junk (zq 3600) (zq 2) neg_eta_nodes ModelInterp.NotAKnot = Ok c /\
    Forall (fun e => (0 < e)%Qc) neg_eta_nodes /\ proper s /\
    pixel_at s "b" 0 = Some p /\ good (p_ivar p) /\
    noise_eta (fun x => match ModelInterp.cubic_call c x with Some q => Fin q | None => NaN end) s = Ok s' /\
    pixel_at s' "b" 0 = Some p' /\ nltb (p_ivar p') n0 = true.
Proof. exact (neg_eta_witness junk). Qed.
Print Assumptions C30_eta_negative_refuted.

Example C30_ex :
  cont_matches (ex_forest (zq 2) 0 0) /\
  exists s', noise_additive (fun _ => Fin (zq 2)) (fun _ => Fin (fq 1 2)) (ex_forest (zq 2) 0 0) = Ok s' /\
    shown s' "b" = Some [2 # 5; 0; 3 # 8; 1 # 4; 2 # 5]%Q.
Proof.
  split.
  - intros arm. unfold len_at. cbn. destruct (String.eqb arm "b"); [easy|]. now destruct (String.eqb arm "r").
  - eexists. split; [vm_compute; reflexivity|]. reflexivity.
Qed.

(** ** C33 *)
(** an arm survives iff its good pixels exceed skip times the length of the forest;
    the surviving arms and everything else stay as they are *)
Theorem C33_drop_short_arms dwave lya1 lya2 skip s :
  proper s -> (0 <= skip * forest_pixels s dwave lya1 lya2)%Qc ->
  forall arm,
    let s' := drop_short_arms dwave lya1 lya2 skip s in
    (dget arm (fw (s_f s)) = None -> arm_state s' arm = arm_state s arm) /\
    (dget arm (fw (s_f s)) <> None ->
      ((skip * forest_pixels s dwave lya1 lya2 < arm_good_pixels s arm)%Qc -> arm_state s' arm = arm_state s arm) /\
      ((arm_good_pixels s arm <= skip * forest_pixels s dwave lya1 lya2)%Qc ->
         arm_state s' arm = (None, None, None, None, None, None, None))).
Proof. exact (drop_short_spec dwave lya1 lya2 skip s). Qed.
Print Assumptions C33_drop_short_arms.

(** spectra are kept, in order, iff their good pixels exceed skip times the length of
    the forest (all are kept if skip is 0) *)
Theorem C33_remove_short_spectra dwave lya1 lya2 skip l :
  exists keep : spec -> bool, remove_short_spectra dwave lya1 lya2 skip l = filter keep l /\
    forall s, keep s = true <-> (skip = 0%Qc \/
      (skip * forest_pixels s dwave lya1 lya2 < qsum (map good_pixels (dvals (fivar (s_f s)))))%Qc).
Proof. exact (remove_short_filter dwave lya1 lya2 skip l). Qed.
Print Assumptions C33_remove_short_spectra.

(** forest of 3 pixels in b (5 pixels, 4 good) and r (2 good): skip = 0.7 keeps b only *)
Example C33_ex :
  let s := ex_forest (zq 2) 0 0 in
  forest_pixels s (zq 1) (zq 1200) (zq 1201) = zq 3 /\
  dkeys (fw (s_f (drop_short_arms (zq 1) (zq 1200) (zq 1201) (fq 7 10) s))) = ["b"%string] /\
  length (remove_short_spectra (zq 1) (zq 1200) (zq 1201) (zq 2) [s; s]) = 0 /\
  length (remove_short_spectra (zq 1) (zq 1200) (zq 1201) (fq 19 10) [s; s]) = 2.
Proof. split; [apply Qc_is_canon; reflexivity|]. vm_compute. auto. Qed.
