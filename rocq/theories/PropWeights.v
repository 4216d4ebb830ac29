(** C31, C32, C34, C51, C52: weights, coadding of arms, redshift limits, wavelength grids
    and effective signal-to-noise.  Vocabulary: SpecSpectrum.v, SpecWeights.v, SpecCoadd.v. *)
From Coq Require Import ZArith String List Bool Arith Sorted Permutation QArith Qcanon Lia.
From Verif Require Import Num NpList Exn Dict ModelSpectrum ModelMasks ModelFitArgs SpecSpectrum SpecMasks
  SpecWeights SpecCoadd ProofWeights ProofCoadd ProofCoadd2 ProofCoadd3 ProofWeights2 PropMasks.
Import ListNotations.
Local Open Scope nat_scope.

(** ** C31 *)
Theorem C31_weights (varlss eta : Qc -> Qc) s :
  proper s -> cont_matches s -> s_valid s = true -> s_cont s <> [] ->
  (forall x, (0 < eta x)%Qc) -> (forall x, (0 <= varlss x)%Qc) ->
  exists s', set_forest_weight (fun x => Fin (varlss x)) (fun x => Fin (eta x)) s = Ok s' /\
    proper s' /\ only_weights_changed s s' /\
    forall arm k x i c,
      at_pix (fw (s_f s)) arm k = Some x -> at_pix (fivar_sm (s_f s)) arm k = Some (Fin i) -> (0 <= i)%Qc ->
      at_pix (s_cont s) arm k = Some (Fin c) ->
      exists w, at_pix (fweight (s_f s')) arm k = Some w /\ weight_rule i c (eta x) (varlss x) w.
Proof. exact (weights_thm varlss eta s). Qed.
Print Assumptions C31_weights.

Theorem C31_without_continuum varlss eta s :
  s_valid s = false \/ s_cont s = [] ->
  exists s', set_forest_weight varlss eta s = Ok s' /\ only_weights_changed s s' /\
    fweight (s_f s') = fivar_sm (s_f s).
Proof. exact (weight_fallback varlss eta s). Qed.
Print Assumptions C31_without_continuum.

Example C31_ex :
  proper (ex_forest (zq 2) 0 0) /\ cont_matches (ex_forest (zq 2) 0 0) /\
  exists s', set_forest_weight (fun _ => Fin (fq 1 2)) (fun _ => Fin (zq 2)) (ex_forest (zq 2) 0 0) = Ok s' /\
    option_map (map (fun x => this (nval x))) (dget "b" (fweight (s_f s'))) =
      Some [2 # 5; 0; 3 # 8; 1 # 4; 2 # 5]%Q.
Proof.
  split; [apply ex_proper|]. split.
  - intros arm H. unfold len_at. cbn in *. destruct (String.eqb arm "b"); [easy|]. now destruct (String.eqb arm "r").
  - eexists. split; [vm_compute; reflexivity|]. vm_compute. reflexivity.
Qed.

(** ** C32 *)
(** what coadd_arms_forest does to the data, continuum and weights of any forest *)
Theorem C32_coadd nsqrt smooth junk dw varlss eta s :
  (forall l q, length (smooth l q) = length l) -> (0 < dw)%Qc -> coaddable dw s ->
  exists s' mn mx, coadd_arms_forest nsqrt smooth junk dw varlss eta s = Ok s' /\
    smallest s mn /\ largest s mx /\ proper s' /\ s_cat s' = s_cat s /\ s_valid s' = s_valid s /\
    fw (s_f s') = [("brz"%string, linspace mn mx (grid_n mn mx dw))] /\
    (forall j, j < grid_n mn mx dw ->
       exists f i, at_pix (ff (s_f s')) "brz" j = Some (Fin f) /\ at_pix (fivar (s_f s')) "brz" j = Some (Fin i) /\
         weighted_average (landing s mn dw j) f i) /\
    (s_cont s = [] -> s_cont s' = []) /\
    (s_cont s <> [] -> exists c', s_cont s' = [("brz"%string, c')] /\ length c' = grid_n mn mx dw /\
       forall arm k x, at_pix (fw (s_f s)) arm k = Some x ->
       exists j, j < grid_n mn mx dw /\ on_pixel mn dw j x = true /\
       exists arm' k' x' c, at_pix (fw (s_f s)) arm' k' = Some x' /\ on_pixel mn dw j x' = true /\
         at_pix (s_cont s) arm' k' = Some c /\ nth_error c' j = Some c) /\
    (s_valid s = true -> s_cont s <> [] -> forall j x i c,
       at_pix (fw (s_f s')) "brz" j = Some x -> at_pix (fivar_sm (s_f s')) "brz" j = Some i ->
       at_pix (s_cont s') "brz" j = Some c ->
       at_pix (fweight (s_f s')) "brz" j = Some (weight_formula i (eta x) (varlss x) c)).
Proof. exact (coadd_thm nsqrt smooth junk dw varlss eta s). Qed.
Print Assumptions C32_coadd.

(** every pixel lands on exactly one pixel inside the array; on a common grid that is the pixel
    of its own wavelength *)
Theorem C32_lands_once s dw mn mx :
  (0 < dw)%Qc -> smallest s mn -> largest s mx ->
  forall e, In e (all_entries s) -> exists j, j < grid_n mn mx dw /\ In e (landing s mn dw j) /\
    forall j', In e (landing s mn dw j') -> j' = j.
Proof. exact (lands_once s dw mn mx). Qed.
Print Assumptions C32_lands_once.
Theorem C32_own_wavelength s dw mn mx :
  (0 < dw)%Qc -> smallest s mn -> largest s mx ->
  (forall e, In e (all_entries s) -> exists k : nat, e_wave e = (mn + zq (Z.of_nat k) * dw)%Qc) ->
  forall e, In e (all_entries s) -> exists j, j < grid_n mn mx dw /\
    nth_error (linspace mn mx (grid_n mn mx dw)) j = Some (e_wave e) /\
    In e (landing s mn dw j) /\ forall j', In e (landing s mn dw j') -> j' = j.
Proof. exact (own_wavelength s dw mn mx). Qed.
Print Assumptions C32_own_wavelength.

(** masked pixels do not contribute *)
Theorem C32_masked_pixels l f i :
  weights_ok l -> weighted_average l f i -> weighted_average (filter (fun e => qltb 0 (e_ivar e)) l) f i.
Proof. exact (masked_do_not_contribute l f i). Qed.
Print Assumptions C32_masked_pixels.

(** with ivar weights the ivars add up and the flux is the ivar-weighted mean *)
Theorem C32_ivar_weights l f i :
  weights_ok l -> ivar_weights l -> weighted_average l f i ->
  i = qsum (map e_ivar l) /\ (f * qsum (map e_ivar l) = qsum (map (fun e => e_ivar e * e_flux e) l))%Qc.
Proof. exact (ivar_average l f i). Qed.
Print Assumptions C32_ivar_weights.

Theorem C32_arm_order nsqrt smooth junk junk' dw varlss eta varlss' eta' s t :
  (forall l q, length (smooth l q) = length l) -> (0 < dw)%Qc ->
  coaddable dw s -> coaddable dw t -> Permutation (fw (s_f s)) (fw (s_f t)) ->
  (forall arm, dget arm (ff (s_f t)) = dget arm (ff (s_f s)) /\ dget arm (fivar (s_f t)) = dget arm (fivar (s_f s)) /\
     dget arm (fweight (s_f t)) = dget arm (fweight (s_f s))) ->
  exists s' t', coadd_arms_forest nsqrt smooth junk dw varlss eta s = Ok s' /\
    coadd_arms_forest nsqrt smooth junk' dw varlss' eta' t = Ok t' /\
    fw (s_f s') = fw (s_f t') /\
    (forall arm k, pixel_at s' arm k = pixel_at t' arm k).
Proof. exact (coadd_order nsqrt smooth junk junk' dw varlss eta varlss' eta' s t). Qed.
Print Assumptions C32_arm_order.

Theorem C32_single_arm nsqrt smooth junk dw varlss eta s arm w :
  (forall l q, length (smooth l q) = length l) -> (0 < dw)%Qc ->
  coaddable dw s -> fw (s_f s) = [(arm, w)] ->
  exists s', coadd_arms_forest nsqrt smooth junk dw varlss eta s = Ok s' /\
    fw (s_f s') = [("brz"%string, w)] /\
    forall k p wt, pixel_at s arm k = Some p -> at_pix (fweight (s_f s)) arm k = Some (Fin wt) ->
      ((0 < wt)%Qc -> pixel_at s' "brz" k = Some p) /\
      (wt = 0%Qc -> pixel_at s' "brz" k = Some (mkPix (p_wave p) n0 n0)).
Proof. exact (coadd_single nsqrt smooth junk dw varlss eta s arm w). Qed.
Print Assumptions C32_single_arm.

(** full spectra (simple_coadd) *)
Theorem C32_simple_coadd st s :
  s_wave s = st_wave st -> coadd_grid_fresh st ->
  NoDup (dkeys (s_wave s)) -> data_matches_grid s ->
  (forall arm w, dget arm (s_wave s) = Some w -> ascending w) ->
  all_finite (s_flux s) -> all_finite (s_ivar s) ->
  (0 < st_dwave st)%Qc -> uniform_arms (st_dwave st) (full_spectrum s) ->
  (forall e, In e (all_entries (full_spectrum s)) -> (0 <= e_ivar e)%Qc) ->
  reso_fits (full_spectrum s) ->
  let dw := st_dwave st in
  exists st' s' mn n, simple_coadd st s = Ok (st', s') /\ smallest (full_spectrum s) mn /\
    st_wave st' = st_wave st /\ s_wave s' = [("brz"%string, map (fun j => mn + zq (Z.of_nat j) * dw)%Qc (seq 0 n))] /\
    (forall e, In e (all_entries (full_spectrum s)) ->
       exists j, j < n /\ In e (landing (full_spectrum s) mn dw j) /\
         forall j', In e (landing (full_spectrum s) mn dw j') -> j' = j) /\
    forall j, j < n -> exists f i, at_pix (s_flux s') "brz" j = Some (Fin f) /\ at_pix (s_ivar s') "brz" j = Some (Fin i) /\
      let l := landing (full_spectrum s) mn dw j in
      i = qsum (map e_ivar l) /\ (f * i = qsum (map (fun e => e_ivar e * e_flux e) l))%Qc /\
      (i = 0%Qc -> f = 0%Qc).
Proof. exact (simple_coadd_spec st s). Qed.
Print Assumptions C32_simple_coadd.

(** Example: arms b 3600-3604 A and r 3604-3605 A overlap at 3604 A *)
Lemma ex_coaddable : coaddable 1 (ex_forest (zq 2) 0 0).
Proof.
  split; [apply ex_proper|].
  assert (forall x y, all_finite [("b"%string, map (fun x => Fin (zq x)) x); ("r"%string, map (fun x => Fin (zq x)) y)]) as Fi.
  { intros x y arm l. cbn. destruct (String.eqb arm "b"); [|destruct (String.eqb arm "r"); [|discriminate]];
    intro H; injection H as <-; apply Forall_map, Forall_forall; easy. }
  split; [apply Fi|]. split; [apply Fi|]. split; [apply Fi|]. split; [|split; [|split]].
  - split; [discriminate|]. intros arm w. cbn [dget fw s_f ex_forest].
    destruct (String.eqb arm "b"); [|destruct (String.eqb arm "r"); [|discriminate]]; intro H; injection H as <-;
      (split; [discriminate|]); intros k a b Ha Hb;
      do 5 (destruct k as [|k]; [cbn in Ha, Hb; first [discriminate Hb|injection Ha as <-; injection Hb as <-; apply Qc_is_canon; reflexivity]|]);
      destruct k; discriminate Hb.
  - intros e He. vm_compute in He.
    repeat (destruct He as [<-|He]; [repeat split; try (intro C; vm_compute in C; discriminate C);
      try (intros _; apply Qc_is_canon; reflexivity); try (intro C; discriminate C)|]). destruct He.
  - right. intros arm H. unfold len_at. cbn in *. destruct (String.eqb arm "b"); [easy|]. now destruct (String.eqb arm "r").
  - exists true. intros arm m [].
Qed.
Example C32_ex :
  coaddable 1 (ex_forest (zq 2) 0 0) /\
  exists s', coadd_arms_forest (fun x => x) (fun l _ => l) (fun _ => NaN) 1 (fun _ => n0) (fun _ => n1)
      (ex_forest (zq 2) 0 0) = Ok s' /\
    option_map (map this) (dget "brz" (fw (s_f s'))) = Some (map inject_Z [3600; 3601; 3602; 3603; 3604; 3605]%Z) /\
    option_map (map (fun x => this (nval x))) (dget "brz" (ff (s_f s'))) = Some [1; 0; 3; 4; 11 # 2; 7]%Q /\
    option_map (map (fun x => this (nval x))) (dget "brz" (fivar (s_f s'))) = Some [1; 0; 3; 1; 2; 2]%Q.
Proof.
  split; [apply ex_coaddable|]. eexists. split; [vm_compute; reflexivity|]. vm_compute. easy.
Qed.

(** ** C34 *)
Theorem C34_redshift_cut wave1 wave2 f1 f2 skip dwave z grid :
  (0 < f1)%Qc -> (f1 < f2)%Qc -> (0 <= skip)%Qc -> (skip <= 1)%Qc -> (0 < dwave)%Qc -> (0 < 1 + z)%Qc ->
  uniform dwave grid ->
  let '(zmin, zmax) := z_limits wave1 wave2 f1 f2 skip in
  (z < zmin)%Qc \/ (zmax < z)%Qc ->
  (zq (Z.of_nat (length (filter (in_forestb z wave1 wave2 f1 f2) grid)))
     < skip * ((1 + z) * (f2 - f1) / dwave) + 1)%Qc.
Proof. exact (z_cut_spec wave1 wave2 f1 f2 skip dwave z grid). Qed.
Print Assumptions C34_redshift_cut.

(** Example: 3600-6000 A, forest 1040-1200 A, skip 1/5: quasars below z = 2.08 and above z = 4.59 are cut *)
Example C34_ex :
  let '(zmin, zmax) := z_limits (zq 3600) (zq 6000) (zq 1040) (zq 1200) (fq 1 5) in
  (fq 207 100 < zmin)%Qc /\ (zmin < fq 209 100)%Qc /\ (fq 459 100 < zmax)%Qc /\ (zmax < fq 460 100)%Qc /\
  (* just below zmin: 84 pixels, fewer than 0.2 * 491.2 + 1 *)
  length (filter (in_forestb (fq 207 100) (zq 3600) (zq 6000) (zq 1040) (zq 1200)) (map zq (map Z.of_nat (seq 3590 200)))) = 84.
Proof. vm_compute. repeat split. Qed.

(** ** C51 *)
(** Whatever grids are passed to the constructors, all spectra built in a process use the grid of the
    first one, and the step is that of its first arm. *)
Theorem C51_shared_grid nsqrt a l st' specs :
  init_all nsqrt statics0 (a :: l) = Ok (st', specs) ->
  length specs = S (length l) /\ st_wave st' = ia_wave a /\
  (exists arm w0 w1 r rest, ia_wave a = (arm, w0 :: w1 :: r) :: rest /\ st_dwave st' = (w1 - w0)%Qc) /\
  forall s, In s specs -> s_wave s = ia_wave a.
Proof. exact (init_all_shared nsqrt a l st' specs). Qed.
Print Assumptions C51_shared_grid.

(** With check_consistency a grid without one of the arms is rejected ... *)
Theorem C51_missing_arm_partial wave st arm :
  st_wave st <> [] -> In arm (dkeys (st_wave st)) -> ~ In arm (dkeys wave) ->
  forall st', set_wave wave true st <> Ok st'.
Proof. exact (set_wave_missing wave st arm). Qed.
Print Assumptions C51_missing_arm_partial.

(** ... but every grid that has the arms is accepted, whatever its wavelengths: the stored grid is
    compared with itself. *)
Theorem C51_consistency_refuted wave st :
  st_wave st <> [] -> NoDup (dkeys (st_wave st)) ->
  (forall arm, In arm (dkeys (st_wave st)) -> In arm (dkeys wave)) -> set_wave wave true st = Ok st.
Proof. exact (set_wave_check wave st). Qed.
Print Assumptions C51_consistency_refuted.
Example C51_ex :
  exists st, set_wave [("b"%string, [zq 3600; zq 3601])] true statics0 = Ok st /\
    set_wave [("b"%string, [zq 5000; zq 7000; zq 9000])] true st = Ok st /\ st_dwave st = 1%Qc.
Proof. eexists. split; [reflexivity|]. split; [reflexivity|]. apply Qc_is_canon. reflexivity. Qed.

(** ** C52 *)
Theorem C52_bounds s m hi :
  s_msnr s = Some m -> (0 <= hi)%Qc ->
  (forall arm v, In (arm, v) m -> exists q, v = Fin q /\ (0 <= q)%Qc /\ (q <= hi)%Qc) ->
  exists r, get_effective_meansnr s = Ok (Fin r) /\ (0 <= r)%Qc /\ (r <= hi)%Qc.
Proof. exact (effective_bounds s m hi). Qed.
Print Assumptions C52_bounds.
Theorem C52_order s s' m m' :
  s_msnr s = Some m -> s_msnr s' = Some m' -> Permutation m m' ->
  (forall arm v, In (arm, v) m -> exists q, v = Fin q) ->
  get_effective_meansnr s = get_effective_meansnr s'.
Proof. exact (effective_order s s' m m'). Qed.
Print Assumptions C52_order.
Theorem C52_single_arm s arm v :
  s_msnr s = Some [(arm, Fin v)] -> (0 < v)%Qc ->
  exists r, get_effective_meansnr s = Ok (Fin r) /\ (v - fq 1 100000000 / v <= r)%Qc /\ (r < v)%Qc.
Proof. exact (effective_single s arm v). Qed.
Print Assumptions C52_single_arm.
Example C52_ex :
  option_map (fun x => this (nval x))
    (match get_effective_meansnr (set_msnr [("b"%string, Fin (zq 1)); ("r"%string, Fin (zq 3))] (ex_forest 0 0 0)) with
     | Ok r => Some r | Err _ => None end) = Some (400000000 # 142857143)%Q.
Proof. vm_compute. reflexivity. Qed.
