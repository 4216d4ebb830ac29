(** Specification vocabulary for the values in the delta files of a run (C72). *)
From Coq Require Import ZArith String List Bool Arith Qcanon.
From Verif Require Import Num NpList Exn Dict ModelSpectrum ModelMasks ModelFitter ModelDelta ModelPipeline SpecSpectrum SpecMasks SpecWeights SpecCoadd SpecPixels.
Import ListNotations.
Local Open Scope nat_scope.

(** the pixels of an arm of a spectrum, as it was read, that are in the requested
    observed range and in the forest of the quasar *)
Definition forest_pixels (a : runargs) (s0 : spec) (arm : string) : option (list pixel) :=
  match dget arm (s_wave s0), dget arm (s_flux s0), dget arm (s_ivar s0) with
  | Some wv, Some fl, Some iv =>
      Some (filter (fun p => in_forestb (s_z s0) (r_w1 a) (r_w2 a) (r_fw1 a) (r_fw2 a) (p_wave p)) (pixels wv fl iv))
  | _, _, _ => None
  end.

Section Values.
Variables (profile : Qc -> Qc -> Qc -> Qc) (ev : interp -> Qc -> num) (w : world) (a : runargs).
(** the flux that the run works with in an unmasked pixel: divided by the factor of the
    flux calibration file of rank 0, if one is given, and by the transmission of the
    DLAs of the quasar blueward of its Lya, if a DLA catalog is given *)
Definition run_flux (c : catrow) (x : Qc) (f : num) : num :=
  let f1 := match r_flux a, w_flux w false 0 with true, Some i => ndiv f (ev i x) | _, _ => f end in
  match r_dla a, w_dla w 0 with
  | true, Some dlas => if qltb x ((1 + c_z c) * fq 121567 100) then ndiv f1 (Fin (transmission profile dlas (c_targetid c) x)) else f1
  | _, _ => f1
  end.
(** and its inverse variance: divided by the eta of the noise calibration file, times
    the squares of the factors above *)
Definition run_ivar (c : catrow) (x : Qc) (i : num) : num :=
  let i1 := match r_noise a, w_noise w false 0 with true, Some e => ndiv i (ev (fst e) x) | _, _ => i end in
  let i2 := match r_flux a, w_flux w false 0 with true, Some e => nmul i1 (nsq (ev e x)) | _, _ => i1 end in
  match r_dla a, w_dla w 0 with
  | true, Some dlas =>
      if qltb x ((1 + c_z c) * fq 121567 100)
      then let T := transmission profile dlas (c_targetid c) x in nmul i2 (Fin (T * T)) else i2
  | _, _ => i2
  end.

(** the table of an HDU holds, row by row, the pixels px of the quasar c: the wavelength
    column is theirs, all columns have their length, and in each row with a pixel that
    is not masked DELTA is flux / CONT - 1 unless IVAR is zero, and, if nothing after
    the fit changes the inverse variance, IVAR is ivar CONT^2 *)
Definition table_of (masked : catrow -> Qc -> Prop) (quiet : Prop) (c : catrow) (px : list pixel) (h : hdu) : Prop :=
  exists delta ivar weight cont rest,
    map snd (h_cols h) = CWave (map p_wave px) :: CNum delta :: CNum ivar :: CNum weight :: CNum cont :: rest /\
    length delta = length px /\ length ivar = length px /\ length weight = length px /\ length cont = length px /\
    forall k p d i y, nth_error px k = Some p -> nth_error delta k = Some d -> nth_error ivar k = Some i -> nth_error cont k = Some y ->
      ~ masked c (p_wave p) ->
      (i <> n0 -> d = nsub (ndiv (run_flux c (p_wave p) (p_flux p)) y) n1) /\
      (quiet -> i = nmul (run_ivar c (p_wave p) (p_ivar p)) (nsq y)).
End Values.

(** ** Arms that are coadded before the fit *)
(** the forest pixels of the arms that have an unmasked one *)
Definition forest_arm (a : runargs) (s0 : spec) (arm : string) : list pixel :=
  match forest_pixels a s0 arm with
  | Some px => if existsb (fun p => nltb n0 (p_ivar p)) px then px else []
  | None => []
  end.
Definition forest_all (a : runargs) (s0 : spec) : list pixel := flat_map (fun aw => forest_arm a s0 (fst aw)) (s_wave s0).
(** px is the inverse variance weighted average of the pixels l on the grid that goes
    from their smallest to their largest wavelength in steps of dw *)
Definition coadded (dw : Qc) (l px : list pixel) : Prop :=
  exists mn mx, (In mn (map p_wave l) /\ forall x, In x (map p_wave l) -> (mn <= x)%Qc) /\
    (In mx (map p_wave l) /\ forall x, In x (map p_wave l) -> (x <= mx)%Qc) /\
    map p_wave px = linspace mn mx (grid_n mn mx dw) /\
    forall j p, nth_error px j = Some p ->
      let here := filter (fun q => on_pixel mn dw j (p_wave q)) l in
      let sum := qsum (map (fun q => nval (p_ivar q)) here) in
      p_ivar p = Fin sum /\
      p_flux p = Fin (if qltb 0 sum then qsum (map (fun q => nval (p_ivar q) * nval (p_flux q)) here) / sum else 0)%Qc.
(** what construction makes of the data (C24): finite fluxes and inverse variances that
    are not negative; and pixels dw apart in each arm *)
Definition clean (dw : Qc) (s0 : spec) : Prop :=
  forall arm, (forall wv, dget arm (s_wave s0) = Some wv -> uniform dw wv) /\
    (forall fl, dget arm (s_flux s0) = Some fl -> Forall (fun v => nfinite v = true) fl) /\
    (forall iv, dget arm (s_ivar s0) = Some iv -> Forall (fun v => exists q, v = Fin q /\ (0 <= q)%Qc) iv).
