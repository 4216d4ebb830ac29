(** Specification vocabulary for the pixels of the delta files of a run (C71). *)
From Coq Require Import ZArith String List Bool Arith Qcanon.
From Verif Require Import Num NpList Exn Dict ModelSpectrum ModelMasks ModelDelta ModelPipeline SpecSpectrum SpecMasks.
Import ListNotations.
Local Open Scope nat_scope.

(** nothing is left of the value: zero, or nan if zero was divided by zero *)
Definition spent (v : num) : Prop := v = n0 \/ v = NaN.

(** the observed wavelength x is in the observed range and in the forest of the quasar *)
Definition in_window (a : runargs) (c : catrow) (x : Qc) : Prop :=
  (r_w1 a <= x)%Qc /\ (x < r_w2 a)%Qc /\
  ((1 + c_z c) * r_fw1 a <= x)%Qc /\ (x < (1 + c_z c) * r_fw2 a)%Qc.

(** the requested masks take the wavelength x of the quasar c out, on rank r: the
    sky mask file of the rank, the troughs of the quasar in the catalog, or the
    DLAs of the quasar in the DLA catalog (read by rank 0) leave less than 0.8 of
    the light blueward of its Lya *)
Definition masked_in_run (profile : Qc -> Qc -> Qc -> Qc) (w : world) (a : runargs) (r : nat) (c : catrow) (x : Qc) : Prop :=
  (r_sky a = true /\ exists rows, w_sky w r = Some rows /\ sky_masked rows (c_z c) x) \/
  (r_bal a = true /\ bal_masked c x) \/
  (r_dla a = true /\ exists dlas, w_dla w 0 = Some dlas /\
     (transmission profile dlas (c_targetid c) x < fq 8 10)%Qc /\ (x < (1 + c_z c) * fq 121567 100)%Qc).

(** row k of the table of an HDU of a delta file, whose first columns are LAMBDA,
    DELTA (or DELTA_BLIND), IVAR and WEIGHT: C38 is about their names *)
Definition hdu_row (h : hdu) (k : nat) (x : Qc) (delta ivar weight : num) : Prop :=
  exists ws ds ivs wts rest, map snd (h_cols h) = CWave ws :: CNum ds :: CNum ivs :: CNum wts :: rest /\
    nth_error ws k = Some x /\ nth_error ds k = Some delta /\ nth_error ivs k = Some ivar /\ nth_error wts k = Some weight.

(** a spectrum as a reader makes it, before its continuum is fitted: rows are
    complete, wavelengths ascend (SpecSelect), and it has a redshift above -1 *)
Definition unread (s : spec) : Prop := (0 < 1 + s_z s)%Qc /\ s_valid s = false /\ s_sscale s = 0%Qc.

(** the wavelengths of all arms are on one grid of step dw *)
Definition one_grid (dw : Qc) (s : spec) : Prop :=
  exists x0, forall arm wv x, dget arm (s_wave s) = Some wv -> In x wv -> exists k, x = (x0 + zq k * dw)%Qc.
