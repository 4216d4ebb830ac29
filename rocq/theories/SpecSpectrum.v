(** Specification vocabulary for spectra, independent of the model's helpers. *)
From Coq Require Import ZArith String List Bool Arith Sorted Qcanon.
From Verif Require Import Num NpList Exn Dict ModelSpectrum ModelMasks.
Import ListNotations.
Local Open Scope nat_scope.

(** length of the array stored for an arm, None if the arm is absent *)
Definition len_at {A} (d : dict (list A)) (arm : string) : option nat :=
  option_map (@length A) (dget arm d).

(** The arms of forestwave, forestflux, forestivar, forestivar_sm and
    forestweight coincide, and the arrays of an arm have equal lengths. *)
Definition aligned (s : spec) : Prop :=
  forall arm,
    len_at (ff (s_f s)) arm = len_at (fw (s_f s)) arm /\
    len_at (fivar (s_f s)) arm = len_at (fw (s_f s)) arm /\
    len_at (fivar_sm (s_f s)) arm = len_at (fw (s_f s)) arm /\
    len_at (fweight (s_f s)) arm = len_at (fw (s_f s)) arm.

(** the data arrays read from file have the shape of the wavelength grid *)
Definition data_matches_grid (s : spec) : Prop :=
  forall arm,
    len_at (s_flux s) arm = len_at (s_wave s) arm /\
    len_at (s_ivar s) arm = len_at (s_wave s) arm.

Definition ascending (l : list Qc) : Prop := StronglySorted Qclt l.

(** ** Pixels *)
Record pixel := mkPix { p_wave : Qc; p_flux : num; p_ivar : num }.
Fixpoint pixels (w : list Qc) (f i : arr) : list pixel :=
  match w, f, i with
  | x :: w', y :: f', z :: i' => mkPix x y z :: pixels w' f' i'
  | _, _, _ => []
  end.
Definition good (i : num) : Prop := nltb n0 i = true.

(** a value as read from the file is unusable *)
Definition unusable (mask : Z) (flux ivar : num) : Prop :=
  mask <> 0%Z \/ flux = NaN \/ ivar = NaN \/ (exists q, ivar = Fin q /\ (q < 0)%Qc) \/ ivar = NInf.

(** (F', I') is (F, I) with the unusable pixels set to (0, 0) *)
Definition cleaned (F I : list num) (M : list Z) (F' I' : list num) : Prop :=
  length M = length F /\ length F = length I /\ length F' = length F /\ length I' = length I /\
  forall k f i m, nth_error F k = Some f -> nth_error I k = Some i -> nth_error M k = Some m ->
    (unusable m f i -> nth_error F' k = Some n0 /\ nth_error I' k = Some n0) /\
    (~ unusable m f i -> nth_error F' k = Some f /\ nth_error I' k = Some i).

(** raw rows of the data for one arm *)
Definition raw_row {A} (arm : string) (d : dict (list (list A))) (idx : nat) (r : list A) : Prop :=
  exists rows, dget arm d = Some rows /\ nth_error rows idx = Some r.
(** the resolution argument has a matrix for the arm (or none is given) *)
Definition reso_ok (reso : dict resoarg) (idx : nat) (arm : string) : Prop :=
  reso = [] \/ (exists m, dget arm reso = Some (Reso2 m)) \/
  (exists l m, dget arm reso = Some (Reso3 l) /\ nth_error l idx = Some m).

(** a pixel inside the requested forest region of a quasar at redshift z *)
Definition in_forestb (z w1 w2 lya1 lya2 w : Qc) : bool :=
  qleb w1 w && qleb ((1 + z) * lya1)%Qc w && qltb w w2 && qltb w ((1 + z) * lya2)%Qc.

(** ** Operations on one spectrum (the public methods, masks and calibrations;
    OSetCont is what a continuum fit does to the spectrum) *)
Section Ops.
Variable nsqrt : num -> num.
Variable smooth : arr -> Qc -> arr.
Variable dla_flux : Qc -> Qc -> Qc -> num.
Variable dwave : Qc.

Inductive op :=
| ORegion (w1 w2 lya1 lya2 : Qc)
| ORemoveNonforest
| OMask (m : masker)
| ONoiseEta (eta : Qc -> num)
| ONoiseAdd (eta varlss : Qc -> num)
| OFluxCal (sf : Qc -> num)
| OSmooth (size : Qc)
| OWeight (varlss eta : Qc -> num)
| OChi2
| OCoadd (junk : nat -> num) (varlss eta : Qc -> num)
| ODropArm (arm : string)
| ODropShort (lya1 lya2 skip : Qc)
| OSetCont (valid : bool) (cont : dict arr)
| OSlice (arm : string) (i1 i2 : nat).

Definition run_op (o : op) (s : spec) : res spec :=
  match o with
  | ORegion w1 w2 a b => set_forest_region nsqrt w1 w2 a b s
  | ORemoveNonforest => Ok (remove_nonforest_pixels s)
  | OMask m => mask_apply dla_flux m s
  | ONoiseEta eta => noise_eta eta s
  | ONoiseAdd eta vl => noise_additive eta vl s
  | OFluxCal sf => flux_calibrate1 sf s
  | OSmooth size => Ok (set_smooth_forestivar smooth dwave size s)
  | OWeight vl eta => set_forest_weight vl eta s
  | OChi2 => calc_continuum_chi2 s
  | OCoadd junk vl eta => coadd_arms_forest nsqrt smooth junk dwave vl eta s
  | ODropArm arm => Ok (drop_arm arm s)
  | ODropShort a b skip => Ok (drop_short_arms dwave a b skip s)
  | OSetCont v c => Ok (set_valid v (set_cont c s))
  | OSlice arm i1 i2 => spec_slice arm i1 i2 s
  end.
Definition run_ops (l : list op) (s : spec) : res spec := for_each l run_op s.
(** a slice that removes pixels at the start of an arm *)
Definition head_slice (o : op) : bool :=
  match o with OSlice _ i1 _ => negb (Nat.eqb i1 0) | _ => false end.
End Ops.

(** ** Looking at one pixel of the forest *)
Definition at_pix {A} (d : dict (list A)) (arm : string) (k : nat) : option A :=
  match dget arm d with Some l => nth_error l k | None => None end.
Definition pixel_at (s : spec) (arm : string) (k : nat) : option pixel :=
  match at_pix (fw (s_f s)) arm k, at_pix (ff (s_f s)) arm k, at_pix (fivar (s_f s)) arm k with
  | Some w, Some f, Some i => Some (mkPix w f i)
  | _, _, _ => None
  end.
(** s' is s with the (flux, ivar) of every pixel replaced by g(arm, k, pixel) *)
Definition pixels_mapped (g : string -> nat -> pixel -> num * num) (s s' : spec) : Prop :=
  fw (s_f s') = fw (s_f s) /\
  forall arm k, pixel_at s' arm k =
    option_map (fun p => mkPix (p_wave p) (fst (g arm k p)) (snd (g arm k p))) (pixel_at s arm k).
(** a forest whose arrays are aligned and whose wavelengths ascend *)
Definition proper (s : spec) : Prop :=
  aligned s /\ NoDup (dkeys (fw (s_f s))) /\
  (forall arm w, dget arm (fw (s_f s)) = Some w -> ascending w) /\
  ri (s_f s) < length (hp (s_f s)) /\ rs (s_f s) < length (hp (s_f s)) /\
  rw (s_f s) < length (hp (s_f s)).
