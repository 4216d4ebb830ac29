(** Specification vocabulary for masks and calibrations (C27-C30). *)
From Coq Require Import ZArith String List Bool Arith Sorted Qcanon.
From Verif Require Import Num NpList Exn Dict ModelSpectrum ModelMasks SpecSpectrum.
Import ListNotations.
Local Open Scope nat_scope.

(** the same wavelengths and the same flux and ivar in every pixel *)
Definition same_pixels (s t : spec) : Prop :=
  fw (s_f t) = fw (s_f s) /\ forall arm k, pixel_at t arm k = pixel_at s arm k.

(** flux = ivar = 0 exactly for the pixels whose wavelength is [masked]; nothing
    else is changed *)
Definition zeroes_exactly (masked : Qc -> Prop) (s s' : spec) : Prop :=
  fw (s_f s') = fw (s_f s) /\
  forall arm k,
    match pixel_at s arm k with
    | None => pixel_at s' arm k = None
    | Some p => (masked (p_wave p) -> pixel_at s' arm k = Some (mkPix (p_wave p) n0 n0)) /\
                (~ masked (p_wave p) -> pixel_at s' arm k = Some p)
    end.

(** everything but the forest flux and ivar is as before *)
Definition rest_unchanged (s s' : spec) : Prop :=
  s_cat s' = s_cat s /\ s_wave s' = s_wave s /\ s_flux s' = s_flux s /\ s_ivar s' = s_ivar s /\
  s_reso s' = s_reso s /\ s_cont s' = s_cont s /\ s_valid s' = s_valid s /\
  fr (s_f s') = fr (s_f s).

(** x lies in an interval of the sky mask file, in the frame the file gives *)
Definition sky_masked (rows : list skyrow) (z x : Qc) : Prop :=
  exists r, In r rows /\
    ((sk_frame r = OBS /\ (sk_min r <= x)%Qc /\ (x < sk_max r)%Qc) \/
     (sk_frame r = RF /\ (sk_min r <= x / (1 + z))%Qc /\ (x / (1 + z) < sk_max r)%Qc)).

(** the lines whose broad absorption is masked, in Angstrom: CIV, SiIV (2), NV, Lya,
    CIII, PV (2), SIV (2), OIV, OVI, OI, Lyb, Ly3, CIII, NIII, Ly4 *)
Definition bal_line_table : list Qc :=
  [zq 1549; zq 1403; zq 1394; fq 124081 100; fq 12161 10; zq 1175; zq 1128; zq 1117; zq 1074;
   zq 1062; zq 1031; zq 1037; zq 1039; fq 10257 10; fq 9725 10; zq 977; fq 9899 10; fq 9497 10].
(** x is between the velocities vmin and vmax (km/s, both positive) of a catalogued
    trough, blueward of a line of the table in the quasar frame *)
Definition bal_masked (c : catrow) (x : Qc) : Prop :=
  exists vmin vmax line,
    In (vmin, vmax) (combine (c_vmin450 c ++ c_vmin2000 c) (c_vmax450 c ++ c_vmax2000 c)) /\
    (0 < vmin)%Qc /\ (0 < vmax)%Qc /\ In line bal_line_table /\
    let at_v v := (line * (1 + c_z c) * (1 - v / fq 299792458 1000))%Qc in
    ((at_v vmax <= x)%Qc /\ (x < at_v vmin)%Qc) \/ ((at_v vmin <= x)%Qc /\ (x < at_v vmax)%Qc).

(** product of the transmissions of the catalogued DLAs of a target *)
Definition qprod (l : list Qc) : Qc := fold_right Qcmult 1%Qc l.
Definition target_dlas (catalog : list dla) (tid : Z) : list dla :=
  filter (fun d => Z.eqb (d_tid d) tid) catalog.
Definition transmission (profile : Qc -> Qc -> Qc -> Qc) (catalog : list dla) (tid : Z) (x : Qc) : Qc :=
  qprod (map (fun d => profile x (d_z d) (d_nhi d)) (target_dlas catalog tid)).

(** what the DLA mask does to one pixel *)
Definition dla_pixel (profile : Qc -> Qc -> Qc -> Qc) (catalog : list dla) (tid : Z) (z limit : Qc)
  (p p' : pixel) : Prop :=
  let T := transmission profile catalog tid (p_wave p) in
  p_wave p' = p_wave p /\
  (((1 + z) * fq 121567 100 <= p_wave p)%Qc -> p' = p) /\
  ((p_wave p < (1 + z) * fq 121567 100)%Qc -> (T < limit)%Qc -> p_flux p' = n0 /\ p_ivar p' = n0) /\
  ((p_wave p < (1 + z) * fq 121567 100)%Qc -> (limit <= T)%Qc ->
     p_flux p' = ndiv (p_flux p) (Fin T) /\ p_ivar p' = nmul (p_ivar p) (Fin (T * T))).

(** pixel-by-pixel relation between two states of a spectrum *)
Definition each_pixel (R : string -> nat -> pixel -> pixel -> Prop) (s s' : spec) : Prop :=
  fw (s_f s') = fw (s_f s) /\
  forall arm k,
    match pixel_at s arm k, pixel_at s' arm k with
    | Some p, Some p' => p_wave p' = p_wave p /\ R arm k p p'
    | None, None => True
    | _, _ => False
    end.

(** a mask object built by one of the constructors of masks.py *)
Definition constructed (m : masker) : Prop :=
  (exists rows, m = MSky (skymask_init rows)) \/ m = MBal \/
  (exists catalog local limit, m = MDla (dlamask_init catalog local limit)).
(** the columns of the BAL troughs have equal lengths, and the redshift is physical *)
Definition maskable (s : spec) : Prop :=
  proper s /\ (0 < 1 + s_z s)%Qc /\
  length (c_vmin450 (s_cat s) ++ c_vmin2000 (s_cat s)) = length (c_vmax450 (s_cat s) ++ c_vmax2000 (s_cat s)).
(** p' is what is left of pixel p: a masked pixel stays masked, a good one was good
    before, and the ivar does not become negative *)
Definition only_masked (_ : string) (_ : nat) (p p' : pixel) : Prop :=
  (p_ivar p = n0 -> p_ivar p' = n0) /\ (good (p_ivar p') -> good (p_ivar p)) /\
  (nltb (p_ivar p) n0 = false -> nltb (p_ivar p') n0 = false).
(** the arm has a pixel with positive ivar *)
Definition arm_alive (s : spec) (arm : string) : Prop :=
  exists k p, pixel_at s arm k = Some p /\ good (p_ivar p).

(** the continuum of every arm of the forest has the length of the arm *)
Definition cont_matches (s : spec) : Prop :=
  forall arm, dget arm (fw (s_f s)) <> None -> len_at (s_cont s) arm = len_at (fw (s_f s)) arm.
(** flux calibration of one pixel by s(lambda) *)
Definition flux_calibrated (sf : Qc -> Qc) (_ : string) (_ : nat) (p p' : pixel) : Prop :=
  let s := sf (p_wave p) in
  p_flux p' = ndiv (p_flux p) (Fin s) /\ p_ivar p' = nmul (p_ivar p) (Fin (s * s)) /\
  (s <> 0%Qc -> forall f i, p_flux p = Fin f -> p_ivar p = Fin i ->
     exists f' i', p_flux p' = Fin f' /\ p_ivar p' = Fin i' /\ (f' * f' * i' = f * f * i)%Qc) /\
  (p_ivar p = n0 -> p_ivar p' = n0) /\
  (s <> 0%Qc -> (good (p_ivar p') <-> good (p_ivar p))).
(** noise calibration of one pixel by eta(lambda) *)
Definition eta_calibrated (eta : Qc -> Qc) (_ : string) (_ : nat) (p p' : pixel) : Prop :=
  p_flux p' = p_flux p /\ p_ivar p' = ndiv (p_ivar p) (Fin (eta (p_wave p))) /\
  ((0 < eta (p_wave p))%Qc ->
     (p_ivar p = n0 -> p_ivar p' = n0) /\ (good (p_ivar p') <-> good (p_ivar p)) /\
     (nltb (p_ivar p) n0 = false -> nltb (p_ivar p') n0 = false)).
(** ... with the additive term: var -> eta var + var_lss C^2 *)
Definition additive_calibrated (eta varlss : Qc -> Qc) (cont : dict (list num))
  (arm : string) (k : nat) (p p' : pixel) : Prop :=
  p_flux p' = p_flux p /\ nltb (p_ivar p') n0 = false /\
  forall c, at_pix cont arm k = Some (Fin c) ->
    let e := eta (p_wave p) in let vl := varlss (p_wave p) in
    (e <> 0%Qc -> p_ivar p = n0 -> p_ivar p' = n0) /\
    ((0 < e)%Qc -> (0 <= vl)%Qc -> forall i, p_ivar p = Fin i -> (0 < i)%Qc ->
       exists i', p_ivar p' = Fin i' /\ (0 < i')%Qc /\ (/ i' = e * / i + vl * (c * c))%Qc).

(** s' is t without the arms that have no good pixel; nothing else changes *)
Definition empty_arms_dropped (t s' : spec) : Prop :=
  forall arm,
    (arm_alive t arm ->
       dget arm (fw (s_f s')) = dget arm (fw (s_f t)) /\ (forall k, pixel_at s' arm k = pixel_at t arm k) /\
       dget arm (fivar_sm (s_f s')) = dget arm (fivar_sm (s_f t)) /\
       dget arm (fweight (s_f s')) = dget arm (fweight (s_f t)) /\
       dget arm (fr (s_f s')) = dget arm (fr (s_f t)) /\ dget arm (s_cont s') = dget arm (s_cont t)) /\
    (~ arm_alive t arm -> dget arm (fw (s_f s')) = None).
