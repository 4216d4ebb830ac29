(** Model of py/qsonic/masks.py and py/qsonic/calibration.py.  The classes act
    on the forest dictionaries of one spectrum. *)
From Coq Require Import ZArith String List Bool Arith Qcanon.
From Verif Require Import Num NpList Exn Dict ModelSpectrum.
Import ListNotations.
Local Open Scope nat_scope.

(** forestflux[arm] and forestivar[arm] of one arm; KeyError if absent. *)
Definition with_arm (arm : string) (f : forest)
  (k : arr -> arr -> res (arr * arr)) : res forest :=
  rbind (rget arm (ff f)) (fun fl =>
  rbind (rget arm (fivar f)) (fun iv =>
  rbind (k fl iv) (fun p =>
  Ok (mut_ref (ri f) (dset arm (snd p)) (set_ff (dset arm (fst p) (ff f)) f
  ))))).

(** flux[w] = 0; ivar[w] = 0 *)
Definition zero_pixels (w : list bool) (fl iv : arr) : res (arr * arr) :=
  rbind (mask_set n0 w fl) (fun fl' =>
  rbind (mask_set n0 w iv) (fun iv' => Ok (fl', iv'))).

(** w = zeros; for idx1, idx2 in ranges: w[idx1:idx2] = 1 *)
Definition set_range (i j : nat) (w : list bool) : list bool :=
  firstn i w ++ repeat true (length (slice i j w)) ++ skipn (i + length (slice i j w)) w.
Definition range_mask (n : nat) (ranges : list (nat * nat)) : list bool :=
  fold_left (fun w r => set_range (fst r) (snd r) w) ranges (repeat false n).

(** ** SkyMask: masks.py 52-105 *)
(** rows of the mask file: wave_min, wave_max; masks.py 73-74 splits them by frame *)
Inductive frame := RF | OBS | OtherFrame.
Record skyrow := mkSky { sk_min : Qc; sk_max : Qc; sk_frame : frame }.
Record skymask := mkSkyMask { sm_rf : list skyrow; sm_obs : list skyrow }.
Definition isRF r := match sk_frame r with RF => true | _ => false end.
Definition isOBS r := match sk_frame r with OBS => true | _ => false end.
Definition skymask_init (rows : list skyrow) : skymask :=
  mkSkyMask (filter isRF rows) (filter isOBS rows).

(** masks.py 85-105, apply *)
Definition sky_ranges (m : skymask) (z : Qc) (wave : list Qc) : list (nat * nat) :=
  map (fun r => (searchsorted wave (sk_min r), searchsorted wave (sk_max r))) (sm_obs m)
  ++ map (fun r => let wr := map (fun w => w / (1 + z))%Qc wave in
                   (searchsorted wr (sk_min r), searchsorted wr (sk_max r))) (sm_rf m).
Definition skymask_apply (m : skymask) (s : spec) : res spec :=
  rmap (fun f => set_f f s)
  (for_each (fw (s_f s)) (fun aw f =>
     let w := range_mask (length (snd aw)) (sky_ranges m (s_z s) (snd aw)) in
     with_arm (fst aw) f (zero_pixels w)) (s_f s)).

(** ** BALMask: masks.py 108-199 *)
Definition light_speed : Qc := fq 299792458 1000.
(** masks.py 114-133 *)
Definition bal_lines : list Qc :=
  [fq 1549 1; fq 1403 1; fq 1394 1; fq 124081 100; fq 12161 10; fq 1175 1;
   fq 1128 1; fq 1117 1; fq 1074 1; fq 1062 1; fq 1031 1; fq 1037 1; fq 1039 1;
   fq 10257 10; fq 9725 10; fq 9770 10; fq 9899 10; fq 9497 10].
(** masks.py 165-171: velocities with both ends positive (concatenated columns
    of different lengths: ValueError) *)
Definition bal_velocities (c : catrow) : res (list (Qc * Qc)) :=
  rmap (filter (fun p => qltb 0 (fst p) && qltb 0 (snd p)))
       (zip2 pair (c_vmin450 c ++ c_vmin2000 c) (c_vmax450 c ++ c_vmax2000 c)).
(** masks.py 177-184: [wave_min; wave_max] for every line and velocity pair *)
Definition bal_intervals (z : Qc) (vels : list (Qc * Qc)) : list (Qc * Qc) :=
  flat_map (fun l => map (fun v =>
      (l * (1 + z) * (1 - snd v / light_speed),
       l * (1 + z) * (1 - fst v / light_speed))%Qc) vels) bal_lines.
(** masks.py 189-196 *)
Definition sort_pair (p : nat * nat) : nat * nat :=
  (Nat.min (fst p) (snd p), Nat.max (fst p) (snd p)).
Definition bal_ranges (ints : list (Qc * Qc)) (wave : list Qc) : list (nat * nat) :=
  map (fun p => sort_pair (searchsorted wave (fst p), searchsorted wave (snd p))) ints.
Definition balmask_apply (s : spec) : res spec :=
  rbind (bal_velocities (s_cat s)) (fun vels =>
  match vels with
  | [] => Ok s
  | _ =>
    rmap (fun f => set_f f s)
    (for_each (fw (s_f s)) (fun aw f =>
       let w := range_mask (length (snd aw))
                  (bal_ranges (bal_intervals (s_z s) vels) (snd aw)) in
       with_arm (fst aw) f (zero_pixels w)) (s_f s))
  end).

(** ** DLAMask: masks.py 202-462.  [dla_flux wave z nhi] is get_dla_flux
    (masks.py 324-351), an arbitrary function here. *)
Record dla := mkDla { d_tid : Z; d_z : Qc; d_nhi : Qc }.
Record dlamask := mkDlaMask { dm_ids : list Z; dm_split : list (list dla); dm_limit : Qc }.
(** masks.py 414-433; catalog.sort(order='TARGETID') leaves the order of equal
    TARGETIDs to numpy, here stable *)
Definition dlamask_init (catalog : list dla) (local : option (list Z)) (limit : Qc) : dlamask :=
  let cat1 := match local with
              | None => catalog
              | Some l => filter (fun d => zmem (d_tid d) l) catalog end in
  let cat2 := isort (fun a b => (d_tid a <=? d_tid b)%Z) cat1 in
  mkDlaMask (np_unique (map d_tid cat2)) (split_by_key d_tid cat2) limit.

Section DLA.
Variable dla_flux : Qc -> Qc -> Qc -> num.
(** masks.py 353-373, get_all_dlas *)
Definition all_dlas (dlas : list dla) (w : Qc) : num :=
  fold_left (fun t d => nmul t (dla_flux w (d_z d) (d_nhi d))) dlas n1.
(** masks.py 451-455: transmission, set to one redward of the quasar's Lya *)
Definition dla_transmission (z : Qc) (dlas : list dla) (wave : list Qc) : arr :=
  let t := map (all_dlas dlas) wave in
  let i := searchsorted wave ((1 + z) * fq 121567 100)%Qc in
  firstn i t ++ repeat n1 (length t - i).
(** masks.py 456-462, one arm *)
Definition dla_arm (limit : Qc) (t fl iv : arr) : res (arr * arr) :=
  let w := map (fun x => nltb x (Fin limit)) t in
  rbind (mask_set n1 w t) (fun t1 =>
  rbind (mask_set n0 w iv) (fun iv1 =>
  rbind (mask_set n0 w fl) (fun fl1 =>
  rbind (zip2 ndiv fl1 t1) (fun fl2 =>
  rbind (zip2 (fun i x => nmul i (nsq x)) iv1 t1) (fun iv2 => Ok (fl2, iv2)))))).
(** masks.py 435-462, apply *)
Definition dlamask_apply (m : dlamask) (s : spec) : res spec :=
  match nonzero (map (fun i => Z.eqb i (c_targetid (s_cat s))) (dm_ids m)) with
  | [] => Ok s
  | idx :: _ =>
    rbind (of_option "IndexError" (nth_error (dm_split m) idx)) (fun dlas =>
    rmap (fun f => set_f f s)
    (for_each (fw (s_f s)) (fun aw f =>
       with_arm (fst aw) f (dla_arm (dm_limit m) (dla_transmission (s_z s) dlas (snd aw))))
     (s_f s)))
  end.

(** ** All masks; scripts/qsonic_fit.py 223-252 *)
Inductive masker := MSky (m : skymask) | MBal | MDla (m : dlamask).
Definition mask_apply (m : masker) (s : spec) : res spec :=
  match m with
  | MSky m => skymask_apply m s
  | MBal => balmask_apply s
  | MDla m => dlamask_apply m s
  end.
Definition apply_masks_one (dwave : Qc) (maskers : list masker) (s : spec) : res spec :=
  rmap (drop_short_arms dwave 0 0 0) (for_each maskers mask_apply s).
Definition apply_masks (dwave : Qc) (maskers : list masker) (l : list spec) : res (list spec) :=
  match maskers with
  | [] => Ok l
  | _ => rseq (map (apply_masks_one dwave maskers) l)
  end.
End DLA.

(** scripts/qsonic_fit.py 255-264, remove_short_spectra. *)
Definition remove_short_spectra (dwave lya1 lya2 skip_ratio : Qc) (l : list spec) : list spec :=
  if qeqb skip_ratio 0 then l
  else filter (is_long dwave (lya2 - lya1) skip_ratio) l.

(** ** Calibrations: calibration.py.  The interpolators are functions of the
    wavelength (see ModelInterp.v for the interpolators themselves). *)
(** calibration.py 87-88 and 178-179: eta[eta == 0] = 1 *)
Definition zero_to_one (a : arr) : arr := map (fun x => if neqb x n0 then n1 else x) a.

(** change forestivar[arm] only *)
Definition with_ivar (arm : string) (f : forest) (k : arr -> res arr) : res forest :=
  rbind (rget arm (fivar f)) (fun iv =>
  rbind (k iv) (fun iv' => Ok (mut_ref (ri f) (dset arm iv') f))).

(** calibration.py 130-134: eta only *)
Definition noise_eta (eta : Qc -> num) (s : spec) : res spec :=
  rmap (fun f => set_f f s)
  (for_each (fw (s_f s)) (fun aw f =>
     with_ivar (fst aw) f (fun iv => zip2 ndiv iv (map eta (snd aw)))) (s_f s)).
(** calibration.py 123-129: with additive var_lss *)
Definition noise_additive_arm (eta varlss : Qc -> num) (wave : list Qc) (c iv : arr) : res arr :=
  rbind (zip2 (fun w x => nmul (varlss w) (nsq x)) wave c) (fun vl =>
  rbind (zip2 nmul iv vl) (fun ivl =>
  rbind (zip2 (fun w x => nadd (eta w) x) wave ivl) (fun den =>
  rbind (zip2 ndiv iv den) (fun iv1 =>
  Ok (map (fun x => if nltb x n0 then n0 else x) iv1))))).
Definition noise_additive (eta varlss : Qc -> num) (s : spec) : res spec :=
  rmap (fun f => set_f f s)
  (for_each (fw (s_f s)) (fun aw f =>
     rbind (rget (fst aw) (s_cont s)) (fun c =>
     with_ivar (fst aw) f (noise_additive_arm eta varlss (snd aw) c))) (s_f s)).
(** calibration.py 108-134, NoiseCalibrator.apply *)
Definition noise_calibrate (eta : Qc -> num) (varlss : option (Qc -> num))
  (l : list spec) : res (list spec) :=
  match varlss with
  | Some vl =>
      if forallb (fun s => dtrue (s_cont s)) l
      then rseq (map (noise_additive eta vl) l)
      else Err (OtherExn "NoiseCalibrator needs continuum")
  | None => rseq (map (noise_eta eta) l)
  end.
(** calibration.py 189-204, FluxCalibrator.apply, one spectrum *)
Definition flux_cal_arm (sf : Qc -> num) (wave : list Qc) (fl iv : arr) : res (arr * arr) :=
  rbind (zip2 ndiv fl (map sf wave)) (fun fl' =>
  rbind (zip2 (fun i x => nmul i (nsq x)) iv (map sf wave)) (fun iv' => Ok (fl', iv'))).
Definition flux_calibrate1 (sf : Qc -> num) (s : spec) : res spec :=
  rmap (fun f => set_f f s)
  (for_each (fw (s_f s)) (fun aw f =>
     with_arm (fst aw) f (flux_cal_arm sf (snd aw))) (s_f s)).
