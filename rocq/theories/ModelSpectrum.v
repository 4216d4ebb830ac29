(** Model of py/qsonic/spectrum.py, class Spectrum: construction, forest
    selection, weights, coadding of arms, slicing and dropping arms.

    - Wavelengths are exact rationals, all other array values are [num]
      (rationals, nan, +-inf); see Num.v.
    - The dictionaries _forestivar, _forestivar_sm and _forestweight may be the
      same python object.  They are references into a small heap of
      dictionaries ([hp]) so that in-place changes are seen through all
      aliases.  All other dictionaries of the forest are never shared.
    - numpy raises ValueError for arrays of different lengths ([zip2] below);
      broadcasting of arrays of size one is not modelled (it is an error here).
    - np.sqrt is a parameter ([nsqrt]); np.empty is a parameter ([junk]). *)
From Coq Require Import ZArith String List Bool Arith Qcanon.
From Verif Require Import Num NpList Exn Dict.
Import ListNotations.
Local Open Scope nat_scope.

Notation arr := (list num) (only parsing).
Notation mat := (list (list num)) (only parsing).    (* rows = diagonals, columns = pixels *)

(** ** numpy helpers *)
Definition zip2 {A B C} (f : A -> B -> C) (a : list A) (b : list B) : res (list C) :=
  if Nat.eqb (length a) (length b) then Ok (map2 f a b)
  else Err (OtherExn "ValueError: shapes").
Definition zip3 {A B C D} (f : A -> B -> C -> D)
  (a : list A) (b : list B) (c : list C) : res (list D) :=
  if Nat.eqb (length a) (length b) && Nat.eqb (length b) (length c)
  then Ok (map3 f a b c) else Err (OtherExn "ValueError: shapes").
(** a[w] = v for a boolean mask w *)
Definition mask_set {A} (v : A) (w : list bool) (a : list A) : res (list A) :=
  zip2 (fun (b : bool) x => if b then v else x) w a.
(** a[w] *)
Definition mask_get {A} (w : list bool) (a : list A) : res (list A) :=
  rmap (fun l => flat_map (fun p : bool * A => if fst p then [snd p] else []) l)
       (zip2 pair w a).
Definition npos (x : num) : bool := nltb n0 x.
Definition nsq (x : num) : num := nmul x x.
(** np.dot *)
Definition ndot (a b : arr) : res num := rmap nsum (zip2 nmul a b).
Definition ncount (p : num -> bool) (a : arr) : num :=
  Fin (zq (Z.of_nat (count p a))).
Definition nlit (n : Z) (d : positive) : num := Fin (fq n d).

(** a[idx] for an index array: negative indices count from the end *)
Definition norm_idx (n : nat) (i : Z) : res nat :=
  if (0 <=? i)%Z && (i <? Z.of_nat n)%Z then Ok (Z.to_nat i)
  else if (i <? 0)%Z && (- Z.of_nat n <=? i)%Z then Ok (Z.to_nat (i + Z.of_nat n))
  else Err (OtherExn "IndexError").
(** a[idx] += v: the old values are read first, and for repeated indices the
    last one wins (numpy buffered fancy-index assignment) *)
Definition fancy_write (idx : list nat) (vals : arr) (a : arr) : arr :=
  fold_left (fun acc p => upd (fst p) (fun _ => snd p) acc) (combine idx vals) a.
Definition fancy_add (a : arr) (idx : list Z) (v : arr) : res arr :=
  rbind (rseq (map (norm_idx (length a)) idx)) (fun ii =>
  if Nat.eqb (length ii) (length v)
  then Ok (fancy_write ii (map2 nadd (map (fun i => nth i a NaN) ii) v) a)
  else Err (OtherExn "ValueError: shapes")).
(** a[idx] = v *)
Definition fancy_set (a : arr) (idx : list Z) (v : arr) : res arr :=
  rbind (rseq (map (norm_idx (length a)) idx)) (fun ii =>
  if Nat.eqb (length ii) (length v) then Ok (fancy_write ii v a)
  else Err (OtherExn "ValueError: shapes")).
(** np.min / np.max of a non-empty list *)
Definition rmin (l : list Qc) : res Qc :=
  match l with [] => Err (OtherExn "ValueError: empty min")
             | x :: r => Ok (fold_left qmin r x) end.
Definition rmax (l : list Qc) : res Qc :=
  match l with [] => Err (OtherExn "ValueError: empty max")
             | x :: r => Ok (fold_left qmax r x) end.
Definition rfirst {A} (l : list A) : res A :=
  match l with x :: _ => Ok x | [] => Err (OtherExn "IndexError") end.
Definition rlast {A} (l : list A) : res A := rfirst (rev l).
(** np.allclose with the default tolerances *)
Definition qabs' (x : Qc) : Qc := if qleb 0 x then x else (- x)%Qc.
Definition allclose (a b : list Qc) : res bool :=
  rmap (forallb (fun x => x))
    (zip2 (fun x y => qleb (qabs' (x - y)) (fq 1 100000000 + fq 1 100000 * qabs' y))%Qc a b).

(** ** Class-level (static) state: spectrum.py 89-100.
    [st_wave = []] stands for None. *)
Record statics := mkStatics {
  st_wave : dict (list Qc); st_coadd : dict (list Qc); st_dwave : Qc;
  st_blinding : option string; st_colnames : list string }.
Definition statics0 : statics :=
  mkStatics [] [] 0 None ["LAMBDA"; "DELTA"; "IVAR"; "WEIGHT"; "CONT"]%string.

(** spectrum.py 102-119, _set_wave (AssertionError as OtherExn). *)
Definition set_wave (wave : dict (list Qc)) (check_consistency : bool)
  (st : statics) : res statics :=
  match st_wave st with
  | [] =>
      rbind (rfirst wave) (fun p =>
      match snd p with
      | w0 :: w1 :: _ =>
          Ok (mkStatics wave (st_coadd st) (w1 - w0) (st_blinding st) (st_colnames st))
      | _ => Err (OtherExn "IndexError")
      end)
  | _ =>
      if check_consistency then
        for_each (st_wave st) (fun p s =>
          if dmem (fst p) wave then
            rbind (rget (fst p) (st_wave st)) (fun stored =>
            rbind (allclose stored (snd p)) (fun ok =>
            if ok then Ok s else Err (OtherExn "AssertionError")))
          else Err (OtherExn "AssertionError")) st
      else Ok st
  end.

(** spectrum.py 121-134, _set_coadd_wave. *)
Definition set_coadd_wave (st : statics) : res statics :=
  if dtrue (st_coadd st) then Ok st else
  rbind (rseq (map rfirst (dvals (st_wave st)))) (fun firsts =>
  rbind (rseq (map rlast (dvals (st_wave st)))) (fun lasts =>
  rbind (rmin firsts) (fun min_wave =>
  rbind (rmax lasts) (fun max_wave =>
  let nwaves := qround ((max_wave - min_wave) / st_dwave st + fq 1 10) in
  let coadd_wave := linspace min_wave (min_wave + zq nwaves * st_dwave st)
                             (Z.to_nat (nwaves + 1)) in
  Ok (mkStatics (st_wave st) [("brz"%string, coadd_wave)] (st_dwave st)
                (st_blinding st) (st_colnames st)))))).

(** spectrum.py 136-167, set_blinding.  maxlastnight is None for mocks
    (comparing None raises TypeError, but the first test is then true). *)
Definition wave_lya : Qc := fq 121567 100.
Definition set_blinding (maxlastnight : option Z) (mock_analysis : bool)
  (forest_w1 : Qc) (skip_resomat : bool) (st : statics) : res statics :=
  rbind (if mock_analysis || qltb wave_lya forest_w1 then Ok "none"%string
         else match maxlastnight with
              | None => Err (OtherExn "TypeError")
              | Some n =>
                  if (n <? 20210514)%Z then Ok "none"%string
                  else if (n <? 20210801)%Z then Ok "desi_m2"%string
                  else if (n <? 20220801)%Z then Ok "desi_y1"%string
                  else Ok "desi_y3"%string
              end) (fun b =>
  let names1 := if String.eqb b "none" then st_colnames st
                else upd 1 (fun _ => "DELTA_BLIND"%string) (st_colnames st) in
  let names2 := if skip_resomat then names1 else names1 ++ ["RESOMAT"%string] in
  Ok (mkStatics (st_wave st) (st_coadd st) (st_dwave st) (Some b) names2)).

(** ** One spectrum *)
(** catalog row: the fields that Spectrum and the masks use *)
Record catrow := mkCatrow {
  c_targetid : Z; c_hpix : Z; c_z : Qc; c_expid : option Z;
  c_vmin450 : list Qc; c_vmax450 : list Qc;
  c_vmin2000 : list Qc; c_vmax2000 : list Qc }.

(** forest dictionaries; [ri], [rs], [rw] are the references held by
    _forestivar, _forestivar_sm and _forestweight into the heap [hp] *)
Record forest := mkForest {
  fw : dict (list Qc); ff : dict arr; fr : dict mat;
  hp : list (dict arr); ri : nat; rs : nat; rw : nat }.
Definition fivar (f : forest) : dict arr := nth (ri f) (hp f) [].
Definition fivar_sm (f : forest) : dict arr := nth (rs f) (hp f) [].
Definition fweight (f : forest) : dict arr := nth (rw f) (hp f) [].

Definition set_fw w f := mkForest w (ff f) (fr f) (hp f) (ri f) (rs f) (rw f).
Definition set_ff x f := mkForest (fw f) x (fr f) (hp f) (ri f) (rs f) (rw f).
Definition set_fr x f := mkForest (fw f) (ff f) x (hp f) (ri f) (rs f) (rw f).
(** mutate the dictionary behind a reference *)
Definition mut_ref (r : nat) (g : dict arr -> dict arr) (f : forest) : forest :=
  mkForest (fw f) (ff f) (fr f) (upd r g (hp f)) (ri f) (rs f) (rw f).
(** self._forestivar = <new dictionary> etc. *)
Definition new_ivar (d : dict arr) (f : forest) : forest :=
  mkForest (fw f) (ff f) (fr f) (hp f ++ [d]) (length (hp f)) (rs f) (rw f).
Definition new_sm (d : dict arr) (f : forest) : forest :=
  mkForest (fw f) (ff f) (fr f) (hp f ++ [d]) (ri f) (length (hp f)) (rw f).
Definition new_weight (d : dict arr) (f : forest) : forest :=
  mkForest (fw f) (ff f) (fr f) (hp f ++ [d]) (ri f) (rs f) (length (hp f)).
(** self._forestivar_sm = self._forestivar etc. *)
Definition alias_sm_to_ivar f := mkForest (fw f) (ff f) (fr f) (hp f) (ri f) (ri f) (rw f).
Definition alias_weight_to_sm f := mkForest (fw f) (ff f) (fr f) (hp f) (ri f) (rs f) (rs f).
Definition alias_weight_to_ivar f := mkForest (fw f) (ff f) (fr f) (hp f) (ri f) (rs f) (ri f).

Record spec := mkSpec {
  s_cat : catrow;
  s_wave : dict (list Qc);                       (* _current_wave *)
  s_flux : dict arr; s_ivar : dict arr; s_reso : dict mat;
  s_rsnr : num;
  s_msnr : option (dict num);                    (* mean_snr *)
  s_f : forest;
  s_sscale : Qc;                                 (* _smoothing_scale *)
  s_valid : bool; s_x : list num; s_chi2 : num; s_cont : dict arr }.  (* cont_params *)

Definition s_z (s : spec) := c_z (s_cat s).
Definition set_f (f : forest) (s : spec) : spec :=
  mkSpec (s_cat s) (s_wave s) (s_flux s) (s_ivar s) (s_reso s) (s_rsnr s) (s_msnr s)
         f (s_sscale s) (s_valid s) (s_x s) (s_chi2 s) (s_cont s).
Definition set_msnr m (s : spec) : spec :=
  mkSpec (s_cat s) (s_wave s) (s_flux s) (s_ivar s) (s_reso s) (s_rsnr s) (Some m)
         (s_f s) (s_sscale s) (s_valid s) (s_x s) (s_chi2 s) (s_cont s).
Definition set_cont c (s : spec) : spec :=
  mkSpec (s_cat s) (s_wave s) (s_flux s) (s_ivar s) (s_reso s) (s_rsnr s) (s_msnr s)
         (s_f s) (s_sscale s) (s_valid s) (s_x s) (s_chi2 s) c.
Definition set_valid v (s : spec) : spec :=
  mkSpec (s_cat s) (s_wave s) (s_flux s) (s_ivar s) (s_reso s) (s_rsnr s) (s_msnr s)
         (s_f s) (s_sscale s) v (s_x s) (s_chi2 s) (s_cont s).
Definition set_x x (s : spec) : spec :=
  mkSpec (s_cat s) (s_wave s) (s_flux s) (s_ivar s) (s_reso s) (s_rsnr s) (s_msnr s)
         (s_f s) (s_sscale s) (s_valid s) x (s_chi2 s) (s_cont s).
Definition set_chi2 c (s : spec) : spec :=
  mkSpec (s_cat s) (s_wave s) (s_flux s) (s_ivar s) (s_reso s) (s_rsnr s) (s_msnr s)
         (s_f s) (s_sscale s) (s_valid s) (s_x s) c (s_cont s).
Definition set_sscale c (s : spec) : spec :=
  mkSpec (s_cat s) (s_wave s) (s_flux s) (s_ivar s) (s_reso s) (s_rsnr s) (s_msnr s)
         (s_f s) c (s_valid s) (s_x s) (s_chi2 s) (s_cont s).

Section Spectrum.
Variable nsqrt : num -> num.

(** spectrum.py 225-226: pixels to be neutralised. *)
Definition badpix (m : Z) (f i : num) : bool :=
  negb (m =? 0)%Z || nisnan f || nisnan i || nltb i n0.

(** spectrum.py 222-228, one arm: (flux, ivar) after w has been zeroed. *)
Definition clean_arm (flux ivar : arr) (mask : list Z) : res (arr * arr) :=
  rbind (zip3 badpix mask flux ivar) (fun w =>
  rbind (mask_set n0 w flux) (fun fl =>
  rbind (mask_set n0 w ivar) (fun iv => Ok (fl, iv)))).

Definition row2 {A} (k : string) (d : dict (list (list A))) (idx : nat) : res (list A) :=
  rbind (rget k d) (fun rows => of_option "IndexError" (nth_error rows idx)).

(** reso[arm] is a 2D matrix shared by all quasars or one matrix per quasar *)
Inductive resoarg := Reso2 (m : mat) | Reso3 (l : list mat).

Definition empty_forest : forest := mkForest [] [] [] [[]; []; []] 0 1 2.

(** spectrum.py 248-261, _set_rsnr. *)
Definition rsnr_of (z : Qc) (wave : dict (list Qc)) (flux ivar : dict arr) : res num :=
  rmap (fun p => ndiv (fst p) (snd p))
  (for_each wave (fun aw (acc : num * num) =>
    let ii1 := searchsorted (snd aw) ((1 + z) * wave_lya)%Qc in
    rbind (rget (fst aw) ivar) (fun iv =>
    rbind (rget (fst aw) flux) (fun fl =>
    let weight := map nsqrt (skipn ii1 iv) in
    rbind (ndot (skipn ii1 fl) weight) (fun d =>
    Ok (nadd (fst acc) d, nadd (snd acc) (ncount npos weight))))))
    (n0, nlit 1 1000000)).

(** spectrum.py 200-246, Spectrum.__init__ (statics threaded through). *)
Definition spec_init (st : statics) (cat : catrow) (wave : dict (list Qc))
  (flux ivar : dict (list arr)) (mask : dict (list (list Z)))
  (reso : dict resoarg) (idx : nat) : res (statics * spec) :=
  rbind (set_wave wave false st) (fun st1 =>
  rbind (for_each (st_wave st1) (fun aw (acc : dict arr * dict arr * dict mat) =>
      let arm := fst aw in
      rbind (row2 arm flux idx) (fun fl =>
      rbind (row2 arm ivar idx) (fun iv =>
      rbind (row2 arm mask idx) (fun mk =>
      rbind (clean_arm fl iv mk) (fun fi =>
      rbind (if dtrue reso then
               rbind (rget arm reso) (fun r =>
               match r with
               | Reso2 m => Ok (dset arm m (snd acc))
               | Reso3 l => rmap (fun m => dset arm m (snd acc))
                                 (of_option "IndexError" (nth_error l idx))
               end)
             else Ok (snd acc)) (fun rr =>
      Ok (dset arm (fst fi) (fst (fst acc)), dset arm (snd fi) (snd (fst acc)), rr)))))))
    ([], [], [])) (fun acc =>
  rbind (rsnr_of (c_z cat) (st_wave st1) (fst (fst acc)) (snd (fst acc))) (fun rsnr =>
  Ok (st1, mkSpec cat (st_wave st1) (fst (fst acc)) (snd (fst acc)) (snd acc)
                  rsnr None empty_forest 0 false [n1; n0] (Fin (- (1))) [])))).

(** spectrum.py 263-285, _set_forest_related_parameters. *)
Definition arm_mean_snr (fl iv : arr) : res num :=
  if Nat.eqb (count npos iv) 0 then Ok n0
  else rmap (fun d => ndiv d (ncount npos iv)) (ndot (map nsqrt iv) fl).
Definition set_forest_related (s : spec) : res spec :=
  rbind (for_each (fivar (s_f s)) (fun ai (acc : num * num * dict num) =>
    let '(x0, wt, ms) := acc in
    let arm := fst ai in let iv := snd ai in
    rbind (rget arm (ff (s_f s))) (fun fl =>
    let w := map npos fl in
    rbind (mask_get w fl) (fun flw =>
    rbind (mask_get w iv) (fun ivw =>
    rbind (ndot flw ivw) (fun d =>
    rbind (arm_mean_snr fl iv) (fun m =>
    Ok (nadd x0 d, nadd wt (nsum ivw), dset arm m ms)))))))
    (n0, nlit 1 1000000, [])) (fun acc =>
  let '(x0, wt, ms) := acc in
  Ok (set_msnr ms (set_x (upd 0 (fun _ => ndiv x0 wt) (s_x s)) s))).

(** spectrum.py 304-341, set_forest_region (_f1/_f2 are not modelled: they are
    never read).  The assignments of sm and weight to ivar come at the end. *)
Definition forest_limits (z w1 w2 lya1 lya2 : Qc) : Qc * Qc :=
  (qmax w1 ((1 + z) * lya1), qmin w2 ((1 + z) * lya2))%Qc.
Definition mat_cols (i j : nat) (m : mat) : mat := map (slice i j) m.
Definition set_forest_region (w1 w2 lya1 lya2 : Qc) (s : spec) : res spec :=
  let '(l1, l2) := forest_limits (s_z s) w1 w2 lya1 lya2 in
  rbind (for_each (s_wave s) (fun aw (f : forest) =>
    let arm := fst aw in let wave := snd aw in
    let ii1 := searchsorted wave l1 in let ii2 := searchsorted wave l2 in
    rbind (rget arm (s_ivar s)) (fun iv =>
    if Nat.eqb (count npos (slice ii1 ii2 iv)) 0 then Ok f else
    rbind (rget arm (s_flux s)) (fun fl =>
    let f1 := set_fw (dset arm (slice ii1 ii2 wave) (fw f)) f in
    let f2 := set_ff (dset arm (slice ii1 ii2 fl) (ff f1)) f1 in
    let f3 := mut_ref (ri f2) (dset arm (slice ii1 ii2 iv)) f2 in
    if dtrue (s_reso s) then
      rbind (rget arm (s_reso s)) (fun m =>
      Ok (set_fr (dset arm (mat_cols ii1 ii2 m) (fr f3)) f3))
    else Ok f3))) (s_f s)) (fun f =>
  set_forest_related (set_f (alias_weight_to_ivar (alias_sm_to_ivar f)) s)).

(** spectrum.py 287-302, slice (0 <= i1, i2). *)
Definition spec_slice (arm : string) (i1 i2 : nat) (s : spec) : res spec :=
  let f := s_f s in
  rbind (rget arm (fw f)) (fun wv =>
  if Nat.eqb i1 0 && Nat.eqb i2 (length wv) then Ok s else
  rbind (rget arm (ff f)) (fun fl =>
  let f1 := set_ff (dset arm (slice i1 i2 fl) (ff f))
              (set_fw (dset arm (slice i1 i2 wv) (fw f)) f) in
  rbind (rget arm (fivar f1)) (fun iv =>
  let f2 := mut_ref (ri f1) (dset arm (slice i1 i2 iv)) f1 in
  rbind (rget arm (fivar_sm f2)) (fun sm =>
  let f3 := mut_ref (rs f2) (dset arm (slice i1 i2 sm)) f2 in
  rbind (rget arm (fweight f3)) (fun wt =>
  let f4 := mut_ref (rw f3) (dset arm (slice i1 i2 wt)) f3 in
  let f5 := match dget arm (fr f4) with
            | Some m => set_fr (dset arm (mat_cols i1 i2 m) (fr f4)) f4
            | None => f4 end in
  let s1 := set_f f5 s in
  Ok (match dget arm (s_cont s1) with
      | Some c => set_cont (dset arm (slice i1 i2 c) (s_cont s1)) s1
      | None => s1 end)))))).

(** spectrum.py 343-350, drop_arm. *)
Definition drop_arm (arm : string) (s : spec) : spec :=
  let f := s_f s in
  let f1 := set_fr (dpop arm (fr f)) (set_ff (dpop arm (ff f)) (set_fw (dpop arm (fw f)) f)) in
  let f2 := mut_ref (rw f1) (dpop arm) (mut_ref (rs f1) (dpop arm) (mut_ref (ri f1) (dpop arm) f1)) in
  set_cont (dpop arm (s_cont s)) (set_f f2 s).

(** spectrum.py 352-368, drop_short_arms. *)
Definition npixels_min (z dwave lya1 lya2 skip_ratio : Qc) : Z :=
  (qtrunc (skip_ratio * ((1 + z) * (lya2 - lya1) / dwave)) + 1)%Z.
Definition drop_short_arms (dwave lya1 lya2 skip_ratio : Qc) (s : spec) : spec :=
  let npix := npixels_min (s_z s) dwave lya1 lya2 skip_ratio in
  let short := filter (fun arm => match dget arm (fivar (s_f s)) with
                 | Some iv => (Z.of_nat (count npos iv) <? npix)%Z
                 | None => false end) (dkeys (fivar (s_f s))) in
  fold_left (fun acc arm => drop_arm arm acc) short s.

(** spectrum.py 370-381, remove_nonforest_pixels. *)
Definition remove_nonforest_pixels (s : spec) : spec :=
  mkSpec (s_cat s) [] [] [] [] (s_rsnr s) (s_msnr s)
         (s_f s) (s_sscale s) (s_valid s) (s_x s) (s_chi2 s) (s_cont s).

(** spectrum.py 383-393, get_real_size. *)
Definition get_real_size (s : spec) : nat :=
  fold_left (fun acc iv => acc + count npos iv) (dvals (fivar (s_f s))) 0.

(** spectrum.py 395-414, get_effective_meansnr (mean_snr = None: AttributeError). *)
Definition effective_snr (vals : list num) : num :=
  let '(m, n) := fold_left (fun acc v =>
      (nadd (fst acc) (nmul (nmul v v) v), nadd (snd acc) (nmul v v)))
      vals (n0, nlit 1 100000000) in
  ndiv m n.
Definition get_effective_meansnr (s : spec) : res num :=
  rmap (fun m => effective_snr (dvals m)) (of_option "AttributeError" (s_msnr s)).

(** spectrum.py 416-438, is_long. *)
Definition is_long (dwave dforest_wave skip_ratio : Qc) (s : spec) : bool :=
  let npixels := ((1 + s_z s) * dforest_wave / dwave)%Qc in
  qltb (skip_ratio * npixels)%Qc (zq (Z.of_nat (get_real_size s))).

(** spectrum.py 440-465, set_smooth_forestivar; [smooth ivar sigma_pix] is
    mathtools.get_smooth_ivar (modelled in ModelSmooth.v). *)
Variable smooth : arr -> Qc -> arr.
Definition set_smooth_forestivar (dwave smoothing_size : Qc) (s : spec) : spec :=
  let f := s_f s in
  if qleb smoothing_size 0 then
    set_f (alias_weight_to_sm (alias_sm_to_ivar f)) (set_sscale 0 s)
  else
    let sigma_pix := (smoothing_size / dwave)%Qc in
    let f1 := new_sm (dmap (fun iv => smooth iv sigma_pix) (fivar f)) f in
    set_f (alias_weight_to_sm f1) (set_sscale smoothing_size s).

(** spectrum.py 467-497, set_forest_weight; the interpolators act pixel by pixel. *)
Definition weight_formula (iv eta vl c : num) : num :=
  ndiv iv (nadd eta (nmul iv (nmul vl (nsq c)))).
Definition weight_arm (varlss eta : Qc -> num) (wave : list Qc) (iv c : arr) : res arr :=
  rbind (zip2 (fun w x => nmul (varlss w) (nsq x)) wave c) (fun vl =>
  rbind (zip2 nmul iv vl) (fun ivl =>
  rbind (zip2 (fun w x => nadd (eta w) x) wave ivl) (fun den =>
  zip2 ndiv iv den))).
Definition set_forest_weight (varlss eta : Qc -> num) (s : spec) : res spec :=
  if negb (s_valid s) || negb (dtrue (s_cont s))
  then Ok (set_f (alias_weight_to_sm (s_f s)) s)
  else
    rbind (for_each (fw (s_f s)) (fun aw (wts : dict arr) =>
      rbind (rget (fst aw) (s_cont s)) (fun c =>
      rbind (rget (fst aw) (fivar_sm (s_f s))) (fun iv =>
      rbind (weight_arm varlss eta (snd aw) iv c) (fun w =>
      Ok (dset (fst aw) w wts))))) []) (fun wts =>
    Ok (set_f (new_weight wts (s_f s)) s)).

(** spectrum.py 499-520, calc_continuum_chi2. *)
Definition calc_continuum_chi2 (s : spec) : res spec :=
  if negb (s_valid s) || negb (dtrue (s_cont s)) then Ok (set_chi2 (Fin (- (1))) s)
  else
    rbind (for_each (fw (s_f s)) (fun aw (chi2 : num) =>
      rbind (rget (fst aw) (s_cont s)) (fun c =>
      rbind (rget (fst aw) (fweight (s_f s))) (fun w =>
      rbind (rget (fst aw) (ff (s_f s))) (fun fl =>
      rbind (zip2 (fun x y => nsq (nsub x y)) fl c) (fun d2 =>
      rbind (ndot w d2) (fun d => Ok (nadd chi2 d))))))) n0) (fun chi2 =>
    Ok (set_chi2 chi2 s)).

(** ** Coadding arms *)
(** spectrum.py 547 and 619: index of a pixel in the coadded grid. *)
Definition pix_idx (min_wave dwave w : Qc) : Z :=
  qtrunc ((w - min_wave) / dwave + fq 1 10)%Qc.
(** spectrum.py 552-554 and 624-626: 1/ivar where ivar > 0, else 0. *)
Definition var_of (iv : num) : num := if npos iv then ndiv n1 iv else n0.

Record coadd_acc := mkCo { co_flux : arr; co_ivar : arr; co_norm : arr }.
(** one arm: spectrum.py 618-630 *)
Definition coadd_one (idx : list Z) (weight flux ivar : arr) (a : coadd_acc)
  : res coadd_acc :=
  rbind (zip2 nmul weight flux) (fun wf =>
  rbind (zip2 (fun w iv => nmul (nsq w) (var_of iv)) weight ivar) (fun wv =>
  rbind (fancy_add (co_flux a) idx wf) (fun cf =>
  rbind (fancy_add (co_ivar a) idx wv) (fun ci =>
  rbind (fancy_add (co_norm a) idx weight) (fun cn => Ok (mkCo cf ci cn)))))).
(** spectrum.py 632-634 *)
Definition coadd_finish (a : coadd_acc) : arr * arr :=
  (map2 (fun n f => if npos n then ndiv f n else f) (co_norm a) (co_flux a),
   map2 (fun n i => if npos n then ndiv (nsq n) i else i) (co_norm a) (co_ivar a)).

(** spectrum.py 649-669 (and 564-583): resolution matrix, weights 0 -> 1e-8. *)
Definition pad_rows (max_ndia ncol : nat) (m : mat) : mat :=
  let dd := Nat.div (max_ndia - length m) 2 in
  repeat (repeat n0 ncol) dd ++ m ++ repeat (repeat n0 ncol) dd.
Definition reso_weight (w : num) : num := if neqb w n0 then nlit 1 100000000 else w.
Definition coadd_reso (nwaves : nat) (idxes : dict (list Z)) (weights : dict arr)
  (reso : dict mat) : res mat :=
  let max_ndia := fold_left Nat.max (map (@length _) (dvals reso)) 0 in
  rbind (for_each reso (fun am (acc : mat * arr) =>
    rbind (rget (fst am) weights) (fun w0 =>
    rbind (rget (fst am) idxes) (fun idx =>
    let w := map reso_weight w0 in
    let m := pad_rows max_ndia (length w) (snd am) in
    if Nat.eqb (length m) max_ndia then
      rbind (rseq (map2 (fun crow row =>
               rbind (zip2 nmul w row) (fun v => fancy_add crow idx v)) (fst acc) m)) (fun cr =>
      rbind (fancy_add (snd acc) idx w) (fun cn => Ok (cr, cn)))
    else Err (OtherExn "ValueError: shapes"))))
    (repeat (repeat n0 nwaves) max_ndia, repeat n0 nwaves)) (fun acc =>
  Ok (map (fun r => map2 ndiv r (snd acc)) (fst acc))).

(** spectrum.py 589-676, coadd_arms_forest; [junk] are the contents of np.empty. *)
Definition coadd_arms_forest (junk : nat -> num) (dwave : Qc)
  (varlss eta : Qc -> num) (s : spec) : res spec :=
  let f := s_f s in
  rbind (rseq (map rfirst (dvals (fw f)))) (fun firsts =>
  rbind (rseq (map rlast (dvals (fw f)))) (fun lasts =>
  rbind (rmin firsts) (fun min_wave =>
  rbind (rmax lasts) (fun max_wave =>
  let nwaves := Z.to_nat (qtrunc ((max_wave - min_wave) / dwave + fq 1 10) + 1) in
  let coadd_wave := linspace min_wave max_wave nwaves in
  let idxes := dmap (map (pix_idx min_wave dwave)) (fw f) in
  rbind (for_each (fw f) (fun aw (a : coadd_acc) =>
      rbind (rget (fst aw) (fweight f)) (fun w =>
      rbind (rget (fst aw) (fivar f)) (fun iv =>
      rbind (rget (fst aw) (ff f)) (fun fl =>
      coadd_one (map (pix_idx min_wave dwave) (snd aw)) w fl iv a))))
    (mkCo (repeat n0 nwaves) (repeat n0 nwaves) (repeat n0 nwaves))) (fun a =>
  let '(coadd_flux, coadd_ivar) := coadd_finish a in
  let f1 := new_ivar [("brz"%string, coadd_ivar)]
              (set_ff [("brz"%string, coadd_flux)] (set_fw [("brz"%string, coadd_wave)] f)) in
  rbind (if dtrue (s_cont s) then
           rmap (fun c => [("brz"%string, c)])
           (for_each idxes (fun ai (c : arr) =>
              rbind (rget (fst ai) (s_cont s)) (fun ca => fancy_set c (snd ai) ca))
              (map junk (seq 0 nwaves)))
         else Ok []) (fun cont1 =>
  rbind (if dtrue (fr f) then
           rmap (fun m => [("brz"%string, m)]) (coadd_reso nwaves idxes (fweight f) (fr f))
         else Ok []) (fun reso1 =>
  let s1 := set_cont cont1 (set_f (set_fr reso1 f1) s) in
  let s2 := set_smooth_forestivar dwave (s_sscale s) s1 in
  rbind (set_forest_weight varlss eta s2) (fun s3 =>
  rbind (ndot (map nsqrt coadd_ivar) coadd_flux) (fun d =>
  Ok (set_msnr [("brz"%string, ndiv d (ncount npos coadd_ivar))] s3))))))))))  .

(** spectrum.py 522-587, simple_coadd (line 567 "coadd_norm *= 0" is taken to
    give zeros, which holds for finite norms). *)
Definition simple_coadd (st : statics) (s : spec) : res (statics * spec) :=
  rbind (set_coadd_wave st) (fun st1 =>
  rbind (rget "brz" (st_coadd st1)) (fun cw =>
  rbind (rfirst cw) (fun min_wave =>
  let nwaves := length cw in
  let dwave := st_dwave st1 in
  let idxes := dmap (map (pix_idx min_wave dwave)) (s_wave s) in
  rbind (for_each (s_wave s) (fun aw (a : coadd_acc) =>
      rbind (rget (fst aw) (s_ivar s)) (fun iv =>
      rbind (rget (fst aw) (s_flux s)) (fun fl =>
      coadd_one (map (pix_idx min_wave dwave) (snd aw)) iv fl iv a)))
    (mkCo (repeat n0 nwaves) (repeat n0 nwaves) (repeat n0 nwaves))) (fun a =>
  let '(coadd_flux, coadd_ivar) := coadd_finish a in
  rbind (if dtrue (s_reso s) then
           rmap (fun m => [("brz"%string, m)]) (coadd_reso nwaves idxes (s_ivar s) (s_reso s))
         else Ok []) (fun reso1 =>
  Ok (st1, mkSpec (s_cat s) (st_coadd st1) [("brz"%string, coadd_flux)]
                  [("brz"%string, coadd_ivar)] reso1 (s_rsnr s) (s_msnr s)
                  (s_f s) (s_sscale s) (s_valid s) (s_x s) (s_chi2 s) (s_cont s))))))).

End Spectrum.
