(** Model of delta files: Spectrum.write, class Delta (spectrum.py) and the
    qsonic-coadd-deltas script. *)
From Coq Require Import ZArith String List Bool Arith Qcanon.
From Verif Require Import Num NpList Exn Dict ModelSpectrum.
Import ListNotations.
Local Open Scope nat_scope.

(** A table HDU.  Wavelength columns are rational arrays, the others arrays of floats.
    The resolution matrix is transposed when written and when read: the stored
    matrix is the one before transposition. *)
Inductive column := CWave (w : list Qc) | CNum (a : arr) | CMat (m : mat).
Record hdu := mkHdu {
  h_targetid : Z; h_arm : string; h_expid : option Z; h_meansnr : num;
  h_blinding : option string; h_ra_dec : Qc * Qc; h_cols : dict column }.

(** fitsio's write of a list of columns with names: an error if the numbers differ. *)
Definition fits_table (names : list string) (cols : list column) : res (dict column) :=
  if Nat.eqb (length names) (length cols) then Ok (combine names cols)
  else Err (OtherExn "names and columns differ").

Section Write.
(** spectrum.py 678-714, mean_resolution: not modelled (header value only; it may raise). *)
Variable mean_resolution : spec -> string -> res num.
Variable ra_dec : catrow -> Qc * Qc.

(** spectrum.py 744-772: the HDU of one arm. *)
Definition write_arm (st : statics) (s : spec) (arm : string) (wave : list Qc) (snr : num) : res hdu :=
  let f := s_f s in
  rbind (rget arm (s_cont s)) (fun cont =>
  rbind (rget arm (ff f)) (fun flux =>
  rbind (rget arm (fivar f)) (fun iv =>
  rbind (rget arm (fweight f)) (fun wt =>
  rbind (zip2 (fun f c => nsub (ndiv f c) n1) flux cont) (fun delta0 =>
  rbind (zip2 (fun i c => nmul i (nsq c)) iv cont) (fun ivar =>
  rbind (zip2 (fun w c => nmul w (nsq c)) wt cont) (fun weight =>
  rbind (zip2 (fun i d => if neqb i n0 then n0 else d) ivar delta0) (fun delta =>
  let cols := [CWave wave; CNum delta; CNum ivar; CNum weight; CNum cont] in
  rbind (if dtrue (fr f)
         then rbind (mean_resolution s arm) (fun _ =>
              rbind (rget arm (fr f)) (fun m => Ok (cols ++ [CMat m])))
         else Ok cols) (fun cols' =>
  rbind (fits_table (st_colnames st) cols') (fun table =>
  Ok (mkHdu (c_targetid (s_cat s)) arm (c_expid (s_cat s)) snr (st_blinding st) (ra_dec (s_cat s)) table))))))))))).
(** spectrum.py 716-772, write: arms with zero mean S/N are skipped. *)
Definition spec_write (st : statics) (s : spec) : res (list hdu) :=
  rbind (of_option "TypeError" (s_msnr s)) (fun msnr =>
  for_each (fw (s_f s)) (fun aw (acc : list hdu) =>
    rbind (rget (fst aw) msnr) (fun snr =>
    if neqb snr n0 then Ok acc
    else rbind (write_arm st s (fst aw) (snd aw) snr) (fun h => Ok (acc ++ [h])))) []).
End Write.

(** ** Delta *)
Record delta := mkDelta {
  d_targetid : Z; d_radec : Qc * Qc; d_meansnr : num; d_wave : list Qc;
  d_delta : arr; d_ivar : arr; d_weight : arr; d_cont : arr;
  d_reso : option mat; d_blinded : bool }.

Section Read.
(** set.pop(): an arbitrary element *)
Variable set_pop : list string -> string.
(** 10**x *)
Variable pow10 : Qc -> Qc.
Definition get_num (k : string) (t : dict column) : res arr :=
  match dget k t with Some (CNum a) => Ok a | _ => Err (OtherExn "ValueError: no such field") end.
(** spectrum.py 901-909, _check_hdu *)
Definition check_hdu (accepted : list string) (t : dict column) : res string :=
  match filter (fun k => dmem k t) accepted with
  | [] => Err (OtherExn "RuntimeError")
  | l => Ok (set_pop l)
  end.
(** spectrum.py 911-944, Delta.__init__ (the TARGETID key is always in the header here). *)
Definition delta_read (h : hdu) : res delta :=
  let t := h_cols h in
  rbind (check_hdu ["LAMBDA"; "LOGLAM"]%string t) (fun wkey =>
  rbind (match dget wkey t with
         | Some (CWave w) => Ok (if String.eqb wkey "LOGLAM" then map pow10 w else w)
         | _ => Err (OtherExn "ValueError: no such field") end) (fun wave =>
  rbind (check_hdu ["DELTA"; "DELTA_BLIND"]%string t) (fun dkey =>
  rbind (get_num dkey t) (fun dl =>
  rbind (get_num "IVAR" t) (fun iv =>
  rbind (get_num "WEIGHT" t) (fun wt =>
  rbind (get_num "CONT" t) (fun ct =>
  rbind (zip2 (fun i d => if neqb i n0 then n0 else d) iv dl) (fun dl' =>
  Ok (mkDelta (h_targetid h) (h_ra_dec h) (h_meansnr h) wave dl' iv wt ct
        (match dget "RESOMAT" t with Some (CMat m) => Some m | _ => None end)
        (String.eqb dkey "DELTA_BLIND")))))))))).
End Read.

(** spectrum.py 946-974, Delta.write: names and columns. *)
Definition delta_columns (d : delta) : dict column :=
  [("LAMBDA"%string, CWave (d_wave d));
   ((if d_blinded d then "DELTA_BLIND" else "DELTA")%string, CNum (d_delta d));
   ("IVAR"%string, CNum (d_ivar d)); ("WEIGHT"%string, CNum (d_weight d)); ("CONT"%string, CNum (d_cont d))]
  ++ match d_reso d with Some m => [("RESOMAT"%string, CMat m)] | None => [] end.
Definition delta_hdu (d : delta) : hdu :=
  mkHdu (d_targetid d) "" None (d_meansnr d) None (d_radec d) (delta_columns d).

(** ** Coadding two deltas *)
(** a[i0:i0 + v.size] += v (numpy: ValueError unless the slice has the size of v,
    or v has size 1) *)
Definition slice_add (a : arr) (i0 : nat) (v : arr) : res arr :=
  if Nat.leb (i0 + length v) (length a) then
    Ok (map2 (fun j x => if Nat.leb i0 j && Nat.ltb j (i0 + length v) then nadd x (nth (j - i0) v NaN) else x)
             (seq 0 (length a)) a)
  else if Nat.eqb (length v) 1 then Ok a
  else Err (OtherExn "ValueError: shapes").

Record dacc := mkDacc { da_delta : arr; da_ivar : arr; da_lss : arr; da_cont : arr; da_norm : arr }.
(** spectrum.py 1012-1013: position of the first pixel *)
Definition first_idx (min_wave dwave : Qc) (d : delta) : res nat :=
  rmap (fun w0 => Z.to_nat (pix_idx min_wave dwave w0)) (rfirst (d_wave d)).
(** spectrum.py 1016-1018 *)
Definition delta_var (w iv : num) : num := if npos w && npos iv then ndiv n1 iv else n0.
(** spectrum.py 1011-1024: one of the two deltas. *)
Definition delta_add (i0 : nat) (d : delta) (a : dacc) : res dacc :=
  rbind (zip2 delta_var (d_weight d) (d_ivar d)) (fun var =>
  rbind (zip2 nmul (d_weight d) (d_delta d)) (fun wd =>
  rbind (zip2 nmul (d_weight d) (d_cont d)) (fun wc =>
  rbind (zip2 (fun w v => nmul (nsq w) v) (d_weight d) var) (fun wv =>
  rbind (zip2 (fun w v => nsub n1 (nmul w v)) (d_weight d) var) (fun ls =>
  rbind (slice_add (da_delta a) i0 wd) (fun x1 =>
  rbind (slice_add (da_cont a) i0 wc) (fun x2 =>
  rbind (slice_add (da_ivar a) i0 wv) (fun x3 =>
  rbind (slice_add (da_lss a) i0 ls) (fun x4 =>
  rbind (slice_add (da_norm a) i0 (d_weight d)) (fun x5 =>
  Ok (mkDacc x1 x3 x4 x2 x5))))))))))).
(** spectrum.py 976-995, _coadd_reso (weights 0 -> 1e-8; AttributeError if other has no matrix). *)
Definition delta_coadd_reso (n : nat) (i1 i2 : nat) (d1 d2 : delta) (m1 : mat) : res mat :=
  match d_reso d2 with
  | None => Err (OtherExn "AttributeError")
  | Some m2 =>
      let max_ndia := Nat.max (length m1) (length m2) in
      let step (i0 : nat) (d : delta) (m : mat) (acc : mat * arr) : res (mat * arr) :=
        let w := map reso_weight (d_weight d) in
        let m' := pad_rows max_ndia (length w) m in
        if Nat.eqb (length m') max_ndia then
          rbind (rseq (map2 (fun crow row =>
                   rbind (zip2 nmul w row) (fun v => slice_add crow i0 v)) (fst acc) m')) (fun cr =>
          rbind (slice_add (snd acc) i0 w) (fun cn => Ok (cr, cn)))
        else Err (OtherExn "ValueError: shapes") in
      rbind (step i1 d1 m1 (repeat (repeat n0 n) max_ndia, repeat n0 n)) (fun acc1 =>
      rbind (step i2 d2 m2 acc1) (fun acc2 =>
      Ok (map (fun r => map2 ndiv r (snd acc2)) (fst acc2))))
  end.

Section Coadd.
Variable nsqrt : num -> num.
(** spectrum.py 997-1042, coadd. *)
Definition delta_coadd (dwave : Qc) (d1 d2 : delta) : res delta :=
  rbind (rfirst (d_wave d1)) (fun a1 => rbind (rfirst (d_wave d2)) (fun a2 =>
  rbind (rlast (d_wave d1)) (fun b1 => rbind (rlast (d_wave d2)) (fun b2 =>
  let min_wave := qmin a1 a2 in
  let max_wave := qmax b1 b2 in
  let n := Z.to_nat (qtrunc ((max_wave - min_wave) / dwave + fq 1 10) + 1) in
  rbind (first_idx min_wave dwave d1) (fun i1 =>
  rbind (first_idx min_wave dwave d2) (fun i2 =>
  rbind (delta_add i1 d1 (mkDacc (repeat n0 n) (repeat n0 n) (repeat n0 n) (repeat n0 n) (repeat n0 n))) (fun acc1 =>
  rbind (delta_add i2 d2 acc1) (fun acc =>
  let div := fun x => map2 (fun nm y => if npos nm then ndiv y nm else y) (da_norm acc) x in
  let delta' := div (da_delta acc) in
  let lss := div (da_lss acc) in
  let ivar := map2 (fun nm y => if npos nm then ndiv (nsq nm) y else y) (da_norm acc) (da_ivar acc) in
  rbind (match d_reso d1 with
         | None => Ok None
         | Some m1 => rmap Some (delta_coadd_reso n i1 i2 d1 d2 m1) end) (fun reso =>
  rbind (ndot (map nsqrt ivar) (map (fun x => nadd x n1) delta')) (fun dot =>
  let snr := ndiv dot (ncount npos ivar) in
  Ok (mkDelta (d_targetid d1) (d_radec d1) snr (linspace min_wave max_wave n) delta' ivar
        (map2 (fun i l => ndiv i (nadd n1 (nmul i l))) ivar lss) (div (da_cont acc)) reso (d_blinded d1)))))))))))).
End Coadd.

(** ** qsonic-coadd-deltas *)
Section Script.
Variable coadd : delta -> delta -> res delta.
(** scripts/qsonic_coadd_deltas.py 70-77: dictionary of deltas by TARGETID, in order of insertion. *)
Fixpoint forest_add (d : delta) (fd : list (Z * delta)) : res (list (Z * delta)) :=
  match fd with
  | [] => Ok [(d_targetid d, d)]
  | (k, e) :: r =>
      if Z.eqb (d_targetid d) k then rmap (fun e' => (k, e') :: r) (coadd e d)
      else rmap (cons (k, e)) (forest_add d r)
  end.
(** scripts/qsonic_coadd_deltas.py 42-79, read_dirs_to_dict: [files] are the contents of the files
    of all directories in the order given by glob (Pool.map keeps the order). *)
Definition read_dirs_to_dict (files : list (list delta)) : res (list (Z * delta)) :=
  match files with
  | [] => Err (OtherExn "No delta files are found!")
  | _ => for_each (concat files) forest_add []
  end.
(** scripts/qsonic_coadd_deltas.py 101-124, main: grouping by healpix; each pixel is written to its
    own file by write_one_hpx (82-98), one HDU per delta. *)
Variable hpx : delta -> Z.
Fixpoint group_add (d : delta) (g : list (Z * list delta)) : list (Z * list delta) :=
  match g with
  | [] => [(hpx d, [d])]
  | (k, l) :: r => if Z.eqb (hpx d) k then (k, l ++ [d]) :: r else (k, l) :: group_add d r
  end.
Definition coadd_main (files : list (list delta)) : res (list (Z * list hdu)) :=
  rbind (read_dirs_to_dict files) (fun fd =>
  let groups := fold_left (fun g kd => group_add (snd kd) g) fd [] in
  Ok (map (fun p => (fst p, map delta_hdu (snd p))) groups)).
End Script.
