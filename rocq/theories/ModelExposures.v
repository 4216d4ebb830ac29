(** Model of mpi_read_exposures_after of scripts/qsonic_fit.py: the exposures of a quasar inherit the
    continuum of its coadded spectrum. *)
From Coq Require Import ZArith String List Bool Arith Qcanon.
From Verif Require Import Num NpList Exn Dict ModelSpectrum.
Import ListNotations.
Local Open Scope nat_scope.

(** python slice l[i:j] with negative indices counted from the end *)
Definition pyidx (n : nat) (z : Z) : nat := Z.to_nat (if (z <? 0)%Z then z + Z.of_nat n else z).
Definition pyslice {A} (i j : Z) (l : list A) : list A := slice (pyidx (length l) i) (pyidx (length l) j) l.

(** spectrum.py 287-302, slice, for any integers i1, i2 (ModelSpectrum.spec_slice is for naturals). *)
Definition spec_slice_z (arm : string) (i1 i2 : Z) (s : spec) : res spec :=
  let f := s_f s in
  rbind (rget arm (fw f)) (fun wv =>
  if (i1 =? 0)%Z && (i2 =? Z.of_nat (length wv))%Z then Ok s else
  rbind (rget arm (ff f)) (fun fl =>
  let f1 := set_ff (dset arm (pyslice i1 i2 fl) (ff f))
              (set_fw (dset arm (pyslice i1 i2 wv) (fw f)) f) in
  rbind (rget arm (fivar f1)) (fun iv =>
  let f2 := mut_ref (ri f1) (dset arm (pyslice i1 i2 iv)) f1 in
  rbind (rget arm (fivar_sm f2)) (fun sm =>
  let f3 := mut_ref (rs f2) (dset arm (pyslice i1 i2 sm)) f2 in
  rbind (rget arm (fweight f3)) (fun wt =>
  let f4 := mut_ref (rw f3) (dset arm (pyslice i1 i2 wt)) f3 in
  let f5 := match dget arm (fr f4) with
            | Some m => set_fr (dset arm (map (pyslice i1 i2) m) (fr f4)) f4
            | None => f4 end in
  let s1 := set_f f5 s in
  Ok (match dget arm (s_cont s1) with
      | Some c => set_cont (dset arm (pyslice i1 i2 c) (s_cont s1)) s1
      | None => s1 end)))))).

(** scripts/qsonic_fit.py 417-441, the body of the loop over the arms of one exposure.  The loop runs over
    a dictionary: removing a key makes the next step of the iteration raise RuntimeError. *)
Definition match_arm (dwave : Qc) (coadd : spec) (p : string * list Qc) (s : spec) : res spec :=
  let (arm, wave_arm) := p in
  match dget arm (fw (s_f coadd)) with
  | None => Err (OtherExn "RuntimeError: dictionary changed size during iteration")
  | Some wc =>
      rbind (rfirst wave_arm) (fun w0 => rbind (rfirst wc) (fun c0 =>
      rbind (rlast wc) (fun cl => rbind (rlast wave_arm) (fun wl =>
      let i2 := Z.of_nat (length wave_arm) in
      let j1 := qround ((w0 - c0) / dwave) in
      let (i1, j1) := if (j1 <? 0)%Z then (- j1, 0)%Z else (0%Z, j1) in
      let j2 := qround ((cl - wl) / dwave) in
      let (i2, j2) := if (j2 <? 0)%Z then (i2 + j2, 0)%Z else (i2, j2) in
      let j2 := (Z.of_nat (length wc) - j2)%Z in
      rbind (spec_slice_z arm i1 i2 s) (fun s1 =>
      rbind (rget arm (s_cont coadd)) (fun cc =>
      let s2 := set_cont (dset arm (pyslice j1 j2 cc) (s_cont s1)) s1 in
      rbind (rget arm (fw (s_f s2))) (fun w' =>
      Ok (if Nat.eqb (length w') (length (pyslice j1 j2 cc)) then s2 else set_valid false s2))))))))
  end.
(** scripts/qsonic_fit.py 411-441, one exposure: cont_params are copied, 'cont' is a new dictionary. *)
Definition match_exposure (dwave : Qc) (coadd s : spec) : res spec :=
  let s0 := set_cont [] (set_chi2 (s_chi2 coadd) (set_x (s_x coadd) (set_valid (s_valid coadd) s))) in
  for_each (fw (s_f s0)) (match_arm dwave coadd) s0.
(** scripts/qsonic_fit.py 408-441; [coadds] is spectra_list, sorted.  IndexError if there is no match. *)
Definition match_exposures (dwave : Qc) (coadds exposures : list spec) : res (list spec) :=
  rseq (map (fun s =>
    match find (fun c => Z.eqb (c_targetid (s_cat c)) (c_targetid (s_cat s))) coadds with
    | None => Err (OtherExn "IndexError")
    | Some c => match_exposure dwave c s
    end) exposures).
