(** Model of the continuum look-up of
    py/qsonic/continuum_models/input_continuum_model.py. *)
From Coq Require Import String ZArith List Bool Arith Qcanon.
From Verif Require Import Num Exn NpList.
Import ListNotations.
Local Open Scope nat_scope.

Section InputCont.
(** [S]: spectra; [sid s] the TARGETID, [spix s] = ang2pix(nside, RA, DEC,
    lonlat=True, nest=True) of its catalog row; [C]: a continuum (row of the
    CONTINUA image). *)
Context {S C : Type}.
Variables (sid spix : S -> Z).

(** One input-continuum file: WAVE1, DWAVE, FIBERMAP TARGETIDs, CONTINUA rows. *)
Record contfile := mkcont { cf_wave1 : Qc; cf_dwave : Qc; cf_ids : list Z; cf_cont : list C }.

(** local_catalog.argsort(order=['HPXPIXEL', 'TARGETID']): any function on the
    list of (HPXPIXEL, TARGETID) pairs. *)
Variable argsort2 : list (Z * Z) -> list nat.

(** What cont_params gains: input_w1, input_dwave, input_data; [None]: the
    spectrum keeps valid = False. *)
Definition attached := option (Qc * Qc * C).

(** input_continuum_model.py:76-126 _read_continua_one_file.  [file] is [None]
    when the file cannot be read (the function then returns 0, 0, None, None). *)
Definition read_continua_one_file (file : option contfile) (targetids : list Z)
  : res (Qc * Qc * list Z * list C) :=
  match file with
  | None => Ok (0%Qc, 0%Qc, [], [])
  | Some f =>
      if negb (Nat.eqb (length (cf_ids f)) (length (cf_cont f)))
      then Err (OtherExn "InputContinuumModel file error.")
      else
        let common := intersect1d (cf_ids f) targetids in
        rmap (fun conts => (cf_wave1 f, cf_dwave f, map (fun x => fst (fst x)) common, conts))
             (of_option "IndexError"
                (take_idx (cf_cont f) (map (fun x => snd (fst x)) common)))
  end.

(** input_continuum_model.py:13-25 _find_append_continuum *)
Definition find_append_one (w1 dw : Qc) (common : list Z) (continua : list C) (s : S)
  : res (S * attached) :=
  match nonzero (map (fun t => Z.eqb t (sid s)) common) with
  | [] => Ok (s, None)
  | idx :: _ => rmap (fun c => (s, Some (w1, dw, c)))
                     (of_option "IndexError" (nth_error continua idx))
  end.

(** input_continuum_model.py:160-170: one group of spectra of the same healpix.
    [files p] is the file of pixel p. *)
Definition read_continua_group (files : Z -> option contfile) (specs : list S)
  : res (list (S * attached)) :=
  match specs with
  | [] => Err (OtherExn "IndexError")
  | s0 :: _ =>
      let pixnum := spix s0 in
      let targetids := map sid specs in
      rbind (read_continua_one_file (files pixnum) targetids) (fun r =>
        let '(w1, dw, common, continua) := r in
        if qeqb w1 0 then Ok (map (fun s => (s, None)) specs)
        else rseq (map (find_append_one w1 dw common continua) specs))
  end.

(** input_continuum_model.py:128-170 _read_continua (np.hstack of an empty list
    raises ValueError). *)
Definition read_continua (files : Z -> option contfile) (spectra_list : list S)
  : res (list (S * attached)) :=
  match spectra_list with
  | [] => Err (OtherExn "ValueError: need at least one array to concatenate")
  | _ =>
      let idx_sort := argsort2 (map (fun s => (spix s, sid s)) spectra_list) in
      rbind (of_option "IndexError" (take_idx spectra_list idx_sort)) (fun sorted =>
      rmap (@concat _) (rseq (map (read_continua_group files) (split_by_key spix sorted))))
  end.
End InputCont.
Arguments contfile : clear implicits.
