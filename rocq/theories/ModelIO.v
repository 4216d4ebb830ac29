(** Model of the file readers and the delta writer of py/qsonic/io.py.

    A FITS spectra file is a fibermap (TARGETID and exposure metadata per row)
    and one data record per row.  [D] stands for everything stored per fibermap
    row in the image HDUs of all arms (flux, ivar, mask, resolution), [E] for the
    exposure columns PETAL_LOC, FIBER, NIGHT, EXPID, TILEID. *)
From Coq Require Import String ZArith List Bool Arith Qcanon.
From Verif Require Import Num Exn NpList ModelCatalog.
Import ListNotations.
Local Open Scope nat_scope.

Section IO.
Context {D E : Type}.

(** numpy's argsort (quicksort, not stable): any function; the theorems assume
    only that it returns a sorting permutation. *)
Variable argsort : list Z -> list nat.

Record specfile := mkfile { fibermap : list (Z * E); images : list D }.

(** What _read_onehealpix_file returns: the image rows ([data] dictionary), the
    indices in the catalog, the reordered fibermap. *)
Record readout := mkread {
  rd_data : list D; rd_idx_cat : list nat; rd_fbrmap : list (Z * E) }.

(** io.py:354-437 _read_onehealpix_file (the RuntimeWarning is not modelled). *)
Definition read_onehealpix_file (targetids_by_survey : list Z) (f : specfile)
  : res readout :=
  let fbr_ids := map fst (fibermap f) in
  let idx_cat := map snd (intersect1d fbr_ids targetids_by_survey) in
  let idx_fbr := nonzero (map (fun t => zmem t targetids_by_survey) fbr_ids) in
  rbind (of_option "IndexError" (take_idx fbr_ids idx_fbr)) (fun targetids_fbr =>
  rbind (of_option "IndexError" (take_idx idx_fbr (argsort targetids_fbr))) (fun idx_fbr =>
  rbind (of_option "IndexError" (take_idx (images f) idx_fbr)) (fun data =>
  rbind (of_option "IndexError" (take_idx (fibermap f) idx_fbr)) (fun fbrmap =>
  Ok (mkread data idx_cat fbrmap))))).

(** spectrum.py:42-46 generate_spectra_list_from_data: row idx of the catalog is
    combined with row idx of the data (IndexError if the data is shorter). *)
Fixpoint generate_spectra_list {R} (cat : list R) (data : list D)
  : res (list (R * D)) :=
  match cat, data with
  | [], _ => Ok []
  | _ :: _, [] => Err (OtherExn "IndexError")
  | c :: cat', d :: data' => rmap (cons (c, d)) (generate_spectra_list cat' data')
  end.

(** io.py:541-542 (also 591-592, 650-651, 696-697). *)
Definition restrict_catalog (cat : list row) (idx_cat : list nat) : res (list row) :=
  if Nat.eqb (length idx_cat) (length cat) then Ok cat
  else of_option "IndexError" (take_idx cat idx_cat).

(** Reading the coadd file [f] for the catalog [cat] of a single survey:
    io.py:538-547. *)
Definition read_coadd_group (cat : list row) (f : specfile) : res (list (row * D)) :=
  rbind (read_onehealpix_file (map TARGETID cat) f) (fun rd =>
  rbind (restrict_catalog cat (rd_idx_cat rd)) (fun cat =>
  generate_spectra_list cat (rd_data rd))).

(** Reading the spectra file [f] with single exposures: io.py:587-603. *)
Definition read_uncoadd_group (cat : list row) (f : specfile)
  : res (list ((row * E) * D)) :=
  rbind (read_onehealpix_file (map TARGETID cat) f) (fun rd =>
  rbind (restrict_catalog cat (rd_idx_cat rd)) (fun cat =>
  rbind (of_option "IndexError"
           (take_idx cat (map (fun te => zsearchsorted (map TARGETID cat) (fst te))
                              (rd_fbrmap rd)))) (fun new_cat =>
  generate_spectra_list (combine new_cat (map snd (rd_fbrmap rd))) (rd_data rd)))).

(** Loop over the groups of a catalog split by SURVEY or PETAL_LOC.  [file k]
    is the outcome of opening the file of group key k.  The key of a group is
    taken from its first row (IndexError if the group is empty). *)
Fixpoint read_groups {X} (key : row -> Z)
  (reader : list row -> specfile -> res (list X)) (file : Z -> res specfile)
  (groups : list (list row)) : res (list (Z * X)) :=
  match groups with
  | [] => Ok []
  | g :: gs =>
      match g with
      | [] => Err (OtherExn "IndexError")
      | r0 :: _ =>
          rbind (file (key r0)) (fun f =>
          rbind (reader g f) (fun xs =>
          rmap (app (map (pair (key r0)) xs)) (read_groups key reader file gs)))
      end
  end.

(** io.py:499-549 read_onehealpix_file_data_coadd.  The result carries, for
    every spectrum, the survey of the file it was read from. *)
Definition read_onehealpix_file_data_coadd (catalog_hpx : list row)
  (file : Z -> res specfile) : res (list (Z * (row * D))) :=
  read_groups SURVEY read_coadd_group file (split_by_key SURVEY catalog_hpx).

(** io.py:552-605 read_onehealpix_file_data_uncoadd *)
Definition read_onehealpix_file_data_uncoadd (catalog_hpx : list row)
  (file : Z -> res specfile) : res (list (Z * ((row * E) * D))) :=
  read_groups SURVEY read_uncoadd_group file (split_by_key SURVEY catalog_hpx).

(** io.py:608-658 read_onetile_coaddfile_data (one file per PETAL_LOC; TILEID
    and LASTNIGHT of the file name are those of the first row). *)
Definition read_onetile_coaddfile_data (catalog_tile : list row)
  (file : Z -> res specfile) : res (list (Z * (row * D))) :=
  read_groups PETAL_LOC read_coadd_group file (split_by_key PETAL_LOC catalog_tile).

(** io.py:306-351 _read_true_continuum: rows of the TRUE_CONT table matched by
    TARGETID; [C] is a continuum row. *)
Definition read_true_continuum {C} (targetids : list Z) (table : list (Z * C))
  : res (list C) :=
  let common := intersect1d (map fst table) targetids in
  if negb (Nat.eqb (length common) (length targetids))
  then Err (OtherExn "RuntimeError: Error reading true continua")
  else of_option "IndexError"
         (take_idx (map snd table) (map (fun x => snd (fst x)) common)).

(** io.py:661-711 read_onehealpix_file_mock with read_true_continuum=True (the
    resolution matrix, shared by all quasars of the file, is not modelled). *)
Definition read_onehealpix_file_mock {C} (catalog_hpx : list row) (f : specfile)
  (truth : list (Z * C)) : res (list (row * (D * C))) :=
  rbind (read_onehealpix_file (map TARGETID catalog_hpx) f) (fun rd =>
  rbind (restrict_catalog catalog_hpx (rd_idx_cat rd)) (fun cat =>
  rbind (read_true_continuum (map TARGETID cat) truth) (fun conts =>
  rbind (generate_spectra_list cat (rd_data rd)) (fun specs =>
  Ok (map (fun x => (fst (fst x), (snd (fst x), snd x))) (combine specs conts)))))).

(** io.py:440-496 _read_onehealpix_file_onlyreso: zip(idx_fbr, spectra_list)
    pairs the resolution rows with the spectra.  [images f] holds the
    resolution matrices.  A spectrum not reached by zip keeps its (absent)
    matrix: [None]. *)
Fixpoint zip_reso (idx : list nat) (imgs : list D) (specs : list Z)
  : list (Z * option D) :=
  match specs with
  | [] => []
  | s :: specs' => match idx with
                   | [] => (s, None) :: zip_reso [] imgs specs'
                   | j :: idx' => (s, nth_error imgs j) :: zip_reso idx' imgs specs'
                   end
  end.
Definition read_onehealpix_file_onlyreso (targetids : list Z) (f : specfile)
  (spectra_ids : list Z) : list (Z * option D) :=
  let idx_fbr := map (fun x => snd (fst x))
                     (intersect1d (map fst (fibermap f)) targetids) in
  zip_reso idx_fbr (images f) spectra_ids.
End IO.
Arguments specfile : clear implicits.
Arguments readout : clear implicits.

(** ** Saving *)

(** What save_deltas needs to know of a spectrum: its healpix, whether its
    continuum is valid, and the spectrum itself (any identification). *)
Section Save.
Context {S : Type}.
Variable hpix : S -> Z.
Variable valid : S -> bool.
Variable argsort : list Z -> list nat.

(** The effect of save_deltas: the files created (clobbering an existing file
    with the same name) with the spectra written to each. *)
Definition saved := list (Z * list S).

(** io.py:226-275 save_deltas.  [outdir_empty] is `not outdir`, [mpi_rank] the
    optional rank, [blinding_set] the class-level state.  A file is identified
    by the number in its name delta-{n}.fits. *)
Definition save_deltas (spectra_list : list S) (outdir_empty save_by_hpx : bool)
  (mpi_rank : option Z) (blinding_set : bool) : res saved :=
  if outdir_empty then Ok [] else
  let groups : res (list Z * list (list S)) :=
    if save_by_hpx then
      let pixnos := map hpix spectra_list in
      let sort_idx := argsort pixnos in
      rbind (of_option "IndexError" (take_idx pixnos sort_idx)) (fun pixnos =>
      rbind (of_option "IndexError" (take_idx spectra_list sort_idx)) (fun specs =>
      Ok (np_unique pixnos, np_split specs (tl (np_unique_index pixnos)))))
    else match mpi_rank with
         | Some r => Ok ([r], [spectra_list])
         | None => Err (QsonicExn "save_by_hpx and mpi_rank can't both be None.")
         end in
  rbind groups (fun g =>
  if negb blinding_set
  then Err (QsonicExn "Blinding is not set. Cannot save delta.")
  else Ok (map (fun x => (fst x, filter valid (snd x)))
               (combine (fst g) (snd g)))).
End Save.

(** io.py:714-728 _float_range: float("nan") compares false with everything. *)
Definition float_range (f1 f2 : num) (f : num) : res num :=
  if nltb f f1 || nltb f2 f then Err (OtherExn "ArgumentTypeError") else Ok f.

(** scripts/qsonic_calib.py:157-166 mpi_read_all_deltas: the files read by a rank. *)
Definition calib_files_of_rank {F} (all_delta_files : list F) (mpi_size mpi_rank : nat)
  : list F :=
  let ndelta_all := length all_delta_files in
  let nfiles_per_rank := Nat.max 1 (ndelta_all / mpi_size) in
  let i1 := nfiles_per_rank * mpi_rank in
  let i2 := Nat.min ndelta_all (i1 + nfiles_per_rank) in
  slice i1 i2 all_delta_files.
