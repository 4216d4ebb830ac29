(** Model of py/qsonic/catalog.py. *)
From Coq Require Import String ZArith List Bool Arith Qcanon.
From Verif Require Import Num Exn NpList Mpi ModelMpiUtils.
Import ListNotations.
Local Open Scope nat_scope.

(** One row of the structured catalog array.  SURVEY strings are represented by
    integers in the order of the strings (only equality and order are used).
    [row_z] may be nan.  [row_ra], [row_dec] only feed ang2pix. *)
Record row := mkrow {
  TARGETID : Z; row_z : num; row_ra : num; row_dec : num;
  SURVEY : Z; HPXPIXEL : Z; TILEID : Z; PETAL_LOC : Z; LASTNIGHT : Z }.

(** A catalog: its column names (dtype.names) and rows.  Renamed columns
    (TARGET_RA -> RA, COADD_LASTNIGHT -> LASTNIGHT; catalog.py:264-275) are
    already stored in the field of their final name. *)
Record catalog := mkcat { colnames : list string; rows : list row }.

Definition smem (s : string) (l : list string) : bool := existsb (String.eqb s) l.

(** catalog.py:17-28 required columns, each element a set of alternatives. *)
Definition required_columns : list (list string) :=
  [["TARGETID"]; ["Z"]; ["TARGET_RA"; "RA"]; ["TARGET_DEC"; "DEC"]]%string.
Definition required_data_columns : list (list string) :=
  [["SURVEY"]; ["COADD_LASTNIGHT"; "LAST_NIGHT"; "LASTNIGHT"]]%string.
Definition required_tile_columns : list (list string) :=
  [["TILEID"]; ["PETAL_LOC"]]%string.

(** catalog.py:203-223 _check_required_columns: is some column of every set present? *)
Definition check_required_columns (req : list (list string)) (cols : list string)
  : bool := forallb (fun reqset => existsb (fun c => smem c cols) reqset) req.

(** np.unique(catalog[['TARGETID', 'TILEID']]).size *)
Fixpoint pair_uniq (l : list (Z * Z)) : list (Z * Z) :=
  match l with
  | [] => []
  | p :: r => if existsb (fun q => Z.eqb (fst p) (fst q) && Z.eqb (snd p) (snd q)) r
              then pair_uniq r else p :: pair_uniq r
  end.

(** catalog.py:226-277 _validate_adjust_column_names (logging not modelled). *)
Definition validate_adjust_column_names (c : catalog) (is_mock is_tile : bool)
  : res catalog :=
  if negb (check_required_columns required_columns (colnames c))
  then Err (OtherExn "One of these columns must be present in the catalog")
  else if negb is_mock
          && negb (check_required_columns required_data_columns (colnames c))
  then Err (OtherExn "One of these columns must be present in the catalog")
  else if is_tile
          && negb (check_required_columns required_tile_columns (colnames c))
  then Err (OtherExn "One of these columns must be present in the catalog")
  else
    let nqso := length (rows c) in
    if negb is_tile
       && negb (Nat.eqb nqso (length (np_unique (map TARGETID (rows c)))))
    then Err (OtherExn "There are duplicate TARGETIDs in catalog!")
    else if is_tile
       && negb (Nat.eqb nqso
            (length (pair_uniq (map (fun r => (TARGETID r, TILEID r)) (rows c)))))
    then Err (OtherExn "There are duplicate TARGETID - TILEID combinations in catalog!")
    else Ok c.

Definition set_hpx (p : Z) (r : row) : row :=
  mkrow (TARGETID r) (row_z r) (row_ra r) (row_dec r)
        (SURVEY r) p (TILEID r) (PETAL_LOC r) (LASTNIGHT r).

Section Catalog.
(** healpy.ang2pix(n_side, ra, dec, lonlat=True, nest=True): any function. *)
Variable ang2pix : Z -> num -> num -> Z.

(** catalog.py:313-336 _add_healpix *)
Definition add_healpix (c : catalog) (n_side : Z) (keep_columns : list string)
  : catalog :=
  if smem "HPXPIXEL" keep_columns then c
  else mkcat (colnames c ++ ["HPXPIXEL"%string])
         (map (fun r => set_hpx (ang2pix n_side (row_ra r) (row_dec r)) r) (rows c)).

(** catalog.py:372-383: the columns the catalog is sorted by. *)
Definition sort_order (has_survey : bool) (keep_surveys : option (list Z))
  (is_tile : bool) : list (row -> Z) :=
  if is_tile then [TILEID; PETAL_LOC; TARGETID]
  else match keep_surveys with
       | Some ks => if has_survey && Nat.ltb 1 (length ks)
                    then [HPXPIXEL; SURVEY; TARGETID]
                    else [HPXPIXEL; TARGETID]
       | None => [HPXPIXEL; TARGETID]
       end.

(** catalog.py:339-393 _prime_catalog.  numpy's sort(order=...) breaks ties of
    the listed fields by the remaining fields; ties cannot occur here because
    TARGETID (or TARGETID, TILEID) is unique. *)
Definition prime_catalog (c : catalog) (n_side : Z)
  (keep_surveys : option (list Z)) (zmin zmax : num) (is_tile : bool)
  : res catalog :=
  let has_survey := smem "SURVEY" (colnames c) in
  let rs := filter (fun r => nleb zmin (row_z r) && nleb (row_z r) zmax) (rows c) in
  let rs := match keep_surveys with
            | Some ks => if has_survey then filter (fun r => zmem (SURVEY r) ks) rs
                         else rs
            | None => rs
            end in
  if Nat.eqb (length rs) 0 then Err (OtherExn "Empty quasar catalogue.")
  else
    let c1 := add_healpix (mkcat (colnames c) rs) n_side (colnames c) in
    Ok (mkcat (colnames c1)
          (isort (lexleb (sort_order has_survey keep_surveys is_tile)) (rows c1))).

(** catalog.py:41-82 read_quasar_catalog.  [file] is the outcome of _read
    (catalog.py:280-310): the columns and rows found in the FITS file. *)
Definition read_quasar_catalog (file : res catalog) (is_mock is_tile : bool)
  (keep_surveys : option (list Z)) (zmin zmax : num) : res (list row) :=
  let n_side := if is_mock then 16%Z else 64%Z in
  rbind file (fun c =>
  rbind (validate_adjust_column_names c is_mock is_tile) (fun c =>
  rmap rows (prime_catalog c n_side keep_surveys zmin zmax is_tile))).

(** Values communicated by mpi_get_local_queue. *)
Inductive qval := VStatus (b : bool) | VQueue (q : list (list row)).

(** catalog.py:185-196: grouping and balancing on the root rank. *)
Definition make_queues (is_tile : bool) (mpi_size : nat) (cat : list row)
  : list (list (list row)) :=
  balance_load (split_by_key (if is_tile then TILEID else HPXPIXEL) cat) mpi_size.

(** catalog.py:133-200 mpi_get_local_queue, as the program of rank [mpi_rank].
    [use_comm = false] is comm=None: comm.bcast raises AttributeError. *)
Definition mpi_get_local_queue (file : res catalog) (use_comm : bool)
  (mpi_rank mpi_size : nat) (is_mock is_tile : bool)
  (keep_surveys : option (list Z)) (zmin zmax : num)
  : prog qval (list (list row)) :=
  let cat := read_quasar_catalog file is_mock is_tile keep_surveys zmin zmax in
  let status := if Nat.eqb mpi_rank 0
                then match cat with Ok _ => Ok true
                                  | Err SysExit => Err SysExit
                                  | Err _ => Ok false end
                else Ok false in
  match status with
  | Err e => Raise e
  | Ok status =>
    if negb use_comm then Raise (OtherExn "AttributeError: bcast") else
    Bcast (VStatus status) (fun v =>
      match v with
      | VStatus true =>
          let queue := if Nat.eqb mpi_rank 0
            then match cat with
                 | Ok c => Some (map VQueue (make_queues is_tile mpi_size c))
                 | Err _ => None
                 end
            else None in
          Scatter queue (fun v => match v with
                                  | VQueue q => Ret q
                                  | VStatus _ => Raise (OtherExn "impossible")
                                  end)
      | VStatus false => Raise (QsonicExn "Error while reading catalog.")
      | VQueue _ => Raise (OtherExn "impossible")
      end)
  end.
End Catalog.
