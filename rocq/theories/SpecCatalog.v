(** Specification vocabulary for the catalog, distribution and reader
    properties (independent of the code's control flow). *)
From Coq Require Import String ZArith List Bool Arith Qcanon Permutation Sorting.Sorted.
From Verif Require Import Num Exn ModelCatalog.
Import ListNotations.
Local Open Scope nat_scope.

(** Z column inside the closed interval (a nan redshift is never inside). *)
Definition z_selected (zmin zmax : Qc) (r : row) : Prop :=
  exists z, row_z r = Fin z /\ (zmin <= z)%Qc /\ (z <= zmax)%Qc.

(** SURVEY requested; without a SURVEY column or without a request all rows are kept. *)
Definition survey_selected (cols : list string) (keep : option (list Z)) (r : row) : Prop :=
  match keep with
  | None => True
  | Some ks => In "SURVEY"%string cols -> In (SURVEY r) ks
  end.

(** Lexicographic strict order on integer columns. *)
Fixpoint lex_lt (keys : list (row -> Z)) (a b : row) : Prop :=
  match keys with
  | [] => False
  | k :: ks => (k a < k b)%Z \/ (k a = k b /\ lex_lt ks a b)
  end.

(** Same row except for the HPXPIXEL column, which holds the given number. *)
Definition same_but_pixel (r0 r : row) : Prop :=
  TARGETID r = TARGETID r0 /\ row_z r = row_z r0 /\ row_ra r = row_ra r0 /\
  row_dec r = row_dec r0 /\ SURVEY r = SURVEY r0 /\ TILEID r = TILEID r0 /\
  PETAL_LOC r = PETAL_LOC r0 /\ LASTNIGHT r = LASTNIGHT r0.

(** Some column of each alternative set exists. *)
Definition has_columns (req : list (list string)) (cols : list string) : Prop :=
  forall alt, In alt req -> exists c, In c alt /\ In c cols.

(** Uniqueness and columns that the reader demands. *)
Definition unique_ids (is_tile : bool) (rs : list row) : Prop :=
  if is_tile then NoDup (map (fun r => (TARGETID r, TILEID r)) rs)
  else NoDup (map TARGETID rs).

Definition columns_ok (is_mock is_tile : bool) (cols : list string) : Prop :=
  has_columns required_columns cols /\
  (is_mock = false -> has_columns required_data_columns cols) /\
  (is_tile = true -> has_columns required_tile_columns cols).

(** An argsort returns a permutation of the indices that sorts its argument;
    nothing is assumed about ties. *)
Definition argsort_ok (argsort : list Z -> list nat) : Prop :=
  forall l, Permutation (argsort l) (seq 0 (List.length l)) /\
            StronglySorted Z.le (map (fun i => nth i l 0%Z) (argsort l)).

(** Assignment of healpixels (or tiles) to ranks: [assign] lists for every rank
    the keys it owns; no key is owned twice and exactly the keys occurring in the
    catalog are owned. *)
Definition assigns_each_once (key : row -> Z) (cat : list row) (assign : list (list Z)) : Prop :=
  NoDup (concat assign) /\
  (forall k, In k (concat assign) <-> exists r, In r cat /\ key r = k).
