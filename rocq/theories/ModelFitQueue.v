(** Model of the queue handling of py/qsonic/scripts/qsonic_fit.py. *)
From Coq Require Import String ZArith List Bool Arith.
From Verif Require Import Num NpList ModelCatalog.
Import ListNotations.

(** scripts/qsonic_fit.py:389-401 mpi_read_exposures_after: the local catalog of
    the fitted spectra is sorted again by HPXPIXEL, TARGETID and split by
    HPXPIXEL.  TARGETIDs are unique here, so that the sort has no ties. *)
Definition exposure_queue (catrows : list row) : list (list row) :=
  split_by_key HPXPIXEL (isort (lexleb [HPXPIXEL; TARGETID]) catrows).
