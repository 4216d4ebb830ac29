(** What the files written by a whole run of qsonic-fit must satisfy. *)
From Coq Require Import ZArith List Bool Arith Qcanon.
From Verif Require Import Num ModelCatalog ModelSpectrum ModelIO ModelPipeline SpecCatalog.
Import ListNotations.
Local Open Scope nat_scope.

(** the identity of a quasar observation: TARGETID, with TILEID for tile-grouped data *)
Definition row_id (is_tile : bool) (r : row) : Z * Z := (TARGETID r, if is_tile then TILEID r else 0%Z).

(** The sky mask file is readable on all ranks or on none. *)
Definition sky_alike (w : world) (n : nat) : Prop :=
  forall a, w_parse w = Parsed a -> r_sky a = true -> forall r, r < n -> w_sky w r = None <-> w_sky w 0 = None.

(** A reader only returns spectra of the rows it was asked for. *)
Definition reads_requested (row_of : catrow -> row) (w : world) : Prop :=
  forall again r e cat l s, w_reader w again r e cat = Some l -> In s l -> In (row_of (s_cat s)) cat.

(** s is a valid spectrum with at least the minimum rsnr, of a quasar of the catalog file c inside the redshift
    limits that follow from the wavelength ranges, and of a requested survey *)
Definition requested (a : runargs) (c : catalog) (row_of : catrow -> row) (s : spec) : Prop :=
  let tol := ((r_fw2 a - r_fw1 a) * r_skip a)%Qc in
  s_valid s = true /\ nleb (r_minrsnr a) (s_rsnr s) = true /\
  exists row0, In row0 (rows c) /\
    z_selected (r_w1 a / (r_fw2 a - tol) - 1)%Qc (r_w2 a / (r_fw1 a + tol) - 1)%Qc row0 /\
    survey_selected (colnames c) (r_surveys a) row0 /\ same_but_pixel row0 (row_of (s_cat s)).
