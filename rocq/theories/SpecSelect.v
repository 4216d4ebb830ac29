(** Specification vocabulary for the selection of spectra (C66). *)
From Coq Require Import ZArith String List Bool Arith Qcanon.
From Verif Require Import Num NpList Exn Dict ModelSpectrum ModelPipeline SpecSpectrum SpecSnr.
Import ListNotations.
Local Open Scope nat_scope.

(** a spectrum as the readers construct it: no forest yet, one flux and ivar per wavelength *)
Definition fresh (s : spec) : Prop :=
  s_f s = empty_forest /\ NoDup (dkeys (s_wave s)) /\ data_matches_grid s /\
  (forall arm w, dget arm (s_wave s) = Some w -> ascending w).
(** it has an unmasked pixel inside the forest *)
Definition has_forest (a : runargs) (s : spec) : bool :=
  existsb (fun p => in_forestb (s_z s) (r_w1 a) (r_w2 a) (r_fw1 a) (r_fw2 a) (p_wave p) && unmasked p) (spectrum_pixels s).
Definition selected (a : runargs) (s : spec) : bool := has_forest a s && nleb (r_minrsnr a) (s_rsnr s).
(** the same quasar with the same RSNR *)
Definition same_object (s s' : spec) : Prop := s_cat s' = s_cat s /\ s_rsnr s' = s_rsnr s.
(** the spectra read from the catalogs of the queue, in order *)
Definition read_from (w : world) (again : bool) (rank : nat) (e : bool) (queue : list (list ModelCatalog.row)) (l : list spec) : Prop :=
  exists ll, Forall2 (fun cat m => w_reader w again rank e cat = Some m) queue ll /\ l = concat ll.
