(** Specification vocabulary for what becomes of the spectra of a run (C70). *)
From Coq Require Import ZArith String List Bool Arith Qcanon.
From Verif Require Import Num NpList Exn Dict ModelSpectrum ModelPipeline SpecDrop.
Import ListNotations.
Local Open Scope nat_scope.

(** After calibration and masking: more good pixels than the fraction skip of the
    forest, and at least the minimum signal-to-noise. *)
Definition enough (dwave : Qc) (a : runargs) (s : spec) : Prop :=
  (r_skip a = 0%Qc \/
   (r_skip a * forest_pixels s dwave (r_fw1 a) (r_fw2 a) < qsum (map good_pixels (dvals (fivar (s_f s)))))%Qc) /\
  exists m, get_effective_meansnr s = Ok m /\ nleb (r_minsnr a) m = true.
(** l' are the members of l with property P, in order *)
Inductive sublist_of {A} (P : A -> Prop) : list A -> list A -> Prop :=
| sub_nil : sublist_of P [] []
| sub_keep x l l' : P x -> sublist_of P l l' -> sublist_of P (x :: l) (x :: l')
| sub_skip x l l' : ~ P x -> sublist_of P l l' -> sublist_of P (x :: l) l'.
