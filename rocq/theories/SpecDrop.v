(** Specification vocabulary for dropping arms and spectra (C33, C34). *)
From Coq Require Import ZArith String List Bool Arith Qcanon.
From Verif Require Import Num NpList Exn Dict ModelSpectrum SpecSpectrum.
Import ListNotations.
Local Open Scope nat_scope.

(** everything a spectrum stores for one arm of its forest *)
Definition arm_state (s : spec) (arm : string) :=
  (dget arm (fw (s_f s)), dget arm (ff (s_f s)), dget arm (fivar (s_f s)),
   dget arm (fivar_sm (s_f s)), dget arm (fweight (s_f s)), dget arm (fr (s_f s)), dget arm (s_cont s)).
(** number of pixels with positive ivar *)
Definition good_pixels (iv : arr) : Qc := zq (Z.of_nat (length (filter (fun x => nltb n0 x) iv))).
Definition arm_good_pixels (s : spec) (arm : string) : Qc :=
  match dget arm (fivar (s_f s)) with Some iv => good_pixels iv | None => 0 end.
(** length of the whole forest region in pixels *)
Definition forest_pixels (s : spec) (dwave lya1 lya2 : Qc) : Qc :=
  ((1 + s_z s) * (lya2 - lya1) / dwave)%Qc.
