(** Specification vocabulary for the number of quasars in the variance statistics (C79). *)
From Coq Require Import List Bool Arith.
From Verif Require Import SpecVarFit.
Import ListNotations.
Local Open Scope nat_scope.

(** a quasar: the pixels of its arms *)
Definition quasar := list (list lsspix).
(** the number of quasars with a pixel in bin B, and the number of arms of a quasar with a pixel in it *)
Definition quasars_in (B : lsspix -> bool) (qs : list quasar) : nat := length (filter (fun q => existsb B (concat q)) qs).
Definition arms_in (B : lsspix -> bool) (q : quasar) : nat := length (filter (existsb B) q).
