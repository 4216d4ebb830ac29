(** C60: transmission of damped absorbers. *)
From Coq Require Import Reals List Lra Permutation.
From Verif Require Import ModelDla ProofDla.
Import ListNotations.
Local Open Scope R_scope.

(** The transmission lies in (0, 1]: dividing the flux by it never divides by zero and never lowers the flux. *)
Theorem C60_range : forall wave dlas, (forall d, In d dlas -> 0 < 1 + fst d) -> 0 < get_all_dlas wave dlas <= 1.
Proof. exact range_thm. Qed.
Print Assumptions C60_range.

(** Each further DLA lowers it at every wavelength. *)
Theorem C60_more : forall wave dlas more, (forall d, In d (dlas ++ more) -> 0 < 1 + fst d) -> more <> [] ->
  get_all_dlas wave (dlas ++ more) < get_all_dlas wave dlas.
Proof. exact more_thm. Qed.
Print Assumptions C60_more.

(** The order of the DLAs in the catalog does not matter. *)
Theorem C60_order : forall wave dlas dlas', Permutation dlas dlas' -> get_all_dlas wave dlas = get_all_dlas wave dlas'.
Proof. exact all_perm. Qed.
Print Assumptions C60_order.

(** A larger column density absorbs more at every wavelength. *)
Theorem C60_column_density : forall wave z nhi nhi', 0 < 1 + z -> nhi < nhi' ->
  get_dla_flux wave z nhi' 10 < get_dla_flux wave z nhi 10.
Proof. exact column_thm. Qed.
Print Assumptions C60_column_density.

(** Outside of the Lyman alpha and beta lines of all DLAs, the transmission grows with the distance: a pixel w farther out than
    v (redwards of Lyman alpha or bluewards of Lyman beta of every DLA) is less absorbed, so it is not masked unless v is. *)
Theorem C60_wings : forall v w dlas, dlas <> [] ->
  (forall d, In d dlas -> 0 < 1 + fst d /\
     ((wave_lya_A * (1 + fst d) <= v /\ v < w) \/ (w < v /\ v <= wave_lyb_A * (1 + fst d)))) ->
  get_all_dlas v dlas < get_all_dlas w dlas.
Proof. exact wings_thm. Qed.
Print Assumptions C60_wings.

(** two DLAs, one pixel redwards of both *)
Example C60_ex : let dlas := [(2, 20.3); (2.2, 21)] in
  dlas <> [] /\ (forall d, In d dlas -> 0 < 1 + fst d) /\
  forall d, In d dlas -> 0 < 1 + fst d /\
     ((wave_lya_A * (1 + fst d) <= 3900 /\ 3900 < 3901) \/ (3901 < 3900 /\ 3900 <= wave_lyb_A * (1 + fst d))).
Proof.
  cbv zeta. split; [discriminate|]. split; intros d [<-|[<-|[]]]; cbn [fst]; unfold wave_lya_A; [lra|lra| |]; split; try lra; left; lra.
Qed.
