(** Specification vocabulary for the weights that leave the continuum fitting (C47, C48). *)
From Coq Require Import ZArith String List Bool Arith Qcanon.
From Verif Require Import Num NpList Exn Dict Mpi ModelSpectrum SpecSpectrum.
Import ListNotations.
Local Open Scope nat_scope.

(** the weights of s are ivar / (eta + ivar var_lss cont^2), where the inverse
    variance and the continuum are those of [ivar] and [cont] *)
Definition weighted (ivar cont : dict (list num)) (varlss eta : Qc -> num) (s : spec) : Prop :=
  forall arm k w i c,
    at_pix (fw (s_f s)) arm k = Some w -> at_pix ivar arm k = Some i -> at_pix cont arm k = Some c ->
    at_pix (fweight (s_f s)) arm k = Some (ndiv i (nadd (eta w) (nmul i (nmul (varlss w) (nsq c))))).

(** The columns of a delta file are IVAR = ivar cont^2 and WEIGHT = weight cont^2
    (C35).  [file_weights]: in every pixel with positive IVAR where eta and
    var_lss are sensible, WEIGHT = 1 / (eta / IVAR + var_lss). *)
Definition file_weights (varlss eta : Qc -> num) (s : spec) : Prop :=
  forall arm k w i c e v,
    at_pix (fw (s_f s)) arm k = Some w -> at_pix (fivar (s_f s)) arm k = Some (Fin i) ->
    at_pix (s_cont s) arm k = Some (Fin c) -> eta w = Fin e -> varlss w = Fin v ->
    (0 < e)%Qc -> (0 <= v)%Qc -> (0 < i * (c * c))%Qc ->
    exists q, at_pix (fweight (s_f s)) arm k = Some (Fin q) /\
              (q * (c * c) = / (e * / (i * (c * c)) + v))%Qc.

(** [weights_explained]: in every pixel with positive IVAR and a finite WEIGHT other
    than zero, eta and var_lss are finite and WEIGHT = 1 / (eta / IVAR + var_lss).
    (Without this a pair that is nan everywhere would do in [file_weights].) *)
Definition weights_explained (varlss eta : Qc -> num) (s : spec) : Prop :=
  forall arm k w i c q,
    at_pix (fw (s_f s)) arm k = Some w -> at_pix (fivar (s_f s)) arm k = Some (Fin i) ->
    at_pix (s_cont s) arm k = Some (Fin c) -> at_pix (fweight (s_f s)) arm k = Some (Fin q) ->
    (0 < i * (c * c))%Qc -> q <> 0%Qc ->
    exists e v, eta w = Fin e /\ varlss w = Fin v /\ (q * (c * c) = / (e * / (i * (c * c)) + v))%Qc.

(** s is s0 with cont scaled by K(wave), if [norm], and ivar divided by eta(wave), if [cal] *)
Definition scaled_pix (b : bool) (f : num -> num) (x : option num) : option num := if b then option_map f x else x.
Definition rescaled (norm cal : bool) (K eta : Qc -> num) (s0 s : spec) : Prop :=
  fw (s_f s) = fw (s_f s0) /\
  forall arm k w, at_pix (fw (s_f s0)) arm k = Some w ->
    at_pix (s_cont s) arm k = scaled_pix norm (fun c => nmul c (K w)) (at_pix (s_cont s0) arm k) /\
    at_pix (fivar (s_f s)) arm k = scaled_pix cal (fun i => ndiv i (eta w)) (at_pix (fivar (s_f s0)) arm k).

(** a spectrum of Python: the arms of forestwave are distinct, the dictionaries
    exist, and without smoothing the smoothed ivar is the ivar (the state after
    set_forest_region, and after set_smooth_forestivar) *)
Definition plain_forest (s : spec) : Prop :=
  NoDup (dkeys (fw (s_f s))) /\ ri (s_f s) < length (hp (s_f s)) /\ rs (s_f s) < length (hp (s_f s)) /\
  ((s_sscale s <= 0)%Qc -> rs (s_f s) = ri (s_f s)).

(** all ranks finish, rank r with f r *)
Definition finishes {V A} (n : nat) (p : nat -> prog V A) (f : nat -> A) : Prop :=
  spmd n p = Done (map (fun r => Finished (f r)) (seq 0 n)).
