(** Specification of a continuum fit, independent of the model's helpers. *)
From Coq Require Import ZArith String List Bool Arith Qcanon.
From Verif Require Import Num NpList Exn Dict ModelSpectrum SpecSpectrum SpecWeights SpecStack.
Import ListNotations.
Local Open Scope nat_scope.

(** a forest before the fit: arrays aligned, at least one arm, finite flux,
    finite non-negative smoothed ivar *)
Definition fit_ready (s : spec) : Prop :=
  proper s /\ fw (s_f s) <> [] /\ NoDup (dkeys (fivar_sm (s_f s))) /\
  (forall arm l x, dget arm (ff (s_f s)) = Some l -> In x l -> exists q, x = Fin q) /\
  (forall arm l x, dget arm (fivar_sm (s_f s)) = Some l -> In x l -> exists q, x = Fin q /\ (0 <= q)%Qc).

(** sum over the pixels of weight * (flux - continuum)^2 *)
Definition weighted_chi2 (s : spec) : Qc :=
  qsum (map (fun p => q_weight p * ((q_flux p - q_cont p) * (q_flux p - q_cont p)))%Qc (spec_pixels s)).

(** wavelengths, data and everything that is not a result of the fit *)
Definition same_data (s s' : spec) : Prop :=
  fw (s_f s') = fw (s_f s) /\ ff (s_f s') = ff (s_f s) /\ fivar (s_f s') = fivar (s_f s) /\
  fivar_sm (s_f s') = fivar_sm (s_f s) /\ fr (s_f s') = fr (s_f s) /\
  s_cat s' = s_cat s /\ s_wave s' = s_wave s /\ s_flux s' = s_flux s /\ s_ivar s' = s_ivar s /\
  s_msnr s' = s_msnr s.

(** s' is s with the continuum c (a function of the observed wavelength) in
    every arm, the weights of this continuum and the chi2 *)
Definition fitted_with (varlss eta c : Qc -> Qc) (s s' : spec) : Prop :=
  s_valid s' = true /\ same_data s s' /\ proper s' /\
  (forall arm w, dget arm (fw (s_f s)) = Some w -> dget arm (s_cont s') = Some (map (fun x => Fin (c x)) w)) /\
  (forall arm k x i, at_pix (fw (s_f s)) arm k = Some x -> at_pix (fivar_sm (s_f s)) arm k = Some (Fin i) ->
     exists w, at_pix (fweight (s_f s')) arm k = Some w /\ weight_rule i (c x) (eta x) (varlss x) w) /\
  s_chi2 s' = Fin (weighted_chi2 s') /\ (0 <= weighted_chi2 s')%Qc.
(** s' is s without a continuum *)
Definition rejected (s s' : spec) : Prop :=
  s_valid s' = false /\ same_data s s' /\ s_cont s' = [] /\ s_chi2 s' = Fin (- (1)) /\ s_x s' = s_x s.

(** a0 + a1 t + a2 t^2 + ... *)
Fixpoint polynomial (a : list Qc) (t : Qc) : Qc :=
  match a with [] => 0%Qc | a0 :: r => (a0 + t * polynomial r t)%Qc end.
(** the pixels of the forest, as observed wavelengths *)
Definition forest_pixel (s : spec) (x : Qc) : Prop :=
  exists arm w, dget arm (fw (s_f s)) = Some w /\ In x w.

(** ** what the models compute *)
(** mean continuum times a polynomial of 2 slope - 1 *)
Definition model_at (meancont slope : Qc -> Qc) (a : list Qc) (w : Qc) : Qc :=
  (meancont w * polynomial a ((1 + 1) * slope w - 1))%Qc.
(** some forest pixel of the continuum c is negative *)
Definition negative_pixel (c : Qc -> Qc) (s : spec) : bool :=
  existsb (fun aw => existsb (fun x => qltb (c x) 0) (snd aw)) (fw (s_f s)).
(** an interpolated input continuum (of the rest-frame wavelength) may be missing (nan) *)
Definition opt_num (o : option Qc) : num := match o with Some q => Fin q | None => NaN end.
Definition opt_val (o : option Qc) : Qc := match o with Some q => q | None => 0%Qc end.
Definition bad_pixel (cubic : Qc -> option Qc) (s : spec) : bool :=
  existsb (fun aw => existsb (fun x => match cubic (x / (1 + s_z s))%Qc with Some q => qleb q 0 | None => true end) (snd aw))
          (fw (s_f s)).
