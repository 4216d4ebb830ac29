(** Specification vocabulary for weights, redshift limits and S/N (C31, C34, C52). *)
From Coq Require Import ZArith String List Bool Arith Sorted Qcanon.
From Verif Require Import Num NpList Exn Dict ModelSpectrum SpecSpectrum.
Import ListNotations.
Local Open Scope nat_scope.

(** weight w of a pixel with (smoothed) ivar i, continuum c, eta e and var_lss v *)
Definition weight_rule (i c e v : Qc) (w : num) : Prop :=
  (i = 0%Qc -> w = n0) /\
  ((0 < i)%Qc -> exists q, w = Fin q /\ (0 < q)%Qc /\
     (c <> 0%Qc -> q * (c * c) = / (e * / (i * (c * c)) + v))%Qc /\
     (q <= i / e)%Qc /\ (q * (v * (c * c)) <= 1)%Qc).
(** everything but the weights is as before *)
Definition only_weights_changed (s s' : spec) : Prop :=
  fw (s_f s') = fw (s_f s) /\ ff (s_f s') = ff (s_f s) /\ fivar (s_f s') = fivar (s_f s) /\
  fivar_sm (s_f s') = fivar_sm (s_f s) /\ fr (s_f s') = fr (s_f s) /\
  s_cat s' = s_cat s /\ s_wave s' = s_wave s /\ s_flux s' = s_flux s /\ s_ivar s' = s_ivar s /\
  s_cont s' = s_cont s /\ s_valid s' = s_valid s /\ s_x s' = s_x s /\ s_chi2 s' = s_chi2 s /\
  s_msnr s' = s_msnr s.

(** consecutive pixels are dwave apart *)
Definition uniform (dwave : Qc) (grid : list Qc) : Prop :=
  forall k a b, nth_error grid k = Some a -> nth_error grid (S k) = Some b -> b = (a + dwave)%Qc.

(** ** Constructing many spectra in one process *)
Record initargs := mkInit {
  ia_cat : catrow; ia_wave : dict (list Qc); ia_flux : dict (list (list num));
  ia_ivar : dict (list (list num)); ia_mask : dict (list (list Z)); ia_reso : dict resoarg; ia_idx : nat }.
Fixpoint init_all (nsqrt : num -> num) (st : statics) (l : list initargs) : res (statics * list spec) :=
  match l with
  | [] => Ok (st, [])
  | a :: r =>
      rbind (spec_init nsqrt st (ia_cat a) (ia_wave a) (ia_flux a) (ia_ivar a) (ia_mask a) (ia_reso a) (ia_idx a))
        (fun p => rbind (init_all nsqrt (fst p) r) (fun q => Ok (fst q, snd p :: snd q)))
  end.
