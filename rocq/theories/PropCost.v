(** C59: what the continuum fit minimizes. *)
From Coq Require Import QArith_base ZArith String List Bool Arith Lia Qcanon.
From Verif Require Import Num NpList Exn Dict ModelSpectrum ModelContinuum ModelCost SpecSpectrum SpecWeights SpecStack SpecContinuum
  SpecCost ProofCost ProofCost2 ProofCost3 PropMasks PropContinuum.
Import ListNotations.
Local Open Scope nat_scope.

(** For a spectrum whose continuum is the model of the parameters a, and with the weights of that continuum (s1), the function
    that is minimized has at a the value chi2 - sum of log(weight). *)
Theorem C59_cost : forall meanflux varlss eta : Qc -> Qc,
  (forall x, (0 < eta x)%Qc) -> (forall x, (0 <= varlss x)%Qc) ->
  forall (log : Qc -> Qc) nlog, (forall q, (0 < q)%Qc -> nlog (Fin q) = Fin (log q)) ->
  forall meancont slope s a s1, fit_ready s ->
  let c x := (model_at meancont slope a (x / (1 + s_z s)) * meanflux x)%Qc in
  (forall arm w, dget arm (fw (s_f s)) = Some w -> dget arm (s_cont s) = Some (map (F c) w)) -> s_valid s = true ->
  set_forest_weight (F varlss) (F eta) s = Ok s1 ->
  costfn (F meanflux) (F varlss) (F eta) (F meancont) (F slope) nlog s (map Fin a) =
  Ok (Fin (minus_two_log_likelihood log s1)).
Proof. exact everywhere_thm. Qed.
Print Assumptions C59_cost.

(** An accepted fit: the cost of its parameters is that of the written continuum, weights and fluxes, for every minimizer. *)
Theorem C59_reported : forall meanflux varlss eta : Qc -> Qc,
  (forall x, (0 < eta x)%Qc) -> (forall x, (0 <= varlss x)%Qc) ->
  forall (log : Qc -> Qc) nlog, (forall q, (0 < q)%Qc -> nlog (Fin q) = Fin (log q)) ->
  forall meancont slope minimizer s xcov s' xcov' a, fit_ready s ->
  picca_fit (F meanflux) (F varlss) (F eta) (F meancont) (F slope) minimizer s xcov = Ok (s', xcov') ->
  s_valid s' = true -> s_x s' = map Fin a ->
  costfn (F meanflux) (F varlss) (F eta) (F meancont) (F slope) nlog s (map Fin a) =
  Ok (Fin (minus_two_log_likelihood log s')).
Proof. exact reported_thm. Qed.
Print Assumptions C59_reported.

(** Changing the flux of masked pixels changes nothing in the outcome but that flux: same validity, continuum, weights, chi2,
    parameters, covariance and errors, for every interpolators (also with inf or nan) and every minimizer. *)
Theorem C59_masked : forall meanflux varlss eta meancont slope nlog opt, (forall x0, extensional (fun f => opt f x0)) ->
  forall d s xcov, fit_ready s -> fit_ready (with_flux d s) -> differs_where_masked d s ->
  let fit t := picca_fit meanflux varlss eta meancont slope (minimize meanflux varlss eta meancont slope nlog opt) t xcov in
  fit (with_flux d s) = rmap (fun r => (with_flux d (fst r), snd r)) (fit s).
Proof. exact masked_thm. Qed.
Print Assumptions C59_masked.

(** ** the hypotheses are met *)
(** a minimizer that tries the starting point and 2 *)
Definition ex_opt (f : list num -> res num) (x0 : list num) : res minres :=
  match f x0, f [Fin (zq 2)] with
  | Ok (Fin p), Ok (Fin q) => Ok (mkMin true (if qltb p q then x0 else [Fin (zq 2)]) [])
  | Err e, _ | _, Err e => Err e
  | _, _ => Ok (mkMin false x0 [])
  end.
Lemma ex_opt_ext x0 : extensional (fun f => ex_opt f x0).
Proof. intros f g H. unfold ex_opt. now rewrite !H. Qed.
Definition ex_log (q : Qc) : Qc := (q - 1)%Qc.
Definition ex_nlog (x : num) : num := match x with Fin q => Fin (ex_log q) | _ => NaN end.
Definition ex_start : spec := set_x [n1] (ex_forest (zq 2) 0 0).
Definition ex_change (v : Z) : dict arr :=
  [("b"%string, map (fun x => Fin (zq x)) [1; v; 3; 4; 5]%Z); ("r"%string, map (fun x => Fin (zq x)) [6; 7]%Z)].
Definition ex_fit (s : spec) : res (spec * mat) :=
  let c1 := fun _ => Fin (fq 1 2) in
  picca_fit c1 c1 (fun _ => Fin (zq 2)) (fun _ => n1) (fun _ => n0)
    (minimize c1 c1 (fun _ => Fin (zq 2)) (fun _ => n1) (fun _ => n0) ex_nlog ex_opt) s [].
Lemma ex_change_ready v : fit_ready (with_flux (ex_change v) ex_start).
Proof.
  destruct ex_ready as ((Al & P) & Ne & Nd & _ & Fi).
  split; [split; [|exact P]|]; [|split; [exact Ne|split; [exact Nd|split; [|exact Fi]]]].
  - intro arm. destruct (Al arm) as (_ & A). split; [|exact A]. unfold len_at. cbn.
    destruct (String.eqb arm "b"); [reflexivity|]. now destruct (String.eqb arm "r").
  - intros arm l x. cbn [dget ff s_f with_flux set_f set_ff ex_change]. destruct (String.eqb arm "b"); [|destruct (String.eqb arm "r"); [|discriminate]];
      intro H; injection H as <-; cbn; intros K; repeat (destruct K as [<-|K]; [eauto|]); destruct K.
Qed.
Example C59_masked_ex : forall v,
  fit_ready ex_start /\ fit_ready (with_flux (ex_change v) ex_start) /\ differs_where_masked (ex_change v) ex_start /\
  forall x0, extensional (fun f => ex_opt f x0).
Proof.
  intro v. split; [exact ex_ready|]. split; [apply ex_change_ready|]. split; [|exact ex_opt_ext].
  intros arm k. unfold at_pix, fivar_sm. cbn [dget ff s_f ex_start set_x ex_forest ex_change hp rs nth].
  destruct (String.eqb arm "b"); [|left; reflexivity].
  do 2 (destruct k as [|k]; [(left; reflexivity) || (right; reflexivity)|]). left. reflexivity.
Qed.
(** an accepted fit, before and after a change of the masked pixel *)
Example C59_ex :
  match ex_fit ex_start, ex_fit (with_flux (ex_change 1000) ex_start) with
  | Ok (s', _), Ok (t', _) => s_valid s' = true /\
      (exists a, s_x s' = map Fin a) /\ s_x t' = s_x s' /\ s_chi2 t' = s_chi2 s' /\ s_cont t' = s_cont s' /\ ff (s_f t') <> ff (s_f s') /\
      this (minus_two_log_likelihood ex_log s') <> this (weighted_chi2 s')
  | _, _ => False
  end.
Proof. vm_compute. repeat split; try discriminate. eexists [_]. reflexivity. Qed.
