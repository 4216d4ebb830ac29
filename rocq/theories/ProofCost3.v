(** The cost of an accepted fit. *)
From Coq Require Import Field ZArith String List Bool Arith Lia Qcanon.
From Verif Require Import Num NpList NpListFacts Exn Dict ModelSpectrum ModelContinuum ModelCost SpecSpectrum SpecMasks SpecWeights
  SpecStack ProofWeights ProofCoadd ProofStack ProofSpectrum1 SpecContinuum ProofContinuum SpecCost ProofCost.
Import ListNotations.
Local Open Scope nat_scope.
Notation F f := (fun x : Qc => Fin (f x)).

Lemma weight_keeps varlss eta s s' : set_forest_weight varlss eta s = Ok s' -> s_valid s' = s_valid s /\ s_cont s' = s_cont s.
Proof.
  unfold set_forest_weight. destruct (negb (s_valid s) || negb (dtrue (s_cont s))); [intro E; injection E as <-; split; reflexivity|].
  match goal with |- rbind ?a _ = _ -> _ => destruct a end; [|discriminate]. cbn [rbind]. intro E. injection E as <-. split; reflexivity.
Qed.
Lemma chi2_keeps s s' : calc_continuum_chi2 s = Ok s' -> exists x, s' = set_chi2 x s.
Proof.
  unfold calc_continuum_chi2. destruct (negb (s_valid s) || negb (dtrue (s_cont s))); [intro E; injection E as <-; eauto|].
  match goal with |- rbind ?a _ = _ -> _ => destruct a end; [|discriminate]. cbn [rbind]. intro E. injection E as <-. eauto.
Qed.

Lemma reported_thm : forall meanflux varlss eta : Qc -> Qc,
  (forall x, (0 < eta x)%Qc) -> (forall x, (0 <= varlss x)%Qc) ->
  forall (log : Qc -> Qc) nlog, (forall q, (0 < q)%Qc -> nlog (Fin q) = Fin (log q)) ->
  forall meancont slope minimizer s xcov s' xcov' a, fit_ready s ->
  picca_fit (F meanflux) (F varlss) (F eta) (F meancont) (F slope) minimizer s xcov = Ok (s', xcov') ->
  s_valid s' = true -> s_x s' = map Fin a ->
  costfn (F meanflux) (F varlss) (F eta) (F meancont) (F slope) nlog s (map Fin a) =
  Ok (Fin (minus_two_log_likelihood log s')).
Proof.
  intros meanflux varlss eta He Hv log nlog Hl meancont slope minimizer s xcov s' xcov' a R E V X.
  unfold picca_fit in E. destruct (get_a0 s) as [a0|]; [|discriminate]. cbn [rbind] in E.
  destruct (minimizer s a0) as [r|]; [|discriminate]. cbn [rbind] in E.
  match type of E with rbind (set_forest_weight _ _ ?t) _ = _ => set (s1 := t) in E end.
  destruct (set_forest_weight (F varlss) (F eta) s1) as [s2|] eqn:E2; [|discriminate]. cbn [rbind] in E.
  destruct (calc_continuum_chi2 s2) as [s3|] eqn:E3; [|discriminate]. cbn [rbind] in E.
  destruct (weight_keeps _ _ _ _ E2) as (V2 & _). destruct (chi2_keeps _ _ E3) as (x2 & ->).
  cbn [set_chi2 s_valid] in E. destruct (s_valid s2) eqn:V2'.
  2: { injection E as <- _. cbn in V. congruence. }
  injection E as <- _. cbn [set_x s_x] in X.
  change (minus_two_log_likelihood log (set_x (m_x r) (set_chi2 x2 s2))) with (minus_two_log_likelihood log s2).
  symmetry in V2. unfold s1 in V2. destruct (m_valid r) eqn:Vm; [|discriminate V2].
  destruct (picca_arms (F meanflux) (F meancont) (F slope) (m_x r) (s_z s) (fw (s_f s)) []) as [ok cont] eqn:Ep.
  cbn [set_cont set_valid s_valid] in V2. subst ok. rewrite X in Ep. rewrite picca_arms_loop in Ep.
  set (shape := fun x => model_at meancont slope a (x / (1 + s_z s))%Qc).
  assert (NoDup (dkeys (fw (s_f s)))) as Nd by (destruct R as ((_ & N & _) & _); exact N).
  destruct (arms_loop_spec meanflux shape (fun w => cont_model (F meancont) (F slope) (map Fin a) (w / (1 + s_z s))%Qc)
    (existsb (fun c => nltb c n0)) (fw (s_f s))) with (cont := @nil (string * arr)) as (L1 & L2); [|exact Nd|].
  { intros arm w x _ _ _. apply cont_model_fin. }
  cbv zeta in L1, L2. rewrite Ep in L1, L2. cbn [fst snd] in L1, L2. symmetry in L1. apply negb_true_iff in L1.
  specialize (L2 L1).
  change (costfn (F meanflux) (F varlss) (F eta) (F meancont) (F slope) nlog s (map Fin a))
    with (costfn (F meanflux) (F varlss) (F eta) (F meancont) (F slope) nlog s1 (map Fin a)).
  apply (cost_at meanflux varlss eta meancont slope log nlog He Hv Hl s1 s2 a); [exact R|reflexivity| |exact E2].
  intros arm w Ew. unfold s1 in Ew |- *. cbn [set_cont set_valid s_f s_cont] in Ew |- *. rewrite L2, Ew. reflexivity.
Qed.

(** the cost of any parameters *)
Lemma everywhere_thm : forall meanflux varlss eta : Qc -> Qc,
  (forall x, (0 < eta x)%Qc) -> (forall x, (0 <= varlss x)%Qc) ->
  forall (log : Qc -> Qc) nlog, (forall q, (0 < q)%Qc -> nlog (Fin q) = Fin (log q)) ->
  forall meancont slope s a s1, fit_ready s ->
  let c x := (model_at meancont slope a (x / (1 + s_z s)) * meanflux x)%Qc in
  (forall arm w, dget arm (fw (s_f s)) = Some w -> dget arm (s_cont s) = Some (map (F c) w)) -> s_valid s = true ->
  set_forest_weight (F varlss) (F eta) s = Ok s1 ->
  costfn (F meanflux) (F varlss) (F eta) (F meancont) (F slope) nlog s (map Fin a) =
  Ok (Fin (minus_two_log_likelihood log s1)).
Proof.
  intros meanflux varlss eta He Hv log nlog Hl meancont slope s a s1 R c C V E.
  exact (cost_at meanflux varlss eta meancont slope log nlog He Hv Hl s s1 a R V C E).
Qed.
