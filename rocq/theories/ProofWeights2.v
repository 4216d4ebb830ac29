(** Statements of PropWeights.v assembled from the lemmas of ProofWeights and ProofCoadd. *)
From Coq Require Import ZArith String List Bool Arith Sorted Permutation Qcanon Lia.
From Verif Require Import Num NpList Exn Dict ModelSpectrum SpecSpectrum SpecMasks
  SpecWeights SpecCoadd ProofWeights ProofCoadd ProofCoadd2 ProofCoadd3.
Import ListNotations.
Local Open Scope nat_scope.

Lemma weights_thm (varlss eta : Qc -> Qc) s :
  proper s -> cont_matches s -> s_valid s = true -> s_cont s <> [] ->
  (forall x, (0 < eta x)%Qc) -> (forall x, (0 <= varlss x)%Qc) ->
  exists s', set_forest_weight (fun x => Fin (varlss x)) (fun x => Fin (eta x)) s = Ok s' /\
    proper s' /\ only_weights_changed s s' /\
    forall arm k x i c,
      at_pix (fw (s_f s)) arm k = Some x -> at_pix (fivar_sm (s_f s)) arm k = Some (Fin i) -> (0 <= i)%Qc ->
      at_pix (s_cont s) arm k = Some (Fin c) ->
      exists w, at_pix (fweight (s_f s')) arm k = Some w /\ weight_rule i c (eta x) (varlss x) w.
Proof.
  intros P C V Hc He Hv.
  destruct (set_forest_weight_spec (fun x => Fin (varlss x)) (fun x => Fin (eta x)) s P C V Hc)
    as (s' & E & P' & O & H).
  exists s'. repeat (split; [easy|]). intros arm k x i c Ex Ei Hi Ec. eexists. split; [exact (H arm k x (Fin i) (Fin c) Ex Ei Ec)|].
  now apply weight_formula_rule.
Qed.
Lemma coadd_thm nsqrt smooth junk dw varlss eta s :
  (forall l q, length (smooth l q) = length l) -> (0 < dw)%Qc -> coaddable dw s ->
  exists s' mn mx, coadd_arms_forest nsqrt smooth junk dw varlss eta s = Ok s' /\
    smallest s mn /\ largest s mx /\ proper s' /\ s_cat s' = s_cat s /\ s_valid s' = s_valid s /\
    fw (s_f s') = [("brz"%string, linspace mn mx (grid_n mn mx dw))] /\
    (forall j, j < grid_n mn mx dw ->
       exists f i, at_pix (ff (s_f s')) "brz" j = Some (Fin f) /\ at_pix (fivar (s_f s')) "brz" j = Some (Fin i) /\
         weighted_average (landing s mn dw j) f i) /\
    (s_cont s = [] -> s_cont s' = []) /\
    (s_cont s <> [] -> exists c', s_cont s' = [("brz"%string, c')] /\ length c' = grid_n mn mx dw /\
       forall arm k x, at_pix (fw (s_f s)) arm k = Some x ->
       exists j, j < grid_n mn mx dw /\ on_pixel mn dw j x = true /\
       exists arm' k' x' c, at_pix (fw (s_f s)) arm' k' = Some x' /\ on_pixel mn dw j x' = true /\
         at_pix (s_cont s) arm' k' = Some c /\ nth_error c' j = Some c) /\
    (s_valid s = true -> s_cont s <> [] -> forall j x i c,
       at_pix (fw (s_f s')) "brz" j = Some x -> at_pix (fivar_sm (s_f s')) "brz" j = Some i ->
       at_pix (s_cont s') "brz" j = Some c ->
       at_pix (fweight (s_f s')) "brz" j = Some (weight_formula i (eta x) (varlss x) c)).
Proof.
  intros Hs Hd (P & F1 & F2 & F3 & U & Wk & Hc & Hr).
  exact (coadd_spec nsqrt smooth Hs junk dw varlss eta s P F1 F2 F3 Hd U Wk Hc Hr).
Qed.
Lemma vals_fin (m : dict num) : (forall arm v, In (arm, v) m -> exists q, v = Fin q) ->
  dvals m = map Fin (map nval (dvals m)).
Proof.
  intro H. unfold dvals. induction m as [|(k, v) m IH]; [easy|]. cbn.
  destruct (H k v) as (q & ->); [now left|]. cbn. f_equal. apply IH. intros; eapply H; right; eauto.
Qed.
Lemma effective_bounds s m hi :
  s_msnr s = Some m -> (0 <= hi)%Qc ->
  (forall arm v, In (arm, v) m -> exists q, v = Fin q /\ (0 <= q)%Qc /\ (q <= hi)%Qc) ->
  exists r, get_effective_meansnr s = Ok (Fin r) /\ (0 <= r)%Qc /\ (r <= hi)%Qc.
Proof.
  intros E Hhi H. unfold get_effective_meansnr. rewrite E. cbn [of_option rmap].
  rewrite (vals_fin m) by (intros arm v Hin; destruct (H arm v Hin) as (q & ? & _); eauto).
  destruct (effective_snr_bounds 0 hi (map nval (dvals m))) as (r & -> & H1 & H2); auto.
  - apply Qcle_refl.
  - intros v Hv. apply in_map_iff in Hv as (x & <- & Hx). unfold dvals in Hx.
    apply in_map_iff in Hx as ((k, y) & <- & Hin). destruct (H k y Hin) as (q & -> & ?). easy.
  - exists r. easy.
Qed.
Lemma effective_order s s' m m' :
  s_msnr s = Some m -> s_msnr s' = Some m' -> Permutation m m' ->
  (forall arm v, In (arm, v) m -> exists q, v = Fin q) ->
  get_effective_meansnr s = get_effective_meansnr s'.
Proof.
  intros E E' P H. unfold get_effective_meansnr. rewrite E, E'. cbn [of_option rmap].
  rewrite (vals_fin m H). rewrite (vals_fin m').
  2: { intros arm v Hin. apply (H arm). eapply Permutation_in; [apply Permutation_sym|]; eauto. }
  cbn [rbind]. f_equal. apply effective_snr_perm. unfold dvals. now do 2 apply Permutation_map.
Qed.
Lemma effective_single s arm v :
  s_msnr s = Some [(arm, Fin v)] -> (0 < v)%Qc ->
  exists r, get_effective_meansnr s = Ok (Fin r) /\ (v - fq 1 100000000 / v <= r)%Qc /\ (r < v)%Qc.
Proof.
  intros E H. unfold get_effective_meansnr. rewrite E. cbn [of_option rmap rbind dvals map snd].
  destruct (effective_snr_single v H) as (r & -> & H1 & H2). exists r. easy.
Qed.
