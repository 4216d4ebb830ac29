(** Proofs about the cost function of the continuum fit. *)
From Coq Require Import Field ZArith String List Bool Arith Lia Qcanon.
From Verif Require Import Num NpList NpListFacts Exn Dict ModelSpectrum ModelContinuum ModelCost SpecSpectrum SpecMasks SpecWeights
  SpecStack ProofWeights ProofCoadd ProofStack ProofSpectrum1 SpecContinuum ProofContinuum SpecCost.
Import ListNotations.
Local Open Scope nat_scope.

Lemma cost_arm_eq meanflux varlss eta meancont slope nlog x z wave fl iv :
  cost_arm meanflux varlss eta meancont slope nlog x z wave fl iv =
  let est := map2 nmul (map (fun w => cont_model meancont slope x (w / (1 + z))%Qc) wave) (map meanflux wave) in
  rbind (weight_arm varlss eta wave iv est) (fun weight =>
  rbind (zip2 (fun f c => nsq (nsub f c)) fl est) (fun d2 =>
  rbind (ndot weight d2) (fun d =>
  Ok (nsub d (nsum (map nlog (filter npos weight))))))).
Proof.
  unfold cost_arm, weight_arm. cbv zeta. destruct (zip2 _ wave _) as [vl|]; [|reflexivity]. cbn [rbind].
  destruct (zip2 nmul iv vl) as [ivl|]; [|reflexivity]. cbn [rbind].
  destruct (zip2 _ wave ivl) as [den|]; reflexivity.
Qed.

Lemma nth_error_Some_lt {A} (l : list A) k x : nth_error l k = Some x -> k < length l.
Proof. intro H. apply nth_error_Some. congruence. Qed.
Lemma nth_error_ext {A} (l m : list A) : length l = length m -> (forall k, nth_error l k = nth_error m k) -> l = m.
Proof.
  revert m. induction l as [|x l IH]; intros [|y m] L H; try discriminate; [reflexivity|].
  pose proof (H 0) as H0. cbn in H0. injection H0 as ->. f_equal. apply IH; [now injection L|]. intro k. exact (H (S k)).
Qed.

(** the weights that are stored, arm by arm *)
Lemma stored_weights varlss eta s s' : proper s -> cont_matches s -> s_valid s = true -> s_cont s <> [] ->
  set_forest_weight varlss eta s = Ok s' ->
  only_weights_changed s s' /\
  forall arm w, dget arm (fw (s_f s)) = Some w -> exists c iv fl wt,
    dget arm (s_cont s) = Some c /\ dget arm (fivar_sm (s_f s)) = Some iv /\ dget arm (ff (s_f s)) = Some fl /\
    dget arm (fweight (s_f s')) = Some wt /\ weight_arm varlss eta w iv c = Ok wt /\
    length c = length w /\ length iv = length w /\ length fl = length w /\ length wt = length w.
Proof.
  intros P C V Nc E. destruct (set_forest_weight_spec varlss eta s P C V Nc) as (s2 & E2 & P2 & O & W).
  rewrite E in E2. injection E2 as <-. split; [exact O|]. intros arm w Ew.
  destruct P as (Al & _). destruct (Al arm) as (A1 & _ & A3 & _). destruct P2 as (Al2 & _). destruct (Al2 arm) as (_ & _ & _ & B4).
  destruct O as (O1 & O). rewrite O1 in B4.
  assert (len_at (fw (s_f s)) arm = Some (length w)) as L0 by (unfold len_at; now rewrite Ew).
  rewrite L0 in A1, A3, B4. pose proof (C arm) as Cm. rewrite Ew, L0 in Cm. specialize (Cm ltac:(discriminate)).
  apply len_some in A1 as (f & Ef & Lf). apply len_some in A3 as (iv & Ei & Li).
  apply len_some in B4 as (wt & Et & Lt). apply len_some in Cm as (c & Ec & Lc).
  exists c, iv, f, wt. repeat (split; [assumption|]). split; [|auto].
  destruct (weight_arm_nth varlss eta w iv c Li Lc) as (r & Er & Lr & Hr). rewrite Er. f_equal.
  apply nth_error_ext; [congruence|]. intro k. destruct (nth_error w k) as [x|] eqn:Ex.
  - destruct (nth_error iv k) as [i|] eqn:Eiv; [|apply nth_error_None in Eiv; apply nth_error_Some_lt in Ex; lia].
    destruct (nth_error c k) as [y|] eqn:Ey; [|apply nth_error_None in Ey; apply nth_error_Some_lt in Ex; lia].
    rewrite (Hr k x i y Ex Eiv Ey). specialize (W arm k x i y). unfold at_pix in W. rewrite Ew, Ei, Ec, Et in W.
    symmetry. now apply W.
  - apply nth_error_None in Ex. rewrite (proj2 (nth_error_None r k)), (proj2 (nth_error_None wt k)) by lia. reflexivity.
Qed.

Lemma filter_npos_fin l : filter npos (map Fin l) = map Fin (filter (qltb 0) l).
Proof.
  induction l as [|x l IH]; [reflexivity|]. cbn [map filter]. change (npos (Fin x)) with (qltb 0 x).
  destruct (qltb 0 x); cbn [map]; now rewrite IH.
Qed.

Section Cost.
Variables meanflux varlss eta meancont slope log : Qc -> Qc.
Variable nlog : num -> num.
Notation F f := (fun x : Qc => Fin (f x)).
Hypothesis Heta : forall x, (0 < eta x)%Qc.
Hypothesis Hvar : forall x, (0 <= varlss x)%Qc.
Hypothesis Hlog : forall q, (0 < q)%Qc -> nlog (Fin q) = Fin (log q).

Lemma nlog_fin l : (forall q, In q l -> (0 < q)%Qc) -> nsum (map nlog (map Fin l)) = Fin (qsum (map log l)).
Proof.
  intro H. rewrite map_map. rewrite (map_ext_in _ (fun q => Fin (log q))) by (intros q Hq; apply Hlog, H, Hq).
  rewrite <- (map_map log Fin). apply nsum_fin.
Qed.

Lemma cost_at s s2 a : fit_ready s -> s_valid s = true ->
  (forall arm w, dget arm (fw (s_f s)) = Some w -> dget arm (s_cont s) =
     Some (map (fun x => Fin (model_at meancont slope a (x / (1 + s_z s)) * meanflux x)%Qc) w)) ->
  set_forest_weight (F varlss) (F eta) s = Ok s2 ->
  costfn (F meanflux) (F varlss) (F eta) (F meancont) (F slope) nlog s (map Fin a) =
  Ok (Fin (minus_two_log_likelihood log s2)).
Proof.
  intros (P & Ne & Nd & Ff & Fi) V C E2.
  set (c := fun x => (model_at meancont slope a (x / (1 + s_z s)) * meanflux x)%Qc) in *.
  assert (s_cont s <> []) as Nc.
  { destruct (fw (s_f s)) as [|[b w] r] eqn:E; [contradiction|]. specialize (C b w). cbn in C. rewrite String.eqb_refl in C.
    intro K. rewrite K in C. specialize (C eq_refl). discriminate. }
  assert (cont_matches s) as CM.
  { intros arm H. unfold len_at. destruct (dget arm (fw (s_f s))) as [w|] eqn:E; [|contradiction].
    rewrite (C arm w E). cbn. now rewrite map_length. }
  destruct (stored_weights _ _ s s2 P CM V Nc E2) as (O & W).
  destruct O as (O1 & O2 & O3 & O4 & O5 & O6 & O7 & O8 & O9 & O10 & O11 & O12 & O13 & O14).
  unfold costfn, minus_two_log_likelihood, weighted_chi2, spec_pixels. rewrite O1.
  assert (forall l acc, (forall arm w, In (arm, w) l -> dget arm (fw (s_f s)) = Some w) ->
    for_each l (fun aw (cost : num) =>
    rbind (rget (fst aw) (fivar_sm (s_f s))) (fun iv =>
    rbind (rget (fst aw) (ff (s_f s))) (fun fl =>
    rbind (cost_arm (F meanflux) (F varlss) (F eta) (F meancont) (F slope) nlog (map Fin a) (s_z s) (snd aw) fl iv) (fun c =>
    Ok (nadd cost c))))) (Fin acc) =
    Ok (Fin (acc + (qsum (map (fun p => q_weight p * ((q_flux p - q_cont p) * (q_flux p - q_cont p)))%Qc (flat_map (arm_pixels s2) l)) -
       qsum (map log (filter (qltb 0) (map q_weight (flat_map (arm_pixels s2) l)))))))%Qc) as L.
  { induction l as [|[arm w] l IH]; intros acc H.
    - cbn [for_each flat_map map filter]. f_equal. f_equal. change (qsum []) with 0%Qc. ring.
    - assert (dget arm (fw (s_f s)) = Some w) as Ew by (apply H; now left).
      destruct (W arm w Ew) as (c' & iv & fl & wt & Ec & Ei & Ef & Et & Er & L1 & L2 & L3 & L4).
      rewrite (C arm w Ew) in Ec. injection Ec as <-.
      assert (exists f, fl = map Fin f) as (f & ->).
      { exists (map nval fl). apply fin_map. apply Forall_forall. intros y Hy. destruct (Ff arm fl y Ef Hy) as (q & ->). reflexivity. }
      assert (exists t, wt = map Fin t) as (t & ->).
      { exists (map nval wt). apply fin_map. apply Forall_forall. intros y Hy. apply In_nth_error in Hy as (k & Hy).
        assert (k < length w) as Hk by (rewrite <- L4; apply nth_error_Some; congruence).
        destruct (nth_error w k) as [x|] eqn:Ex; [|apply nth_error_None in Ex; lia].
        destruct (nth_error iv k) as [i|] eqn:Eiv; [|apply nth_error_None in Eiv; lia].
        destruct (Fi arm iv i Ei (nth_error_In _ _ Eiv)) as (q & -> & Hq).
        destruct (weight_arm_nth (F varlss) (F eta) w iv (map (F c) w) L2 L1) as (r & Er' & _ & Hr).
        assert (r = wt) as -> by (assert (Ok r = Ok wt) as K by (etransitivity; [symmetry; exact Er'|exact Er]); now injection K).
        specialize (Hr k x (Fin q) (Fin (c x)) Ex Eiv). rewrite nth_error_map, Ex in Hr. specialize (Hr eq_refl).
        assert (y = weight_formula (Fin q) (Fin (eta x)) (Fin (varlss x)) (Fin (c x))) as -> by (clear - Hy Hr; congruence).
        destruct (weight_formula_rule q (c x) (eta x) (varlss x) (Heta x) (Hvar x) Hq) as (R0 & R1).
        destruct (Qcle_lt_or_eq _ _ Hq) as [Lt|Eq].
        - destruct (R1 Lt) as (v & -> & _). reflexivity.
        - rewrite R0 by (symmetry; exact Eq). reflexivity. }
      cbn [for_each fst snd]. unfold rget. rewrite Ei, Ef. cbn [of_option rbind].
      rewrite cost_arm_eq. cbv zeta. rewrite map2_maps.
      rewrite (map_ext (fun x => nmul (cont_model (F meancont) (F slope) (map Fin a) (x / (1 + s_z s))%Qc) (Fin (meanflux x))) (F c))
        by (intro x; rewrite cont_model_fin; reflexivity).
      change (weight_arm (F varlss) (F eta) w iv (map (F c) w) = Ok (map Fin t)) in Er.
      rewrite Er. cbn [rbind]. rewrite <- (map_map c Fin). rewrite map_length in L3, L4.
      rewrite zip2_eq by (rewrite !map_length; exact L3). cbn [rbind].
      rewrite (map2_Fin (fun x y => nsq (nsub x y)) (fun x y => (x - y) * (x - y))%Qc) by reflexivity.
      rewrite ndot_fin by (rewrite map2_length, map_length; lia). cbn [rbind].
      rewrite filter_npos_fin, nlog_fin by (intros q Hq; apply filter_In in Hq as (_ & Hq); now apply qltb_true in Hq).
      fold (chi_arm t f (map c w)). cbn [nsub nadd nneg].
      unfold rget in IH. rewrite IH by (intros; apply H; now right).
      f_equal. f_equal. cbn [flat_map]. rewrite !map_app, filter_app, map_app, !qsum_app.
      assert (dget arm (s_cont s2) = Some (map Fin (map c w))) as Ec2 by (rewrite O10, (C arm w Ew), map_map; reflexivity).
      assert (map (fun p => (q_weight p * ((q_flux p - q_cont p) * (q_flux p - q_cont p)))%Qc) (arm_pixels s2 (arm, w)) =
              map2 (fun x y => (x * y)%Qc) t (map2 (fun x y => ((x - y) * (x - y))%Qc) f (map c w)) /\
              map q_weight (arm_pixels s2 (arm, w)) = t) as (-> & ->).
      { unfold arm_pixels. cbn [fst snd]. unfold values. rewrite O2, Ef, Et, Ec2, !map_map. cbn [nval]. rewrite !map_id.
        clear - L3 L4. revert f t L3 L4. induction w as [|x w IHw]; intros [|y f] [|u t] L3 L4; try discriminate; [split; reflexivity|].
        cbn [map combine map2]. injection L3 as L3. injection L4 as L4. destruct (IHw f t L3 L4) as (I1 & I2).
        split; [cbn [q_weight q_flux q_cont]; f_equal; exact I1|cbn [q_weight]; f_equal; exact I2]. }
      unfold chi_arm. ring. }
  change n0 with (Fin 0). rewrite L.
  - f_equal. f_equal. ring.
  - intros arm w H. apply In_pair_dget; [|exact H]. destruct P as (_ & N & _). exact N.
Qed.
End Cost.
