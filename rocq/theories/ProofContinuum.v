(** Proofs about fitting the continuum of one spectrum. *)
From Coq Require Import Field ZArith String List Bool Arith Lia Qcanon.
From Verif Require Import Num NpList NpListFacts Exn Dict ModelSpectrum ModelContinuum SpecSpectrum SpecMasks SpecWeights
  SpecStack ProofWeights ProofCoadd ProofStack ProofSpectrum1 SpecContinuum.
Import ListNotations.
Local Open Scope nat_scope.

Lemma len_some {A} (d : dict (list A)) arm n : len_at d arm = Some n -> exists l, dget arm d = Some l /\ length l = n.
Proof. unfold len_at. destruct (dget arm d) as [l|]; [|discriminate]. intro H. injection H as <-. eauto. Qed.

Section Tail.
Variables varlss eta c : Qc -> Qc.
Hypothesis Heta : forall x, (0 < eta x)%Qc.
Hypothesis Hvar : forall x, (0 <= varlss x)%Qc.

Definition chi_arm (w f k : list Qc) : Qc :=
  qsum (map2 (fun a d => a * d)%Qc w (map2 (fun x y => (x - y) * (x - y))%Qc f k)).

Lemma qsum_map2_nonneg w d : (forall x, In x w -> (0 <= x)%Qc) -> (forall x, In x d -> (0 <= x)%Qc) ->
  (0 <= qsum (map2 (fun a d => a * d)%Qc w d))%Qc.
Proof.
  revert d. induction w as [|x w IH]; intros [|y d] H1 H2; try (apply Qcle_refl).
  cbn [map2]. rewrite qsum_cons.
  assert (0 <= x)%Qc by (apply H1; now left). assert (0 <= y)%Qc by (apply H2; now left).
  assert (0 <= qsum (map2 (fun a d => a * d)%Qc w d))%Qc by (apply IH; intros; [apply H1|apply H2]; now right).
  assert (0 <= x * y)%Qc by qnra. qlra.
Qed.
Lemma chi_arm_nonneg w f k : (forall x, In x w -> (0 <= x)%Qc) -> (0 <= chi_arm w f k)%Qc.
Proof.
  intro H. apply qsum_map2_nonneg; [assumption|]. clear. revert k. induction f as [|x f IH]; intros [|y k] z Hz; cbn in Hz; try easy.
  destruct Hz as [<-|Hz]; [|now apply (IH k)]. assert (forall d : Qc, 0 <= d * d)%Qc as S by (intro d; qnra). apply S.
Qed.

Lemma ndot_fin a b : length a = length b -> ndot (map Fin a) (map Fin b) = Ok (Fin (qsum (map2 (fun x y => x * y)%Qc a b))).
Proof.
  intro L. unfold ndot. rewrite zip2_eq by now rewrite !map_length. cbn [rmap].
  rewrite (map2_Fin nmul (fun x y => x * y)%Qc) by reflexivity. now rewrite nsum_fin.
Qed.

(** after the continuum has been set *)
Lemma tail_ok s : fit_ready s -> s_valid s = true ->
  (forall arm w, dget arm (fw (s_f s)) = Some w -> dget arm (s_cont s) = Some (map (fun x => Fin (c x)) w)) ->
  exists s2 s3, set_forest_weight (fun x => Fin (varlss x)) (fun x => Fin (eta x)) s = Ok s2 /\
    calc_continuum_chi2 s2 = Ok s3 /\ fitted_with varlss eta c s s3 /\ s_x s3 = s_x s.
Proof.
  intros (P & Ne & Nd & Ff & Fi) V C.
  assert (s_cont s <> []) as Nc.
  { destruct (fw (s_f s)) as [|[a w] r] eqn:E; [contradiction|]. specialize (C a w). cbn in C. rewrite String.eqb_refl in C.
    intro K. rewrite K in C. specialize (C eq_refl). discriminate. }
  assert (cont_matches s) as CM.
  { intros arm H. unfold len_at. destruct (dget arm (fw (s_f s))) as [w|] eqn:E; [|contradiction].
    rewrite (C arm w E). cbn. now rewrite map_length. }
  destruct (set_forest_weight_spec (fun x => Fin (varlss x)) (fun x => Fin (eta x)) s P CM V Nc) as (s2 & E2 & P2 & O & W).
  destruct O as (O1 & O2 & O3 & O4 & O5 & O6 & O7 & O8 & O9 & O10 & O11 & O12 & O13 & O14).
  (* the arrays of one arm *)
  assert (forall arm w, dget arm (fw (s_f s)) = Some w -> exists f wt,
    dget arm (ff (s_f s2)) = Some (map Fin f) /\ dget arm (fweight (s_f s2)) = Some (map Fin wt) /\
    length f = length w /\ length wt = length w /\ forall x, In x wt -> (0 <= x)%Qc) as A.
  { intros arm w Ew. destruct P as (Al & _). destruct (Al arm) as (A1 & A2 & A3 & A4).
    destruct P2 as (Al2 & _). destruct (Al2 arm) as (_ & _ & _ & B4). rewrite O1 in B4.
    assert (len_at (fw (s_f s)) arm = Some (length w)) as L0 by (unfold len_at; now rewrite Ew).
    rewrite L0 in A1, A3, B4.
    apply len_some in A1 as (f & Ef & Lf). apply len_some in A3 as (iv & Ei & Li). apply len_some in B4 as (wt & Ew2 & Lw).
    exists (map nval f), (map nval wt). rewrite O2, Ef, Ew2, !map_length.
    assert (forall k y, nth_error wt k = Some y -> exists q, y = Fin q /\ (0 <= q)%Qc) as Fw.
    { intros k y Hy. assert (k < length w) as Hk by (rewrite <- Lw; apply nth_error_Some; congruence).
      destruct (nth_error w k) as [x|] eqn:Ex; [|apply nth_error_None in Ex; lia].
      destruct (nth_error iv k) as [i|] eqn:Eiv; [|apply nth_error_None in Eiv; lia].
      destruct (Fi arm iv i Ei (nth_error_In _ _ Eiv)) as (q & -> & Hq).
      specialize (W arm k x (Fin q) (Fin (c x))). unfold at_pix in W. rewrite Ew, Ei, (C arm w Ew), Ew2, nth_error_map, Ex in W.
      rewrite Hy in W. specialize (W eq_refl Eiv eq_refl).
      assert (y = weight_formula (Fin q) (Fin (eta x)) (Fin (varlss x)) (Fin (c x))) as -> by (clear - W; congruence).
      destruct (weight_formula_rule q (c x) (eta x) (varlss x) (Heta x) (Hvar x) Hq) as (R0 & R1).
      destruct (Qcle_lt_or_eq _ _ Hq) as [Lt|Eq].
      - destruct (R1 Lt) as (v & -> & Hv & _). exists v. split; [easy|]. now apply Qclt_le_weak.
      - rewrite R0 by (symmetry; exact Eq). exists 0%Qc. split; [reflexivity|apply Qcle_refl]. }
    split; [|split; [|split; [exact Lf|split; [exact Lw|]]]].
    - f_equal. apply fin_map. apply Forall_forall. intros y Hy. destruct (Ff arm f y Ef Hy) as (q & ->). reflexivity.
    - f_equal. apply fin_map. apply Forall_forall. intros y Hy. apply In_nth_error in Hy as (k & Hy).
      destruct (Fw k y Hy) as (q & -> & _). reflexivity.
    - intros x Hx. apply in_map_iff in Hx as (y & <- & Hy). apply In_nth_error in Hy as (k & Hy).
      destruct (Fw k y Hy) as (q & -> & Hq). exact Hq. }
  exists s2.
  assert (forall l acc, (forall arm w, In (arm, w) l -> dget arm (fw (s_f s)) = Some w) ->
    exists q, for_each l (fun aw (chi2 : num) =>
      rbind (rget (fst aw) (s_cont s2)) (fun c =>
      rbind (rget (fst aw) (fweight (s_f s2))) (fun w =>
      rbind (rget (fst aw) (ff (s_f s2))) (fun fl =>
      rbind (zip2 (fun x y => nsq (nsub x y)) fl c) (fun d2 =>
      rbind (ndot w d2) (fun d => Ok (nadd chi2 d))))))) (Fin acc) = Ok (Fin (acc + q)%Qc) /\ (0 <= q)%Qc /\
      q = qsum (map (fun p => q_weight p * ((q_flux p - q_cont p) * (q_flux p - q_cont p)))%Qc (flat_map (arm_pixels s2) l))) as L.
  { induction l as [|[arm w] l IH]; intros acc H.
    - exists 0%Qc. cbn [for_each flat_map map]. split; [f_equal; f_equal; ring|]. split; [apply Qcle_refl|reflexivity].
    - assert (dget arm (fw (s_f s)) = Some w) as Ew by (apply H; now left).
      destruct (A arm w Ew) as (f & wt & Ef & Et & Lf & Lw & Pos).
      pose proof (C arm w Ew) as Ec. rewrite <- O10 in Ec. rewrite <- (map_map c Fin) in Ec.
      assert (length (map c w) = length w) as Lc by now rewrite map_length.
      destruct (IH (acc + chi_arm wt f (map c w))%Qc) as (q & E & Hq & Eq); [intros; apply H; now right|].
      exists (chi_arm wt f (map c w) + q)%Qc. split; [|split].
      + cbn [for_each fst snd]. unfold rget. rewrite Ec, Ef, Et. cbn [of_option rbind].
        rewrite zip2_eq by (rewrite !map_length in *; congruence). cbn [rbind].
        rewrite (map2_Fin (fun x y => nsq (nsub x y)) (fun x y => (x - y) * (x - y))%Qc) by reflexivity.
        rewrite ndot_fin by (rewrite map2_length; lia). cbn [rbind nadd].
        fold (chi_arm wt f (map c w)). unfold rget in E. rewrite E. f_equal. f_equal. ring.
      + assert (0 <= chi_arm wt f (map c w))%Qc by now apply chi_arm_nonneg. qlra.
      + cbn [flat_map]. rewrite map_app, qsum_app, <- Eq. f_equal. unfold arm_pixels. cbn [fst snd]. unfold values.
        rewrite Ec, Ef, Et, !map_map. cbn [nval]. rewrite !map_id. clear - Lf Lw.
        revert f wt Lf Lw. induction w as [|x w IHw]; intros [|y f] [|t wt] Lf Lw; try discriminate; [reflexivity|].
        cbn [map combine] in *. unfold chi_arm in *. cbn [map2]. rewrite !qsum_cons. cbn [q_weight q_flux q_cont].
        f_equal. apply IHw; [now injection Lf|now injection Lw]. }
  destruct (L (fw (s_f s)) 0%Qc) as (q & E & Hq & Eq).
  { intros arm w H. apply In_pair_dget; [|exact H]. destruct P as (_ & N & _). exact N. }
  eexists. split; [exact E2|].
  split.
  { unfold calc_continuum_chi2. assert (dtrue (s_cont s2) = true) as -> by (rewrite O10; now destruct (s_cont s)).
    rewrite O11, V, O1. cbn [negb orb]. change n0 with (Fin 0). rewrite E. cbn [rbind]. reflexivity. }
  assert (weighted_chi2 (set_chi2 (Fin (0 + q)) s2) = q) as Ew.
  { rewrite Eq. unfold weighted_chi2, spec_pixels. cbn [set_chi2 s_f]. rewrite O1. reflexivity. }
  split; [|cbn [set_chi2 s_x]; exact O12].
  unfold fitted_with, same_data. rewrite Ew.
  cbn [set_chi2 s_f s_valid s_cat s_wave s_flux s_ivar s_msnr s_cont s_chi2].
  split; [congruence|]. split; [repeat split; assumption|]. split; [exact P2|]. split.
  { intros arm w Hw. rewrite O10. now apply C. }
  split; [|split; [f_equal; ring|exact Hq]].
  intros arm k x i Ex Ei. exists (weight_formula (Fin i) (Fin (eta x)) (Fin (varlss x)) (Fin (c x))). split.
  - apply W; try assumption. unfold at_pix in Ex |- *. destruct (dget arm (fw (s_f s))) as [w|] eqn:Ew'; [|discriminate].
    rewrite (C arm w Ew'), nth_error_map, Ex. reflexivity.
  - apply weight_formula_rule; auto. unfold at_pix in Ei. destruct (dget arm (fivar_sm (s_f s))) as [l|] eqn:El; [|discriminate].
    destruct (Fi arm l (Fin i) El (nth_error_In _ _ Ei)) as (q' & Eq' & Hq'). injection Eq' as ->. exact Hq'.
Qed.

Lemma tail_invalid s varlss' eta' : s_valid s = false ->
  exists s2 s3, set_forest_weight varlss' eta' s = Ok s2 /\ calc_continuum_chi2 s2 = Ok s3 /\
    s_valid s3 = false /\ same_data s s3 /\ s_x s3 = s_x s.
Proof.
  intro V. destruct (weight_fallback varlss' eta' s (or_introl V)) as (s2 & E & O & _).
  destruct O as (O1 & O2 & O3 & O4 & O5 & O6 & O7 & O8 & O9 & O10 & O11 & O12 & O13 & O14).
  exists s2, (set_chi2 (Fin (- (1))) s2). split; [exact E|]. split.
  - unfold calc_continuum_chi2. rewrite O11, V. reflexivity.
  - cbn [set_chi2 s_valid s_x]. split; [congruence|]. split; [|assumption].
    unfold same_data. cbn [set_chi2 s_f s_cat s_wave s_flux s_ivar s_msnr]. repeat split; assumption.
Qed.
End Tail.

Lemma get_a0_ok s : fit_ready s -> exists a0, get_a0 s = Ok a0.
Proof.
  intros (P & _ & Nd & _ & _). unfold get_a0.
  destruct (for_each_total (fun _ : num * num => True) (fivar_sm (s_f s)) (fun ai (acc : num * num) =>
    rbind (rget (fst ai) (ff (s_f s))) (fun fl =>
    rbind (ndot fl (snd ai)) (fun d =>
    Ok (nadd (fst acc) d, nadd (snd acc) (nsum (snd ai)))))) (n0, nlit 1 1000000)) as (p & E & _); [|easy|].
  - intros [arm iv] acc Hin _. apply In_pair_dget in Hin; [|exact Nd]. cbn [fst snd].
    destruct P as (Al & _). destruct (Al arm) as (A1 & A2 & A3 & A4). rewrite <- A3 in A1.
    assert (len_at (fivar_sm (s_f s)) arm = Some (length iv)) as L0 by (unfold len_at; now rewrite Hin).
    rewrite L0 in A1. apply len_some in A1 as (fl & Ef & Lf).
    unfold rget. rewrite Ef. cbn [of_option rbind]. unfold ndot. rewrite zip2_eq by exact Lf. cbn [rmap rbind]. eauto.
  - rewrite E. cbn. eauto.
Qed.

(** ** polynomial *)
Fixpoint qpow (t : Qc) (i : nat) : Qc := match i with 0 => 1%Qc | S j => (t * qpow t j)%Qc end.
Lemma npow_fin t i : npow (Fin t) i = Fin (qpow t i).
Proof. induction i as [|i IH]; [reflexivity|]. change (npow (Fin t) (S i)) with (nmul (Fin t) (npow (Fin t) i)). now rewrite IH. Qed.
Lemma npoly_fin a t : npoly (map Fin a) (Fin t) = Fin (polynomial a t).
Proof.
  unfold npoly. rewrite map_length.
  assert (forall a k acc, fold_left (fun acc ia => nadd acc (nmul (snd ia) (npow (Fin t) (fst ia))))
      (combine (seq k (length a)) (map Fin a)) (Fin acc) = Fin (acc + qpow t k * polynomial a t)%Qc) as K.
  { clear a. induction a as [|x a IH]; intros k acc; cbn [length seq map combine fold_left polynomial].
    - f_equal. ring.
    - cbn [fst snd]. rewrite npow_fin. cbn [nmul nadd]. rewrite IH. f_equal. cbn [qpow]. ring. }
  change n0 with (Fin 0). rewrite K. f_equal. cbn [qpow]. ring.
Qed.

Lemma existsb_map {A B} (f : B -> bool) (g : A -> B) l : existsb f (map g l) = existsb (fun x => f (g x)) l.
Proof. induction l; cbn; congruence. Qed.

Section Picca.
Variables meanflux varlss eta meancont slope : Qc -> Qc.
Notation F f := (fun x : Qc => Fin (f x)).
Hypothesis Heta : forall x, (0 < eta x)%Qc.
Hypothesis Hvar : forall x, (0 <= varlss x)%Qc.
Variable minimizer : spec -> num -> res minres.

Lemma cont_model_fin a w : cont_model (F meancont) (F slope) (map Fin a) w = Fin (model_at meancont slope a w).
Proof. unfold cont_model.
  change (nsub (nmul (Fin (1 + 1)) (Fin (slope w))) n1) with (Fin ((1 + 1) * slope w - 1)%Qc). rewrite npoly_fin. reflexivity. Qed.

(** both loops: an estimate est per pixel, rejected by bad *)
Fixpoint arms_loop (est : Qc -> num) (bad : arr -> bool) (arms : dict (list Qc)) (cont : dict arr) : bool * dict arr :=
  match arms with
  | [] => (true, cont)
  | (arm, wave) :: r =>
      if bad (map est wave) then (false, cont)
      else arms_loop est bad r (dset arm (map2 nmul (map est wave) (map (F meanflux) wave)) cont)
  end.
Lemma picca_arms_loop mc sl x z arms cont :
  picca_arms (F meanflux) mc sl x z arms cont =
  arms_loop (fun w => cont_model mc sl x (w / (1 + z))%Qc) (existsb (fun c => nltb c n0)) arms cont.
Proof. revert cont. induction arms as [|[a w] arms IH]; intro cont; [reflexivity|]. cbn. destruct (existsb _ _); [reflexivity|apply IH]. Qed.
Lemma input_arms_loop cubic z arms cont :
  input_arms (F meanflux) cubic z arms cont =
  arms_loop (fun w => cubic (w / (1 + z))%Qc) (fun l => existsb (fun c => nleb c n0) l || existsb nisnan l) arms cont.
Proof. revert cont. induction arms as [|[a w] arms IH]; intro cont; [reflexivity|]. cbn. destruct (existsb _ _ || _); [reflexivity|apply IH]. Qed.

Lemma arms_loop_spec (e : Qc -> Qc) est bad arms :
  (forall arm w x, In (arm, w) arms -> bad (map est w) = false -> In x w -> est x = Fin (e x)) ->
  NoDup (dkeys arms) -> forall cont,
  let bads := existsb (fun aw => bad (map est (snd aw))) arms in
  fst (arms_loop est bad arms cont) = negb bads /\
  (bads = false -> forall arm, dget arm (snd (arms_loop est bad arms cont)) =
     match dget arm arms with Some w => Some (map (fun x => Fin (e x * meanflux x)%Qc) w) | None => dget arm cont end).
Proof.
  intros He. induction arms as [|[a w] arms IH]; intros Nd cont; cbv zeta.
  - split; [reflexivity|]. intros _ arm. reflexivity.
  - cbn [arms_loop existsb snd]. destruct (bad (map est w)) eqn:B; cbn [orb].
    + split; [reflexivity|discriminate].
    + inversion Nd as [|? ? N1 N2]; subst. cbn [dkeys map fst] in N1.
      destruct (IH) with (cont := dset a (map2 nmul (map est w) (map (F meanflux) w)) cont) as (I1 & I2);
        [intros arm' w' x' H1 H2 H3; exact (He arm' w' x' (or_intror H1) H2 H3)|exact N2|].
      cbv zeta in I1, I2. split; [exact I1|]. intros Hb arm. rewrite I2 by exact Hb. cbn [dget].
      destruct (String.eqb_spec arm a) as [->|Ne].
      * destruct (dget a arms) as [w'|] eqn:E.
        { exfalso. apply N1. apply (proj2 (Dict.dget_In _ _)). eauto. }
        rewrite dget_dset_same. f_equal. rewrite map2_maps. apply map_ext_in. intros x Hx.
        rewrite (He a w x (or_introl eq_refl) B Hx). reflexivity.
      * destruct (dget arm arms); [reflexivity|]. now apply dget_dset_other.
Qed.

Lemma same_data_cont c v s s' : same_data (set_cont c (set_valid v s)) s' -> same_data s s'.
Proof. unfold same_data. auto. Qed.


Lemma picca_fit_spec s xcov : fit_ready s ->
  exists a0, get_a0 s = Ok a0 /\
  match minimizer s a0 with
  | Err e => picca_fit (F meanflux) (F varlss) (F eta) (F meancont) (F slope) minimizer s xcov = Err e
  | Ok r =>
      forall a, (m_valid r = true -> m_x r = map Fin a) ->
      let shape x := model_at meancont slope a (x / (1 + s_z s))%Qc in
      exists s' xcov', picca_fit (F meanflux) (F varlss) (F eta) (F meancont) (F slope) minimizer s xcov = Ok (s', xcov') /\
      if m_valid r && negb (negative_pixel shape s)
      then fitted_with varlss eta (fun x => shape x * meanflux x)%Qc s s' /\ s_x s' = map Fin a /\ xcov' = m_xcov r
      else rejected s s' /\ xcov' = xcov
  end.
Proof.
  intro R. destruct (get_a0_ok s R) as (a0 & Ea). exists a0. split; [exact Ea|].
  unfold picca_fit. rewrite Ea. cbn [rbind]. destruct (minimizer s a0) as [r|e]; [|reflexivity].
  intros a Hx. cbv zeta. set (shape := fun x => model_at meancont slope a (x / (1 + s_z s))%Qc). cbn [rbind].
  destruct (m_valid r) eqn:V; cbn [andb].
  - rewrite (Hx eq_refl). rewrite picca_arms_loop.
    set (est := fun w => cont_model (F meancont) (F slope) (map Fin a) (w / (1 + s_z s))%Qc).
    assert (forall x, est x = Fin (shape x)) as Es by (intro x; apply cont_model_fin).
    assert (NoDup (dkeys (fw (s_f s)))) as Nd by (destruct R as ((_ & N & _) & _); exact N).
    destruct (arms_loop_spec shape est (existsb (fun c => nltb c n0)) (fw (s_f s)) (fun _ _ x _ _ _ => Es x) Nd []) as (L1 & L2).
    cbv zeta in L1, L2.
    assert (existsb (fun aw => existsb (fun c => nltb c n0) (map est (snd aw))) (fw (s_f s)) = negative_pixel shape s) as Eb.
    { unfold negative_pixel. clear - Es. induction (fw (s_f s)) as [|[a0 w] l IH]; [reflexivity|]. cbn [existsb snd]. rewrite IH. f_equal.
      rewrite existsb_map. clear - Es. induction w as [|x w IH]; [reflexivity|]. cbn [existsb]. rewrite IH, Es. reflexivity. }
    rewrite Eb in L1, L2. destruct (arms_loop est (existsb (fun c => nltb c n0)) (fw (s_f s)) []) as [ok cont] eqn:El.
    cbn [fst snd] in L1, L2. subst ok. destruct (negative_pixel shape s) eqn:Ng; cbn [negb].
    + destruct (tail_invalid (set_cont cont (set_valid false s)) (F varlss) (F eta) eq_refl) as (s2 & s3 & E2 & E3 & V3 & D3 & X3).
      rewrite E2. cbn [rbind]. rewrite E3. cbn [rbind]. rewrite V3.
      eexists. eexists. split; [reflexivity|]. split; [|reflexivity].
      unfold rejected. cbn [set_chi2 set_cont s_valid s_cont s_chi2 s_x]. split; [exact V3|]. split; [exact D3|]. repeat split. exact X3.
    + assert (fit_ready (set_cont cont (set_valid true s))) as R' by exact R.
      destruct (tail_ok varlss eta (fun x => shape x * meanflux x)%Qc Heta Hvar (set_cont cont (set_valid true s)) R' eq_refl) as (s2 & s3 & E2 & E3 & F3 & X3).
      { intros arm w Ew. cbn [set_cont set_valid s_f s_cont] in *. rewrite L2 by reflexivity. now rewrite Ew. }
      rewrite E2. cbn [rbind]. rewrite E3. cbn [rbind].
      assert (s_valid s3 = true) as V3 by apply F3. rewrite V3.
      eexists. eexists. split; [reflexivity|]. split; [|split; reflexivity]. exact F3.
  - destruct (tail_invalid (set_valid false s) (F varlss) (F eta) eq_refl) as (s2 & s3 & E2 & E3 & V3 & D3 & X3).
    rewrite E2. cbn [rbind]. rewrite E3. cbn [rbind]. rewrite V3.
    eexists. eexists. split; [reflexivity|]. split; [|reflexivity].
    unfold rejected. cbn [set_chi2 set_cont s_valid s_cont s_chi2 s_x]. split; [exact V3|]. split; [exact D3|]. repeat split. exact X3.
Qed.

(** ** input continuum: a value is positive, or non-positive or nan (missing) *)

Lemma input_fit_spec (cubic : Qc -> option Qc) s : fit_ready s ->
  exists s', input_fit (F meanflux) (F varlss) (F eta) (fun w => opt_num (cubic w)) s = Ok s' /\ s_x s' = s_x s /\
    if s_valid s && negb (bad_pixel cubic s)
    then fitted_with varlss eta (fun x => opt_val (cubic (x / (1 + s_z s))) * meanflux x)%Qc s s'
    else rejected s s'.
Proof.
  intro R. unfold input_fit. destruct (s_valid s) eqn:V; cbn [negb andb].
  - rewrite input_arms_loop. set (est := fun w => opt_num (cubic (w / (1 + s_z s))%Qc)).
    set (bad := fun l => existsb (fun c => nleb c n0) l || existsb nisnan l).
    assert (NoDup (dkeys (fw (s_f s)))) as Nd by (destruct R as ((_ & N & _) & _); exact N).
    assert (forall w, bad (map est w) = existsb (fun x => match cubic (x / (1 + s_z s))%Qc with Some q => qleb q 0 | None => true end) w) as Eb1.
    { intro w. unfold bad. induction w as [|x w IH]; [reflexivity|]. cbn [map existsb]. rewrite <- IH. unfold est at 1 3.
      destruct (cubic (x / (1 + s_z s))%Qc) as [q|]; cbn [opt_num nisnan orb].
      - change n0 with (Fin 0). rewrite nleb_fin. now rewrite orb_assoc.
      - now rewrite orb_true_r. }
    destruct (arms_loop_spec (fun x => opt_val (cubic (x / (1 + s_z s))%Qc)) est bad (fw (s_f s))) with (cont := s_cont s) as (L1 & L2); [|exact Nd|].
    { intros arm w x _ Hb Hx. rewrite Eb1 in Hb. unfold est. destruct (cubic (x / (1 + s_z s))%Qc) as [q|] eqn:Ex; [reflexivity|].
      exfalso. assert (existsb (fun x => match cubic (x / (1 + s_z s))%Qc with Some q => qleb q 0 | None => true end) w = true) as K
        by (apply existsb_exists; exists x; split; [assumption|]; now rewrite Ex). congruence. }
    cbv zeta in L1, L2.
    assert (existsb (fun aw => bad (map est (snd aw))) (fw (s_f s)) = bad_pixel cubic s) as Eb.
    { unfold bad_pixel. clear - Eb1. induction (fw (s_f s)) as [|[a0 w] l IH]; [reflexivity|]. cbn [existsb snd]. now rewrite IH, Eb1. }
    rewrite Eb in L1, L2. destruct (arms_loop est bad (fw (s_f s)) (s_cont s)) as [ok cont] eqn:El.
    cbn [fst snd] in L1, L2. subst ok. destruct (bad_pixel cubic s) eqn:Ng; cbn [negb].
    + destruct (tail_invalid (set_cont cont (set_valid false s)) (F varlss) (F eta) eq_refl) as (s2 & s3 & E2 & E3 & V3 & D3 & X3).
      rewrite E2. cbn [rbind]. rewrite E3. cbn [rbind]. rewrite V3.
      eexists. split; [reflexivity|]. split; [exact X3|].
      unfold rejected. cbn [set_chi2 set_cont s_valid s_cont s_chi2 s_x]. split; [exact V3|]. split; [exact D3|]. repeat split. exact X3.
    + destruct (tail_ok varlss eta (fun x => opt_val (cubic (x / (1 + s_z s))) * meanflux x)%Qc Heta Hvar (set_cont cont s) R V) as (s2 & s3 & E2 & E3 & F3 & X3).
      { intros arm w Ew. cbn [set_cont s_f s_cont] in *. rewrite L2 by reflexivity. now rewrite Ew. }
      rewrite E2. cbn [rbind]. rewrite E3. cbn [rbind].
      assert (s_valid s3 = true) as V3 by apply F3. rewrite V3.
      eexists. split; [reflexivity|]. split; [exact X3|]. exact F3.
  - eexists. split; [reflexivity|]. split; [reflexivity|].
    unfold rejected. cbn [set_chi2 set_cont s_valid s_cont s_chi2 s_x s_f]. split; [exact V|]. split; [unfold same_data; repeat split|]. repeat split.
Qed.

(** ** true continuum *)
Lemma true_cont_get (cubic : Qc -> Qc) arms : NoDup (dkeys arms) -> forall cont arm,
  dget arm (fold_left (fun c aw => dset (fst aw) (map2 nmul (map (F cubic) (snd aw)) (map (F meanflux) (snd aw))) c) arms cont) =
  match dget arm arms with Some w => Some (map (fun x => Fin (cubic x * meanflux x)%Qc) w) | None => dget arm cont end.
Proof.
  induction arms as [|[a w] arms IH]; intros Nd cont arm; [reflexivity|].
  inversion Nd as [|? ? N1 N2]; subst. cbn [fold_left fst snd dget]. rewrite IH by exact N2.
  destruct (String.eqb_spec arm a) as [->|Ne].
  - destruct (dget a arms) as [w'|] eqn:E; [exfalso; apply N1; apply (proj2 (Dict.dget_In _ _)); eauto|].
    rewrite dget_dset_same, map2_maps. reflexivity.
  - destruct (dget arm arms); [reflexivity|]. now apply dget_dset_other.
Qed.
Lemma true_fit_spec (cubic : Qc -> Qc) s : fit_ready s -> s_valid s = true ->
  exists s', true_fit (F meanflux) (F varlss) (F cubic) s = Ok s' /\ s_x s' = s_x s /\
    fitted_with varlss (fun _ => 1%Qc) (fun x => cubic x * meanflux x)%Qc s s'.
Proof.
  intros R V. unfold true_fit.
  set (cont := fold_left _ _ _).
  destruct (tail_ok varlss (fun _ => 1%Qc) (fun x => cubic x * meanflux x)%Qc ltac:(intro; reflexivity) Hvar (set_cont cont s) R V) as (s2 & s3 & E2 & E3 & F3 & X3).
  { intros arm w Ew. cbn [set_cont s_f s_cont] in *. unfold cont. rewrite true_cont_get.
    - now rewrite Ew.
    - destruct R as ((_ & N & _) & _). exact N. }
  exists s3. change (fun _ : Qc => n1) with (fun _ : Qc => Fin 1). rewrite E2. cbn [rbind]. rewrite E3. split; [reflexivity|]. split; [exact X3|exact F3].
Qed.
End Picca.

(** ** signs *)
Lemma negative_pixel_nonneg c s x : negative_pixel c s = false -> forest_pixel s x -> (0 <= c x)%Qc.
Proof.
  intros H (arm & w & Ew & Hx). apply Dict.dget_In_pair in Ew. unfold negative_pixel in H.
  destruct (qltb (c x) 0) eqn:E; [|now apply (proj1 (qltb_false _ _)) in E].
  exfalso. assert (existsb (fun aw => existsb (fun x => qltb (c x) 0) (snd aw)) (fw (s_f s)) = true) as K; [|congruence].
  apply existsb_exists. exists (arm, w). split; [assumption|]. apply existsb_exists. exists x. split; assumption.
Qed.
Lemma bad_pixel_pos cubic s x : bad_pixel cubic s = false -> forest_pixel s x ->
  exists q, cubic (x / (1 + s_z s))%Qc = Some q /\ (0 < q)%Qc.
Proof.
  intros H (arm & w & Ew & Hx). apply Dict.dget_In_pair in Ew. unfold bad_pixel in H.
  destruct (cubic (x / (1 + s_z s))%Qc) as [q|] eqn:Ec; [exists q; split; [reflexivity|]|exfalso].
  - destruct (qleb q 0) eqn:E; [|now apply (proj1 (qleb_false _ _)) in E].
    exfalso. assert (existsb (fun aw => existsb (fun x => match cubic (x / (1 + s_z s))%Qc with Some q => qleb q 0 | None => true end) (snd aw)) (fw (s_f s)) = true) as K; [|congruence].
    apply existsb_exists. exists (arm, w). split; [assumption|]. apply existsb_exists. exists x. split; [assumption|]. now rewrite Ec.
  - assert (existsb (fun aw => existsb (fun x => match cubic (x / (1 + s_z s))%Qc with Some q => qleb q 0 | None => true end) (snd aw)) (fw (s_f s)) = true) as K; [|congruence].
    apply existsb_exists. exists (arm, w). split; [assumption|]. apply existsb_exists. exists x. split; [assumption|]. now rewrite Ec.
Qed.

Section Main.
Variables meanflux varlss eta : Qc -> Qc.
Notation F f := (fun x : Qc => Fin (f x)).
Hypothesis Heta : forall x, (0 < eta x)%Qc.
Hypothesis Hvar : forall x, (0 <= varlss x)%Qc.
Lemma picca_thm meancont slope minimizer s xcov : fit_ready s -> (forall x, (0 <= meanflux x)%Qc) ->
  let fit := picca_fit (F meanflux) (F varlss) (F eta) (F meancont) (F slope) minimizer s xcov in
  exists a0,
  match minimizer s a0 with
  | Err e => fit = Err e
  | Ok r =>
      forall a, (m_valid r = true -> m_x r = map Fin a) ->
      let shape x := model_at meancont slope a (x / (1 + s_z s))%Qc in
      exists s' xcov', fit = Ok (s', xcov') /\
      if m_valid r && negb (negative_pixel shape s)
      then fitted_with varlss eta (fun x => shape x * meanflux x)%Qc s s' /\ s_x s' = map Fin a /\ xcov' = m_xcov r /\
           forall x, forest_pixel s x -> (0 <= shape x * meanflux x)%Qc
      else rejected s s' /\ xcov' = xcov
  end.
Proof.
  intros R Hm. cbv zeta.
  destruct (picca_fit_spec meanflux varlss eta meancont slope Heta Hvar minimizer s xcov R) as (a0 & _ & H).
  exists a0. destruct (minimizer s a0) as [r|e]; [|exact H]. intros a Ha. destruct (H a Ha) as (s' & x' & E & K).
  exists s', x'. split; [exact E|].
  destruct (m_valid r); cbn [andb] in *; [|exact K].
  destruct (negative_pixel (fun x : Qc => model_at meancont slope a (x / (1 + s_z s))) s) eqn:Ng; cbn [negb] in *; [exact K|].
  destruct K as (K1 & K2 & K3). split; [exact K1|]. split; [exact K2|]. split; [exact K3|].
  intros x Hx. pose proof (negative_pixel_nonneg _ _ _ Ng Hx) as P. cbv beta in P. pose proof (Hm x) as Q.
  set (m := model_at meancont slope a (x / (1 + s_z s))%Qc) in *. clearbody m. qnra.
Qed.
Lemma input_thm (cubic : Qc -> option Qc) s : fit_ready s -> (forall x, (0 < meanflux x)%Qc) ->
  exists s', input_fit (F meanflux) (F varlss) (F eta) (fun w => opt_num (cubic w)) s = Ok s' /\ s_x s' = s_x s /\
    if s_valid s && negb (bad_pixel cubic s)
    then let c x := (opt_val (cubic (x / (1 + s_z s))) * meanflux x)%Qc in
         fitted_with varlss eta c s s' /\ forall x, forest_pixel s x -> (0 < c x)%Qc
    else rejected s s'.
Proof.
  intros R Hm. destruct (input_fit_spec meanflux varlss eta Heta Hvar cubic s R) as (s' & E & X & K).
  exists s'. split; [exact E|]. split; [exact X|].
  destruct (s_valid s); cbn [andb] in *; [|exact K].
  destruct (bad_pixel cubic s) eqn:B; cbn [negb] in *; [exact K|]. cbv zeta. split; [exact K|].
  intros x Hx. destruct (bad_pixel_pos _ _ _ B Hx) as (q & Eq & Hq). rewrite Eq. cbn [opt_val].
  pose proof (Hm x) as P. set (m := meanflux x) in *. clearbody m. qnra.
Qed.
End Main.
