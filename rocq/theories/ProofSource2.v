(** The values in the delta files come from the pixels that were read (C72). *)
From Coq Require Import ZArith String List Bool Arith Lia Qcanon.
From Verif Require Import Num NpList NpListFacts Exn Dict Mpi ModelMpiUtils ModelSpectrum ModelBlinding ModelMasks ModelContinuum ModelStack ModelSubsample ModelVarFit ModelFitter ModelFitArgs ModelCatalog ModelIO ModelDelta ModelPipeline
  SpecMpi SpecFinal SpecSpectrum SpecMasks SpecCatalog SpecPipeline SpecSelect SpecPixels SpecSource
  ProofMpi ProofMpi2 ProofLock ProofSafe ProofFitter ProofCatalog ProofCat ProofSpectrum1 ProofMasks ProofMasks2 ProofMasks3 ProofIO2 ProofPipeline ProofPipeline2 ProofAttributes ProofRanks ProofRanks4 ProofRanks5
  ProofPixels1 ProofPixels2 ProofPixels3 ProofPixels4 ProofPixels5 ProofPixels6 ProofSource1.
Import ListNotations.
Local Open Scope nat_scope.

Lemma okall_and {A} (P Q : A -> Prop) x : okall P x -> okall Q x -> okall (fun v => P v /\ Q v) x.
Proof. destruct x; cbn; auto. Qed.
(** what the pixels of a spectrum are looked up in *)
Definition view (s : spec) := (s_cat s, fw (s_f s), ff (s_f s), fivar (s_f s)).
Definition live1 (s : spec) : Prop := ri (s_f s) < length (hp (s_f s)).
Lemma weight_view x y s : live1 s -> okall (fun s' => view s' = view s /\ live1 s') (set_forest_weight x y s).
Proof.
  intro H. unfold set_forest_weight. destruct (_ || _); [now split|]. apply okall_bind. intro wts. cbn [okall]. unfold view, live1, fivar in *. cbn [new_weight set_f s_f s_cat fw ff hp ri].
  rewrite app_length, app_nth1 by exact H. split; [reflexivity|]. cbn. lia.
Qed.
Lemma smooth_view sm dw x s : live1 s -> view (set_smooth_forestivar sm dw x s) = view s /\ live1 (set_smooth_forestivar sm dw x s).
Proof.
  intro H. unfold set_smooth_forestivar. destruct (qleb x 0); [now split|]. unfold view, live1, fivar in *. cbn [new_sm alias_weight_to_sm set_f set_sscale s_f s_cat fw ff hp ri].
  rewrite app_length, app_nth1 by exact H. split; [reflexivity|]. cbn. lia.
Qed.

Lemma ff_loop {X} (l : list X) (body : X -> forest -> res forest) f0 :
  (forall x f, okall (fun f' => ff f' = ff f) (body x f)) -> okall (fun f => ff f = ff f0) (for_each l body f0).
Proof.
  intro H. apply okall_for_each; [|reflexivity]. intros x f E. specialize (H x f). destruct (body x f); [|exact I]. cbn in *. congruence.
Qed.
Lemma with_ivar_ff arm f k : okall (fun f' => ff f' = ff f) (with_ivar arm f k).
Proof. unfold with_ivar. repeat (apply okall_bind; intro). reflexivity. Qed.
(** the same spectrum but for the values of the inverse variance *)
Definition alike (s s' : spec) : Prop := s_cat s' = s_cat s /\ like (s_f s) (s_f s') /\ ff (s_f s') = ff (s_f s).
Lemma alike_set s (r : res forest) : okall (like (s_f s)) r -> okall (fun f => ff f = ff (s_f s)) r -> okall (alike s) (rmap (fun f => set_f f s) r).
Proof. intros H1 H2. eapply okall_rmap2; [exact (okall_and _ _ _ H1 H2)|]. intros f (L & F). split; [reflexivity|]. now split. Qed.
Lemma eta_alike e s : live1 s -> okall (alike s) (noise_eta e s).
Proof.
  intro H. apply alike_set.
  - apply like_loop; [|exact H]. intros x f Hr. apply like_with_ivar; [exact Hr|]. intro iv.
    pose proof (zip2_len ndiv iv (map e (snd x))) as K. destruct (zip2 _ _ _); [exact (proj1 K)|exact I].
  - apply ff_loop. intros. apply with_ivar_ff.
Qed.
Lemma additive_alike e v s : live1 s -> okall (alike s) (noise_additive e v s).
Proof.
  intro H. apply alike_set.
  - apply like_loop; [|exact H]. intros x f Hr. apply okall_bind. intro c. apply like_with_ivar; [exact Hr|]. intro iv. unfold noise_additive_arm.
    do 3 (apply okall_bind; intro). match goal with |- okall _ (rbind (zip2 ndiv iv ?d) _) => pose proof (zip2_len ndiv iv d) as K; destruct (zip2 ndiv iv d); [|exact I] end.
    cbn [rbind okall] in *. rewrite map_length. exact (proj1 K).
  - apply ff_loop. intros. apply okall_bind. intro. apply with_ivar_ff.
Qed.

Section Sound.
Variable profile : Qc -> Qc -> Qc -> Qc.
Variable ev : interp -> Qc -> num.
Variable w : world.
Variable a : runargs.
Variable src : spec -> string -> list pixel -> Prop.
Variable quiet : Prop.
Variable r : nat.
Notation from := (comes w src (Krun w a profile ev quiet r) r).
Definition sound (s : spec) : Prop := live1 s /\ NoDup (map fst (fw (s_f s))) /\ (forall arm, len_at (ff (s_f s)) arm = len_at (fw (s_f s)) arm) /\ from s.
Lemma from_view s s' : view s' = view s -> from s -> from s'.
Proof.
  unfold view. intros E. injection E as E1 E2 E3 E4. unfold comes, pixel_at. rewrite E1, E2, E3, E4. auto.
Qed.
Lemma sound_view s s' : view s' = view s -> live1 s' -> sound s -> sound s'.
Proof.
  intros E H (_ & N & L & F). split; [exact H|]. pose proof (from_view s s' E F) as F'. unfold view in E. injection E as _ E2 E3 _.
  rewrite E2, E3. now split.
Qed.
Lemma sound_alike s s' : ~ quiet -> alike s s' -> sound s -> sound s'.
Proof.
  intros Hq (Ec & (A1 & A2 & A3 & A4 & A5 & A6 & A7) & Ef) (H & N & L & b & cat & m & s0 & B1 & B2 & B3 & B4).
  split; [unfold live1 in *; now rewrite A2, A5|]. split; [now rewrite A1|]. split; [intro arm; now rewrite A1, Ef|].
  exists b, cat, m, s0. split; [exact B1|]. split; [exact B2|]. split; [congruence|]. rewrite A1. intros arm wv Hw. destruct (B4 arm wv Hw) as (px & C1 & C2 & C3).
  exists px. split; [exact C1|]. split; [exact C2|]. intros k p Hp. destruct (C3 k p Hp) as (q & D1 & D2 & D3).
  unfold pixel_at, at_pix, fivar in D1 |- *. rewrite A1, Ef, A2. specialize (A7 (ri (s_f s)) arm). unfold len_at in A7.
  destruct (dget arm (fw (s_f s))) as [l1|]; [|discriminate]. destruct (nth_error l1 k) as [x|] eqn:E1; [|discriminate].
  destruct (dget arm (ff (s_f s))) as [l2|]; [|discriminate]. destruct (nth_error l2 k) as [y|] eqn:E2; [|discriminate].
  destruct (dget arm (nth (ri (s_f s)) (hp (s_f s)) [])) as [l3|]; [|discriminate]. destruct (nth_error l3 k) as [z|] eqn:E3; [|discriminate].
  destruct (dget arm (nth (ri (s_f s)) (hp (s_f s')) [])) as [l4|]; [|discriminate]. cbn [option_map] in A7. injection A7 as A7.
  assert (k < length l4) as Hk by (rewrite A7; apply nth_error_Some; congruence). apply nth_error_Some in Hk. destruct (nth_error l4 k) as [z'|]; [|contradiction].
  injection D1 as <-. exists (mkPix x y z'). split; [reflexivity|]. split; [exact D2|]. rewrite Ec. intro Hm. destruct (D3 Hm) as (F & _). split; [exact F|]. intro Q. contradiction.
Qed.
Lemma sound_drop_arm arm s : sound s -> sound (drop_arm arm s).
Proof.
  intros (H & N & L & b & cat & m & s0 & B1 & B2 & B3 & B4). unfold drop_arm.
  split; [unfold live1 in *; cbn [set_cont set_f s_f mut_ref set_fr set_ff set_fw hp ri]; now rewrite !upd_length|].
  cbn [set_cont set_f s_f mut_ref set_fr set_ff set_fw fw ff].
  split; [unfold dpop; now apply ProofCatalog.NoDup_map_filter|].
  split; [intro arm'; unfold len_at; rewrite !dget_dpop; destruct (String.eqb arm' arm); [reflexivity|exact (L arm')]|].
  exists b, cat, m, s0. split; [exact B1|]. split; [exact B2|]. split; [exact B3|]. cbn [set_cont set_f s_f mut_ref set_fr set_ff set_fw fw ff s_cat].
  intros arm' wv. rewrite dget_dpop. destruct (String.eqb arm' arm) eqn:E; [discriminate|]. intro Hw. destruct (B4 arm' wv Hw) as (px & C1 & C2 & C3).
  exists px. split; [exact C1|]. split; [exact C2|]. intros k p Hp. destruct (C3 k p Hp) as (q & D1 & D2 & D3). exists q. split; [|now split].
  rewrite <- D1. unfold pixel_at, at_pix, fivar. cbn [set_cont set_f s_f mut_ref set_fr set_ff set_fw fw ff hp ri rs rw]. rewrite !dget_dpop, E.
  assert (forall i (h : list (dict (list num))), dget arm' (nth (ri (s_f s)) (upd i (dpop arm) h) []) = dget arm' (nth (ri (s_f s)) h [])) as K.
  { intros i h. destruct (nth_upd_or i (dpop arm) h (ri (s_f s)) []) as [-> | ->]; [reflexivity|]. now rewrite dget_dpop, E. }
  now rewrite !K.
Qed.
Lemma sound_drop dw x y z s : sound s -> sound (drop_short_arms dw x y z s).
Proof.
  unfold drop_short_arms. match goal with |- context [fold_left _ ?l s] => generalize l end. intro l.
  revert s. induction l as [|arm l IH]; intros s H; [exact H|]. cbn [fold_left]. apply IH. now apply sound_drop_arm.
Qed.
Lemma ready_sound s : ready s -> from s -> sound s.
Proof.
  intros ((A & N & _ & H & _) & _) F. split; [exact H|]. split; [exact N|]. split; [|exact F]. intro arm. apply (A arm).
Qed.
End Sound.
Lemma comes_weaken w src (K K' : catrow -> pixel -> pixel -> Prop) r s : (forall c p q, K c p q -> K' c p q) -> comes w src K r s -> comes w src K' r s.
Proof.
  intros HK (b & cat & m & s0 & A1 & A2 & A3 & A4). exists b, cat, m, s0. do 3 (split; [assumption|]). intros arm wv Hw. destruct (A4 arm wv Hw) as (px & B1 & B2 & B3).
  exists px. do 2 (split; [assumption|]). intros k p Hp. destruct (B3 k p Hp) as (q & D1 & D2 & D3). exists q. do 2 (split; [assumption|]). now apply HK.
Qed.

(** ** the table of an HDU *)
Lemma zip2_length_l {A B C} (f : A -> B -> C) x y z : zip2 f x y = Ok z -> length z = length x /\ length z = length y.
Proof. intro E. pose proof (zip2_len f x y) as K. rewrite E in K. exact K. Qed.
Lemma hdu_table profile ev w a src quiet r mr rd st s hs h : sound profile ev w a src quiet r s -> spec_write mr rd st s = Ok hs -> In h hs ->
  h_targetid h = c_targetid (s_cat s) /\
  exists b cat m s0 px, w_reader w false r b cat = Some m /\ In s0 m /\ s_cat s0 = s_cat s /\ src s0 (h_arm h) px /\
    table_of profile ev w a (masked_in_run profile w a r) quiet (s_cat s) px h.
Proof.
  intros (_ & Nd & L & b & cat & m & s0 & B1 & B2 & B3 & B4) E Hh. unfold spec_write in E. apply rbind_Ok in E as (msnr & _ & E). revert h Hh.
  set (Goal0 := fun h => h_targetid h = c_targetid (s_cat s) /\
  exists b cat m s0 px, w_reader w false r b cat = Some m /\ In s0 m /\ s_cat s0 = s_cat s /\ src s0 (h_arm h) px /\
    table_of profile ev w a (masked_in_run profile w a r) quiet (s_cat s) px h).
  refine (for_each_In _ Goal0 _ _ _ _ E _); [|intros y []].
  intros [arm wv] acc out Hin Eb Hacc h Hh. cbn [fst snd] in Eb. apply rbind_Ok in Eb as (snr & _ & Eb). destruct (neqb snr n0); [injection Eb as <-; now apply (Hacc h)|].
  apply rbind_Ok in Eb as (h0 & E0 & Eb). injection Eb as <-. apply in_app_or in Hh as [Hh|Hh]; [now apply (Hacc h)|].
  destruct Hh as [-> | []]. unfold write_arm in E0. cbv zeta in E0.
  apply rbind_Ok in E0 as (cont & Ect & E0). apply rbind_Ok in E0 as (flux & Efl & E0). apply rbind_Ok in E0 as (iv & Ei & E0). apply rbind_Ok in E0 as (w0 & Ew & E0).
  apply rbind_Ok in E0 as (d0 & Zd0 & E0). apply rbind_Ok in E0 as (iv' & Zi & E0). apply rbind_Ok in E0 as (wt' & Zw & E0). apply rbind_Ok in E0 as (d' & Zd & E0).
  apply rbind_Ok in E0 as (cols & Ec & E0). apply rbind_Ok in E0 as (tb & Et & E0). injection E0 as <-.
  unfold fits_table in Et. destruct (Nat.eqb_spec (length (st_colnames st)) (length cols)) as [Lc|Lc]; [|discriminate]. injection Et as <-.
  split; [reflexivity|]. cbn [h_arm]. pose proof (In_pair_dget _ _ _ Nd Hin) as Hw. destruct (B4 arm wv Hw) as (px & C1 & C2 & C3).
  exists b, cat, m, s0, px. do 4 (split; [assumption|]).
  assert (exists rest, cols = CWave wv :: CNum d' :: CNum iv' :: CNum wt' :: CNum cont :: rest) as (rest & ->).
  { destruct (dtrue _); [|injection Ec as <-; eexists; reflexivity]. apply rbind_Ok in Ec as (? & _ & Ec). apply rbind_Ok in Ec as (? & _ & Ec). injection Ec as <-. eexists; reflexivity. }
  exists d', iv', wt', cont, rest. cbn [h_cols]. rewrite snd_combine by exact Lc. split; [now rewrite C2|].
  unfold rget in Efl, Ei. destruct (dget arm (ff (s_f s))) as [fl|] eqn:Ef; [|discriminate]. injection Efl as ->. destruct (dget arm (fivar (s_f s))) as [il|] eqn:Eil; [|discriminate]. injection Ei as ->.
  specialize (L arm). unfold len_at in L. rewrite Ef, Hw in L. cbn [option_map] in L. injection L as L. rewrite C2, map_length in L.
  destruct (zip2_length_l _ _ _ _ Zd0) as (X1 & X2). destruct (zip2_length_l _ _ _ _ Zi) as (X3 & X4). destruct (zip2_length_l _ _ _ _ Zw) as (X5 & X6). destruct (zip2_length_l _ _ _ _ Zd) as (X7 & X8).
  split; [lia|]. split; [lia|]. split; [lia|]. split; [lia|].
  intros k p d i y Hp Hd Hi Hy Hm. destruct (C3 k p Hp) as (q & D1 & D2 & D3). destruct (D3 Hm) as (F & G).
  unfold pixel_at, at_pix in D1. rewrite Hw, Ef, Eil in D1. destruct (nth_error wv k) as [x0|]; [|discriminate]. destruct (nth_error flux k) as [y0|] eqn:Ey; [|discriminate]. destruct (nth_error iv k) as [z0|] eqn:Ez; [|discriminate].
  injection D1 as <-. cbn [p_flux p_ivar] in F, G.
  destruct (zip2_at _ _ _ _ _ _ Zd Hd) as (i1 & d1 & U1 & U2 & U3). assert (i1 = i) as -> by congruence.
  destruct (zip2_at _ _ _ _ _ _ Zd0 U2) as (f1 & y1 & V1 & V2 & V3). assert (y1 = y) as -> by congruence. assert (f1 = y0) as -> by congruence.
  destruct (zip2_at _ _ _ _ _ _ Zi Hi) as (i2 & y2 & W1 & W2 & W3). assert (y2 = y) as -> by congruence. assert (i2 = z0) as -> by congruence.
  split.
  - intro Hi0. rewrite U3. destruct (neqb i n0) eqn:En; [|now rewrite V3, F].
    exfalso. apply Hi0. destruct i as [qi| | |]; try discriminate. cbn in En. apply qeqb_true in En. now rewrite En.
  - intro Hq. now rewrite W3, (G Hq).
Qed.
