(** Every pixel of the delta files lies in the requested window (C71). *)
From Coq Require Import ZArith String List Bool Arith Lia Qcanon.
From Verif Require Import Num NpList Exn Dict Mpi ModelSpectrum ModelMasks ModelContinuum ModelStack ModelSubsample
  ModelVarFit ModelFitter ModelExposures ModelPipeline SpecFinal SpecSpectrum SpecSelect SpecPixels
  ProofCat ProofAttributes ProofSpectrum2 ProofMasks3 ProofSelect ProofPixels1.
Import ListNotations.
Local Open Scope nat_scope.

Definition wkey (s : spec) : catrow * dict (list Qc) := (s_cat s, fw (s_f s)).
Definition wkeeps (s : spec) (r : res spec) : Prop := okall (fun s' => wkey s' = wkey s) r.
Lemma fw_loop {X} (l : list X) (body : X -> forest -> res forest) f0 :
  (forall x f, okall (fun f' => fw f' = fw f) (body x f)) -> okall (fun f => fw f = fw f0) (for_each l body f0).
Proof.
  intro H. apply okall_for_each; [|reflexivity]. intros x f E. specialize (H x f). destruct (body x f); [|exact I]. cbn in *. congruence.
Qed.
Lemma with_arm_fw arm f k : okall (fun f' => fw f' = fw f) (with_arm arm f k).
Proof. unfold with_arm. repeat (apply okall_bind; intro). reflexivity. Qed.
Lemma with_ivar_fw arm f k : okall (fun f' => fw f' = fw f) (with_ivar arm f k).
Proof. unfold with_ivar. repeat (apply okall_bind; intro). reflexivity. Qed.
Lemma set_f_w s (r : res forest) : okall (fun f => fw f = fw (s_f s)) r -> wkeeps s (rmap (fun f => set_f f s) r).
Proof. intro H. eapply okall_rmap2; [exact H|]. intros f E. unfold wkey. cbn. now rewrite E. Qed.
Lemma weight_w a b s : wkeeps s (set_forest_weight a b s).
Proof. unfold set_forest_weight. destruct (_ || _); [reflexivity|]. repeat (apply okall_bind; intro). reflexivity. Qed.
Lemma eta_w e s : wkeeps s (noise_eta e s).
Proof. apply set_f_w, fw_loop. intros. apply with_ivar_fw. Qed.
Lemma additive_w e v s : wkeeps s (noise_additive e v s).
Proof. apply set_f_w, fw_loop. intros. apply okall_bind. intro. apply with_ivar_fw. Qed.
Lemma flux_w e s : wkeeps s (flux_calibrate1 e s).
Proof. apply set_f_w, fw_loop. intros. apply with_arm_fw. Qed.
Lemma mask_w p m s : wkeeps s (mask_apply p m s).
Proof.
  destruct m; cbn [mask_apply].
  - apply set_f_w, fw_loop. intros. apply with_arm_fw.
  - unfold balmask_apply. apply okall_bind. intros [|v vs]; [reflexivity|]. apply set_f_w, fw_loop. intros. apply with_arm_fw.
  - unfold dlamask_apply. destruct (nonzero _); [reflexivity|]. apply okall_bind. intro. apply set_f_w, fw_loop. intros. apply with_arm_fw.
Qed.
Lemma smooth_w sm dw x s : wkey (set_smooth_forestivar sm dw x s) = wkey s.
Proof. unfold set_smooth_forestivar. now destruct (qleb x 0). Qed.

Section Window.
Variable a : runargs.
Definition W (s : spec) : Prop := Forall (fun p => Forall (in_window a (s_cat s)) (snd p)) (fw (s_f s)).
Lemma W_key s s' : wkey s' = wkey s -> W s -> W s'.
Proof. unfold wkey, W. intros [= -> ->]. easy. Qed.
Lemma W_keeps s r : wkeeps s r -> W s -> okall W r.
Proof. unfold wkeeps. destruct r as [s'|]; [|easy]. cbn. intros K H. exact (W_key _ _ K H). Qed.
Lemma W_drop dw x y z s : W s -> W (drop_short_arms dw x y z s).
Proof.
  unfold drop_short_arms. match goal with |- context [fold_left _ ?l s] => generalize l end. intro l.
  revert s. induction l as [|arm l IH]; intros s H; [exact H|]. cbn [fold_left]. apply IH. unfold W. cbn.
  unfold dpop. apply Forall_forall. intros p Hp. apply filter_In in Hp as [Hp _]. unfold W in H. rewrite Forall_forall in H. now apply H.
Qed.
Lemma Forall_dset {A} (P : string * A -> Prop) k v d : (forall k', P (k', v)) -> Forall P d -> Forall P (dset k v d).
Proof.
  intros Hv H. induction H as [|[q x] d Hx H IH]; cbn; [constructor; [apply Hv|constructor]|].
  destruct (String.eqb k q); constructor; auto.
Qed.
Lemma Forall_slice {A} (P : A -> Prop) i j l : Forall P l -> Forall P (slice i j l).
Proof.
  rewrite !Forall_forall. intros H x Hx. apply H. unfold slice in Hx. apply In_nth_error in Hx as (k & Hk). 
  assert (In x (skipn i l)) as Hx by (revert k Hk; generalize (skipn i l), (j - i); intros m q; revert m; induction q; intros [|y m] [|k] E; cbn in E; try discriminate; [left; congruence|right; eauto]).
  clear - Hx. revert l Hx. induction i; intros l Hx; [exact Hx|]. destruct l; [destruct Hx|]. right. now apply IHi.
Qed.
Lemma fold_ends (P : Qc -> Prop) (f : Qc -> Qc -> Qc) l : (forall x y, f x y = x \/ f x y = y) -> forall x, P x -> Forall P l -> P (fold_left f l x).
Proof.
  intro H. induction l as [|y l IH]; intros x Hx Hl; [exact Hx|]. inversion Hl; subst. cbn. apply IH; [|assumption]. destruct (H x y) as [-> | ->]; assumption.
Qed.
Lemma linspace_between mn mx n x : In x (linspace mn mx n) -> exists t, (0 <= t)%Qc /\ (t <= 1)%Qc /\ x = (mn + t * (mx - mn))%Qc.
Proof.
  unfold linspace. intro H. apply in_map_iff in H as (i & <- & Hi). apply in_seq in Hi.
  destruct (Nat.eq_dec n 1) as [->|N].
  { assert (i = 0) as -> by lia. exists 0%Qc. split; [apply Qcle_refl|]. split; [now apply Qclt_le_weak|]. cbn [Z.of_nat]. change (zq 0) with 0%Qc. ring. }
  assert (0 < zq (Z.of_nat n - 1))%Qc as D.
  { rewrite <- zq_0. apply zq_lt. lia. }
  assert (0 <= zq (Z.of_nat i))%Qc as I0 by (rewrite <- zq_0; apply zq_le; lia).
  exists (zq (Z.of_nat i) / zq (Z.of_nat n - 1))%Qc. split; [|split].
  - pose proof (Qcinv_pos _ D) as P. unfold Qcdiv. qnra.
  - apply Qcdiv_le; [exact D|]. rewrite Qcmult_1_l. apply zq_le. lia.
  - unfold Qcdiv. ring.
Qed.
Lemma window_convex c mn mx t : in_window a c mn -> in_window a c mx -> (0 <= t)%Qc -> (t <= 1)%Qc -> in_window a c (mn + t * (mx - mn))%Qc.
Proof.
  intros (A1 & A2 & A3 & A4) (B1 & B2 & B3 & B4) T0 T1. unfold in_window.
  set (u := ((1 + c_z c) * r_fw1 a)%Qc) in *. set (v := ((1 + c_z c) * r_fw2 a)%Qc) in *. clearbody u v.
  assert (forall l, (l <= mn)%Qc -> (l <= mx)%Qc -> (l <= mn + t * (mx - mn))%Qc) as L by (intros; qnra).
  assert (forall l, (mn < l)%Qc -> (mx < l)%Qc -> (mn + t * (mx - mn) < l)%Qc) as U.
  { intros l H1 H2. destruct (Qclt_le_dec t 1) as [T|T]; [qnra|]. assert (t = 1%Qc) as -> by now apply Qcle_antisym. qlra. }
  split; [now apply L|]. split; [now apply U|]. split; [now apply L|now apply U].
Qed.
Lemma rlast_in {A} (l : list A) x : rlast l = Ok x -> In x l.
Proof. unfold rlast. intro H. apply in_rev. destruct (rev l); [discriminate|]. injection H as ->. now left. Qed.
Lemma rfirst_in {A} (l : list A) x : rfirst l = Ok x -> In x l.
Proof. destruct l; [discriminate|]. intro H. injection H as ->. now left. Qed.
Lemma ends_ok (P : Qc -> Prop) (f : list Qc -> res Qc) d : (forall l x, f l = Ok x -> In x l) -> Forall (fun p : string * list Qc => Forall P (snd p)) d ->
  okall (Forall P) (rseq (map f (dvals d))).
Proof.
  intros H Hd. apply (okall_rseq (Forall P) P f).
  - intros l Hl. destruct (f l) eqn:E; [|exact I]. apply H in E. rewrite Forall_forall in Hl. now apply Hl.
  - unfold dvals. now apply Forall_map.
Qed.
Lemma rmin_P (P : Qc -> Prop) l : Forall P l -> okall P (rmin l).
Proof. intro H. destruct H; [exact I|]. cbn [rmin rmax okall]. apply fold_ends; try assumption. intros u v. unfold qmin. destruct (qleb u v); auto. Qed.
Lemma rmax_P (P : Qc -> Prop) l : Forall P l -> okall P (rmax l).
Proof. intro H. destruct H; [exact I|]. cbn [rmin rmax okall]. apply fold_ends; try assumption. intros u v. unfold qmax. destruct (qleb u v); auto. Qed.
Lemma W_coadd x1 x2 x3 x4 x5 x6 s : W s -> okall W (coadd_arms_forest x1 x2 x3 x4 x5 x6 s).
Proof.
  intro H. unfold coadd_arms_forest. cbv zeta.
  eapply okall_bind2; [apply (ends_ok _ _ _ rfirst_in H)|]. intros firsts F1.
  eapply okall_bind2; [apply (ends_ok _ _ _ rlast_in H)|]. intros lasts F2.
  eapply okall_bind2; [apply rmin_P; exact F1|]. intros mn Hmn. eapply okall_bind2; [apply rmax_P; exact F2|]. intros mx Hmx.
  apply okall_bind. intro acc. destruct (coadd_finish acc) as [cf ci]. do 2 (apply okall_bind; intro).
  eapply okall_bind2; [apply weight_w|]. intros s3 K. apply okall_bind. intro d. cbv beta in K. rewrite smooth_w in K.
  apply (W_key s3); [reflexivity|]. refine (W_key _ _ K _). unfold W. cbn. constructor; [|constructor]. cbn [snd].
  apply Forall_forall. intros x Hx. apply linspace_between in Hx as (t & T0 & T1 & ->). now apply window_convex.
Qed.
Lemma W_slice arm i j s : W s -> okall W (spec_slice_z arm i j s).
Proof.
  intro H. unfold spec_slice_z. cbv zeta. unfold rget at 1. destruct (dget arm (fw (s_f s))) as [wv|] eqn:E; [|exact I].
  cbn [of_option rbind]. destruct (_ && _); [exact H|]. do 4 (apply okall_bind; intro). cbn [okall].
  assert (forall f', fw f' = dset arm (pyslice i j wv) (fw (s_f s)) -> W (set_f f' s)) as K.
  { intros f' Ef. unfold W. cbn [s_f set_f s_cat]. rewrite Ef. apply Forall_dset; [|exact H]. intros k. cbn [snd]. apply Forall_slice.
    apply dget_In_pair in E. unfold W in H. rewrite Forall_forall in H. exact (H _ E). }
  match goal with |- W (match dget arm ?c with _ => _ end) => destruct (dget arm c) end.
  - match goal with |- W (set_cont _ ?t) => apply (W_key t); [reflexivity|] end. apply K. match goal with |- context [match dget arm (fr ?t) with _ => _ end] => destruct (dget arm (fr t)) end; reflexivity.
  - apply K. match goal with |- context [match dget arm (fr ?t) with _ => _ end] => destruct (dget arm (fr t)) end; reflexivity.
Qed.
Lemma W_match_exposure dw c s : W s -> okall W (match_exposure dw c s).
Proof.
  intro H. unfold match_exposure. apply okall_for_each; [|exact (W_key _ _ eq_refl H)]. intros [arm wv] s1 H1. unfold match_arm.
  destruct (dget _ _); [|exact I]. do 4 (apply okall_bind; intro).
  destruct (if (_ <? 0)%Z then _ else _) as [i1 j1]. destruct (if (_ <? 0)%Z then _ else _) as [i2 j2].
  eapply okall_bind2; [apply W_slice; exact H1|]. intros s2 H2. do 2 (apply okall_bind; intro). cbn [okall].
  destruct (_ =? _); refine (W_key _ _ _ H2); reflexivity.
Qed.
Lemma W_region nsqrt s s1 : fresh s -> set_forest_region nsqrt (r_w1 a) (r_w2 a) (r_fw1 a) (r_fw2 a) s = Ok s1 -> W s1.
Proof.
  intros (He & N & D & Asc) E. pose proof (region_cat nsqrt (r_w1 a) (r_w2 a) (r_fw1 a) (r_fw2 a) s) as K. unfold keeps in K. rewrite E in K.
  cbn in K. unfold skey in K. assert (s_cat s1 = s_cat s) as Ec by congruence.
  pose proof (ProofMasks3.fresh_forest_proper nsqrt _ _ _ _ s s1 He N D Asc E) as (_ & N1 & _).
  unfold W. apply Forall_forall. intros [arm wv] Hp. cbn [snd]. apply Forall_forall. intros x Hx. rewrite Ec.
  apply (In_pair_dget _ _ _ N1) in Hp. destruct (set_forest_region_spec nsqrt _ _ _ _ s s1 He N D E arm) as (H & _).
  destruct (dget arm (s_wave s)) as [w0|] eqn:Ew; [|destruct H; congruence].
  destruct (dget arm (s_flux s)) as [fl|]; [|destruct H; congruence].
  destruct (dget arm (s_ivar s)) as [iv|]; [|destruct H; congruence].
  specialize (H (Asc _ _ Ew)). destruct H as (H1 & H2).
  match type of H1 with (exists p, In p ?l /\ _) -> _ => set (px := l) in * end.
  assert ((exists p, In p px /\ good (p_ivar p)) \/ (forall p, In p px -> ~ good (p_ivar p))) as [C|C].
  { clear. induction px as [|p l [(q & Hq & G)|IH]]; [right; intros p []|left; exists q; split; [now right|easy]|].
    destruct (nltb n0 (p_ivar p)) eqn:G; [left; exists p; split; [now left|easy]|].
    right. intros q [<-|Hq]; [unfold good; congruence|auto]. }
  2: { destruct (H2 C) as (Q & _). congruence. }
  destruct (H1 C) as (Q & _). rewrite Q in Hp. injection Hp as <-. apply in_map_iff in Hx as (p & <- & Hp).
  apply filter_In in Hp as (_ & Hp). unfold in_forestb in Hp. rewrite !andb_true_iff, !qleb_true, !qltb_true in Hp. unfold in_window, s_z in *. tauto.
Qed.

Section Select.
Variables (dla_flux : Qc -> Qc -> Qc -> num) (ev : interp -> Qc -> num) (nsqrt : num -> num) (smooth : list num -> Qc -> list num)
  (junk : nat -> num) (dwave : Qc) (w : world).
Lemma W_read again e c rank queue : (forall b cat m s, w_reader w again rank b cat = Some m -> In s m -> fresh s) ->
  okall (Forall W) (read_queue nsqrt smooth junk dwave w again a e c rank queue).
Proof.
  intro R. unfold read_queue. eapply okall_bind2.
  - apply (okall_rseq (fun _ => True) (Forall W)); [|apply Forall_forall; easy]. intros cat _.
    unfold the_file. destruct (w_reader w again rank (is_before e) cat) as [m|] eqn:E; [|exact I]. cbn [of_option rbind].
    eapply okall_rmap2; [apply (okall_rseq SpecSelect.fresh W)|].
    + intros s Hs. unfold cut_forest. destruct (set_forest_region nsqrt _ _ _ _ s) as [s1|] eqn:Es; [|exact I]. cbn [rmap okall].
      refine (W_key s1 _ _ _); [reflexivity|]. exact (W_region nsqrt s s1 Hs Es).
    + apply Forall_forall. intros s Hs. exact (R _ _ _ _ E Hs).
    + intros l Hl. apply Forall_forall. intros s Hs. apply filter_In in Hs as [Hs _]. rewrite Forall_forall in Hl. now apply Hl.
  - intros ll Hll. assert (Forall W (concat ll)) as Hc by now apply Forall_concat.
    destruct (is_before c); [|exact Hc]. refine (okall_rseq W W _ _ _ Hc). intros s Hs. now apply W_coadd.
Qed.
Lemma W_calibrate again rank l : Forall W l -> leaf (Forall W) (calibrate ev w again a rank l).
Proof.
  intro Hl. unfold calibrate. apply (leaf_bind (Forall W)).
  - destruct (r_noise a); [|exact Hl]. apply leaf_bind_any. intro i. apply leaf_res. intros l1 E.
    refine (okall_use _ _ _ (okall_rseq W W _ _ _ Hl) E). intros s Hs. exact (W_keeps s _ (eta_w _ s) Hs).
  - intros l1 H1. destruct (r_flux a); [|exact H1]. apply leaf_bind_any. intro i. apply leaf_res. intros l2 E.
    refine (okall_use _ _ _ (okall_rseq W W _ _ _ H1) E). intros s Hs. exact (W_keeps s _ (flux_w _ s) Hs).
Qed.
Lemma W_masks ms l : Forall W l -> okall (Forall W) (apply_masks dla_flux dwave ms l).
Proof.
  intro Hl. unfold apply_masks. destruct ms as [|m ms]; [exact Hl|]. refine (okall_rseq W W _ _ _ Hl). intros s Hs. unfold apply_masks_one.
  eapply okall_rmap2; [apply (okall_for_each W); [|exact Hs]|].
  - intros m1 s1 H1. exact (W_keeps s1 _ (mask_w _ _ s1) H1).
  - intros s1 H1. now apply W_drop.
Qed.
Lemma snr_cut_sub (I0 : spec -> Prop) x l : Forall I0 l -> okall (Forall I0) (snr_cut x l).
Proof.
  intro Hl. unfold snr_cut. eapply okall_rmap2; [refine (okall_rseq I0 (Forall I0) _ _ _ Hl)|intros ll H; now apply Forall_concat].
  intros s Hs. apply okall_rmap. intro m. destruct (nleb x m); constructor; auto.
Qed.
Lemma short_sub (I0 : spec -> Prop) x y z l : Forall I0 l -> Forall I0 (remove_short_spectra dwave x y z l).
Proof.
  intro Hl. unfold remove_short_spectra. destruct (qeqb z 0); [exact Hl|]. apply Forall_forall. intros s Hs. apply filter_In in Hs as [Hs _].
  rewrite Forall_forall in Hl. now apply Hl.
Qed.
Lemma W_select again e c rank ms queue : (forall b cat m s, w_reader w again rank b cat = Some m -> In s m -> SpecSelect.fresh s) ->
  leaf (Forall W) (select_spectra dla_flux ev nsqrt smooth junk dwave w again a e c rank ms queue).
Proof.
  intro R. unfold select_spectra, read_spectra. apply (leaf_bind (Forall W)).
  - apply (leaf_bind (Forall W)); [|intros l H x; exact H]. apply leaf_res. intros l E. exact (okall_use _ _ _ (W_read again e c rank queue R) E).
  - intros l H. apply (leaf_bind (Forall W)); [now apply W_calibrate|]. intros l1 H1. apply leaf_res. intros l2 E.
    refine (okall_use (Forall W) _ _ _ E). eapply okall_bind2; [apply W_masks; exact H1|]. intros l3 H3. now apply snr_cut_sub, short_sub.
Qed.
Lemma W_exposures row_of rank ms l : (forall b cat m s, w_reader w true rank b cat = Some m -> In s m -> SpecSelect.fresh s) ->
  leaf (Forall W) (exposures_after dla_flux row_of ev nsqrt smooth junk dwave w a rank ms l).
Proof.
  intro R. unfold exposures_after. apply leaf_bind_any. intros _. apply (leaf_bind (Forall W)); [now apply W_select|]. intros l1 H1.
  apply leaf_res. intros l2 E. refine (okall_use _ _ _ (okall_rseq W W _ _ _ H1) E). intros s Hs.
  destruct (find _ _); [|exact I]. now apply W_match_exposure.
Qed.
End Select.
End Window.
