(** Selection of spectra (C66). *)
From Coq Require Import ZArith String List Bool Arith Lia Qcanon.
From Verif Require Import Num NpList Exn Dict ModelSpectrum ModelMasks ModelPipeline SpecSpectrum SpecCoadd SpecSnr SpecSelect
  ProofSpectrum1 ProofSpectrum2 ProofCat.
Import ListNotations.
Local Open Scope nat_scope.

Lemma rseq_ok {A B} (f : A -> res B) l : forall r, rseq (map f l) = Ok r -> Forall2 (fun x y => f x = Ok y) l r.
Proof.
  induction l as [|x l IH]; intros r H; cbn in H.
  - injection H as <-. constructor.
  - destruct (f x) as [y|] eqn:E; [|discriminate H]. cbn in H. destruct (rseq (map f l)) as [ys|]; [|discriminate H]. cbn in H. injection H as <-.
    constructor; [exact E|now apply IH].
Qed.
Lemma in_pixels_dec (P : pixel -> bool) l : (exists p, In p l /\ P p = true) \/ (forall p, In p l -> P p = false).
Proof.
  destruct (existsb P l) eqn:E.
  - left. now apply existsb_exists.
  - right. intros p Hp. destruct (P p) eqn:F; [|easy]. assert (existsb P l = true) by (apply existsb_exists; now exists p). congruence.
Qed.
Lemma forest_exists nsqrt a s s1 : fresh s -> set_forest_region nsqrt (r_w1 a) (r_w2 a) (r_fw1 a) (r_fw2 a) s = Ok s1 ->
  dtrue (fw (s_f s1)) = has_forest a s.
Proof.
  intros (F & N & D & Asc) E. pose proof (set_forest_region_spec nsqrt _ _ _ _ s s1 F N D E) as K.
  apply eq_true_iff_eq. unfold has_forest. rewrite existsb_exists. split.
  - intro T. destruct (fw (s_f s1)) as [|[arm w] r] eqn:Efw; [discriminate T|]. specialize (K arm). destruct K as [K _].
    assert (dget arm (fw (s_f s1)) = Some w) as G. { rewrite Efw. cbn. now rewrite String.eqb_refl. }
    destruct (dget arm (s_wave s)) as [wave|] eqn:E1, (dget arm (s_flux s)) as [fl|] eqn:E2, (dget arm (s_ivar s)) as [iv|] eqn:E3;
      try (destruct K as (K & _); rewrite Efw in G; congruence).
    specialize (K (Asc _ _ E1)). cbv zeta in K. destruct K as [_ K].
    set (px := filter (fun p => in_forestb (s_z s) (r_w1 a) (r_w2 a) (r_fw1 a) (r_fw2 a) (p_wave p)) (pixels wave fl iv)) in *.
    destruct (in_pixels_dec unmasked px) as [(p & Hp & U)|No].
    + apply filter_In in Hp. destruct Hp as [Hp I]. exists p. split; [|now rewrite I].
      unfold spectrum_pixels. apply in_flat_map. exists (arm, wave). split; [now apply dget_In_pair|]. cbn [fst snd]. unfold dlist. now rewrite E2, E3.
    + exfalso. destruct K as (K & _); [|rewrite Efw in G; congruence]. intros p Hp C. specialize (No p Hp). unfold good in C. unfold unmasked in No. congruence.
  - intros (p & Hp & Hb). apply andb_true_iff in Hb. destruct Hb as [I U]. unfold spectrum_pixels in Hp. apply in_flat_map in Hp.
    destruct Hp as ([arm wave] & Ha & Hp). cbn [fst snd] in Hp. apply In_pair_dget in Ha; [|exact N]. specialize (K arm). destruct K as [K _].
    rewrite Ha in K. unfold dlist in Hp. destruct (D arm) as [D1 D2]. unfold len_at in D1, D2. rewrite Ha in D1, D2.
    destruct (dget arm (s_flux s)) as [fl|] eqn:E2; [|discriminate D1]. destruct (dget arm (s_ivar s)) as [iv|] eqn:E3; [|discriminate D2].
    specialize (K (Asc _ _ Ha)). cbv zeta in K. destruct K as [(K & _) _].
    { exists p. split; [apply filter_In; now split|exact U]. }
    destruct (fw (s_f s1)); [discriminate K|easy].
Qed.

Section Read.
Variables (nsqrt : num -> num) (smooth : arr -> Qc -> arr) (junk : nat -> num) (dwave : Qc) (w : world) (a : runargs).
Lemma selection_thm again e c rank queue l : (forall b cat m s, w_reader w again rank b cat = Some m -> In s m -> fresh s) ->
  read_queue nsqrt smooth junk dwave w again a e c rank queue = Ok l ->
  exists all, read_from w again rank (is_before e) queue all /\ Forall2 same_object (filter (selected a) all) l /\
    (is_before c = false -> Forall2 (fun s s' => exists s1, set_forest_region nsqrt (r_w1 a) (r_w2 a) (r_fw1 a) (r_fw2 a) s = Ok s1 /\
       s' = remove_nonforest_pixels s1) (filter (selected a) all) l).
Proof.
  intros R H. unfold read_queue in H.
  destruct (rseq (map _ queue)) as [ll|] eqn:E; [|discriminate H]. cbn [rbind] in H. apply rseq_ok in E.
  set (cut := fun s s' => exists s1, set_forest_region nsqrt (r_w1 a) (r_w2 a) (r_fw1 a) (r_fw2 a) s = Ok s1 /\ s' = remove_nonforest_pixels s1).
  assert (X : exists mm, Forall2 (fun cat m => w_reader w again rank (is_before e) cat = Some m) queue mm /\
                         Forall2 cut (filter (selected a) (concat mm)) (concat ll)).
  { clear H. induction E as [|cat m queue ll E1 E IH].
    - exists []. split; constructor.
    - destruct IH as (mm & M1 & M2). unfold the_file in E1. destruct (w_reader w again rank (is_before e) cat) as [r|] eqn:ER; [|discriminate E1].
      cbn [of_option rbind] in E1. destruct (rseq (map (cut_forest nsqrt a) r)) as [cs|] eqn:EC; [|discriminate E1]. cbn in E1.
      assert (m = filter (kept a) cs) as -> by congruence. apply rseq_ok in EC.
      exists (r :: mm). split; [now constructor|]. cbn [concat]. rewrite filter_app. apply Forall2_app; [|exact M2].
      assert (FR : forall s, In s r -> fresh s) by (intros s Hs; exact (R _ _ _ s ER Hs)). clear - EC FR.
      induction EC as [|s s' r cs E EC IH]; [constructor|]. cbn [filter].
      unfold cut_forest in E. destruct (set_forest_region nsqrt _ _ _ _ s) as [s1|] eqn:ES; [|discriminate E]. cbn in E.
      assert (s' = remove_nonforest_pixels s1) as -> by congruence.
      assert (kept a (remove_nonforest_pixels s1) = selected a s) as ->.
      { unfold kept, selected. cbn [s_f remove_nonforest_pixels s_rsnr]. rewrite (forest_exists nsqrt a s s1 (FR s (or_introl eq_refl)) ES).
        pose proof (region_cat nsqrt (r_w1 a) (r_w2 a) (r_fw1 a) (r_fw2 a) s) as K. unfold keeps in K. rewrite ES in K. cbn in K. unfold skey in K.
        assert (s_rsnr s1 = s_rsnr s) as -> by congruence. easy. }
      destruct (selected a s); [constructor; [now exists s1|]|]; apply IH; intros; apply FR; now right. }
  destruct X as (mm & M1 & M2). exists (concat mm). split; [now exists mm|].
  assert (O : Forall2 same_object (filter (selected a) (concat mm)) (concat ll)).
  { clear - M2. induction M2 as [|s s' x y (s1 & E & ->) M2 IH]; constructor; [|exact IH].
    pose proof (region_cat nsqrt (r_w1 a) (r_w2 a) (r_fw1 a) (r_fw2 a) s) as K. unfold keeps in K. rewrite E in K. cbn in K. unfold skey in K. split; cbn; congruence. }
  destruct (is_before c).
  - split; [|easy]. apply rseq_ok in H. clear - O H. revert l H. induction O as [|s s' x y O1 O IH]; intros l H; inversion H; subst; constructor.
    + pose proof (coadd_cat nsqrt smooth junk dwave (fun _ => n0) (fun _ => n1) s') as K. unfold keeps in K. rewrite H2 in K. cbn in K. unfold skey in K.
      destruct O1. split; congruence.
    + now apply IH.
  - assert (l = concat ll) as -> by congruence. split; [exact O|]. intros _. exact M2.
Qed.
End Read.

Lemma slice_cat arm i j s : keeps s (spec_slice arm i j s).
Proof.
  unfold spec_slice. apply okall_bind. intro. destruct (_ && _); [reflexivity|]. do 4 (apply okall_bind; intro). cbn [okall]. now destruct (dget arm (s_cont _)).
Qed.
Lemma history_thm nsqrt smooth dla_flux dwave ops s s' : run_ops nsqrt smooth dla_flux dwave ops s = Ok s' -> same_object s s'.
Proof.
  intro H. assert (skey s' = skey s) as K; [|unfold skey in K; split; congruence]. revert H. unfold run_ops. apply (okall_use (fun t => skey t = skey s)).
  apply okall_for_each; [|reflexivity]. intros o t Ht.
  assert (keeps t (run_op nsqrt smooth dla_flux dwave o t)) as K.
  { destruct o; cbn [run_op]; [apply region_cat|reflexivity|apply mask_cat|apply eta_cat|apply additive_cat|apply flux_cat|apply smooth_cat|
      apply weight_cat|apply chi2_cat|apply coadd_cat|reflexivity|apply drop_cat|reflexivity|apply slice_cat]. }
  unfold keeps in K. destruct (run_op _ _ _ _ o t); cbn in *; [congruence|exact I].
Qed.
