(** The spectra that the masks are applied to, and what the masks leave (C71). *)
From Coq Require Import ZArith String List Bool Arith Lia Sorted Qcanon.
From Verif Require Import Num NpList NpListFacts Exn Dict Mpi ModelSpectrum ModelMasks ModelPipeline SpecSpectrum SpecMasks SpecCoadd SpecSelect SpecPixels
  ProofCat ProofMasks ProofMasks2 ProofMasks3 ProofCoadd ProofCoadd2 ProofPixels1 ProofPixels2 ProofPixels3.
Import ListNotations.
Local Open Scope nat_scope.

(** the three dictionaries of inverse variances and weights are one object *)
Definition shared (f : forest) : Prop := rs f = ri f /\ rw f = ri f.
(** proper, shared, physical redshift *)
Definition ready (s : spec) : Prop := proper s /\ shared (s_f s) /\ (0 < 1 + s_z s)%Qc.
(** ... and not fitted yet *)
Definition unfitted (s : spec) : Prop := ready s /\ s_valid s = false /\ s_sscale s = 0%Qc.

(** ** loops that keep the lengths *)
Definition like (f f' : forest) : Prop :=
  fw f' = fw f /\ ri f' = ri f /\ rs f' = rs f /\ rw f' = rw f /\ length (hp f') = length (hp f) /\
  (forall arm, len_at (ff f') arm = len_at (ff f) arm) /\ (forall i arm, len_at (nth i (hp f') []) arm = len_at (nth i (hp f) []) arm).
Lemma like_refl f : like f f. Proof. repeat split. Qed.
Lemma like_trans f g h : like f g -> like g h -> like f h.
Proof.
  intros (A1 & A2 & A3 & A4 & A5 & A6 & A7) (B1 & B2 & B3 & B4 & B5 & B6 & B7).
  unfold like. do 5 (split; [congruence|]). split; intros; [now rewrite B6|now rewrite B7].
Qed.
Lemma like_ready f s : like (s_f s) f -> ready s -> ready (set_f f s).
Proof.
  intros (A1 & A2 & A3 & A4 & A5 & A6 & A7) ((P1 & P2 & P3 & P4 & P5 & P6) & (S1 & S2) & Z). split; [|split; [|exact Z]].
  - split; [|cbn [s_f set_f]; rewrite A1; split; [exact P2|]; split; [exact P3|]; rewrite A2, A3, A4, A5; auto].
    intro arm. cbn [s_f set_f]. destruct (P1 arm) as (Q1 & Q2 & Q3 & Q4). unfold fivar, fivar_sm, fweight in *. rewrite A1, A2, A3, A4, A6, !A7. auto.
  - unfold shared. cbn [s_f set_f]. rewrite A2, A3, A4. auto.
Qed.
Lemma len_dset {A} (d : dict (list A)) arm l l' : dget arm d = Some l -> length l' = length l -> forall q, len_at (dset arm l' d) q = len_at d q.
Proof.
  intros E L q. unfold len_at. rewrite dget_dset. destruct (String.eqb_spec q arm) as [->|N]; [|reflexivity]. rewrite E. cbn. now rewrite L.
Qed.
Lemma like_mut r arm iv iv' f : ri f < length (hp f) -> r = ri f -> dget arm (fivar f) = Some iv -> length iv' = length iv -> like f (mut_ref r (dset arm iv') f).
Proof.
  intros Hr -> E L. unfold like. cbn [mut_ref fw ff hp ri rs rw]. rewrite upd_length. repeat (split; [reflexivity|]). intros i q.
  destruct (lt_dec i (length (hp f))) as [Hi|Hi]; [|rewrite !nth_overflow by (rewrite ?upd_length; lia); reflexivity].
  rewrite nth_upd by exact Hi. destruct (Nat.eqb_spec i (ri f)) as [->|N]; [|reflexivity]. exact (len_dset _ arm iv iv' E L q).
Qed.
Definition live (f f' : forest) : Prop := like f f' /\ ri f' < length (hp f').
Lemma like_with_ivar arm f k : ri f < length (hp f) -> (forall iv, okall (fun iv' => length iv' = length iv) (k iv)) -> okall (like f) (with_ivar arm f k).
Proof.
  intros Hr Hk. unfold with_ivar, rget. destruct (dget arm (fivar f)) as [iv|] eqn:E; [|exact I]. cbn [of_option rbind].
  eapply okall_bind2; [apply Hk|]. intros iv' L. exact (like_mut _ arm iv iv' f Hr eq_refl E L).
Qed.
Lemma like_with_arm arm f k : ri f < length (hp f) -> (forall fl iv, okall (fun p => length (fst p) = length fl /\ length (snd p) = length iv) (k fl iv)) ->
  okall (like f) (with_arm arm f k).
Proof.
  intros Hr Hk. unfold with_arm, rget. destruct (dget arm (ff f)) as [fl|] eqn:Ef; [|exact I]. destruct (dget arm (fivar f)) as [iv|] eqn:E; [|exact I]. cbn [of_option rbind].
  eapply okall_bind2; [apply Hk|]. intros [fl' iv'] [L1 L2]. cbn [fst snd okall] in *. eapply like_trans; [|apply (like_mut _ arm iv iv'); [exact Hr|reflexivity|exact E|exact L2]].
  unfold like. cbn [set_ff fw ff hp ri rs rw]. repeat (split; [reflexivity|]). split; [|reflexivity]. exact (len_dset _ arm fl fl' Ef L1).
Qed.
Lemma like_loop {X} (l : list X) (body : X -> forest -> res forest) f0 :
  (forall x f, ri f < length (hp f) -> okall (like f) (body x f)) -> ri f0 < length (hp f0) -> okall (like f0) (for_each l body f0).
Proof.
  intros H Hr.
  assert (okall (fun f => like f0 f /\ ri f < length (hp f)) (for_each l body f0)) as K.
  { apply okall_for_each; [|split; [apply like_refl|exact Hr]]. intros x f [L R]. pose proof (H x f R) as Q. destruct (body x f) as [f1|]; [|exact I].
    cbn [okall] in *. split; [now apply (like_trans f0 f)|]. destruct Q as (_ & -> & _ & _ & -> & _). exact R. }
  destruct (for_each l body f0); [exact (proj1 K)|exact I].
Qed.
Lemma zip2_len {A B C} (f : A -> B -> C) a b : okall (fun c => length c = length a /\ length c = length b) (zip2 f a b).
Proof. unfold zip2. destruct (Nat.eqb_spec (length a) (length b)); [|exact I]. cbn [okall]. rewrite map2_length. lia. Qed.
Lemma ready_eta e s : ready s -> okall ready (noise_eta e s).
Proof.
  intro H. unfold noise_eta. eapply okall_rmap2; [apply like_loop|].
  - intros x f Hr. apply like_with_ivar; [exact Hr|]. intro iv. pose proof (zip2_len ndiv iv (map e (snd x))) as K. destruct (zip2 _ _ _); [exact (proj1 K)|exact I].
  - apply H.
  - intros f L. now apply like_ready.
Qed.
Lemma ready_flux e s : ready s -> okall ready (flux_calibrate1 e s).
Proof.
  intro H. unfold flux_calibrate1. eapply okall_rmap2; [apply like_loop|].
  - intros x f Hr. apply like_with_arm; [exact Hr|]. intros fl iv. unfold flux_cal_arm. eapply okall_bind2; [apply zip2_len|]. intros fl' L1.
    eapply okall_bind2; [apply zip2_len|]. intros iv' L2. cbn. split; [apply L1|apply L2].
  - apply H.
  - intros f L. now apply like_ready.
Qed.

(** ** reading *)
Lemma ready_cut nsqrt a s s1 : fresh s -> (0 < 1 + s_z s)%Qc -> s_valid s = false -> s_sscale s = 0%Qc -> cut_forest nsqrt a s = Ok s1 -> unfitted s1 /\ s_cat s1 = s_cat s.
Proof.
  intros (He & N & Dm & Asc) Z V Sc E. unfold cut_forest in E. destruct (set_forest_region nsqrt _ _ _ _ s) as [t|] eqn:Et; [|discriminate]. cbn in E. injection E as <-.
  pose proof (fresh_forest_proper nsqrt _ _ _ _ s t He N Dm Asc Et) as P.
  pose proof Et as Et'. unfold set_forest_region in Et'. destruct (forest_limits _ _ _ _ _) as [l1 l2].
  match type of Et' with rbind ?x _ = _ => destruct x as [f|] eqn:Ef; [|discriminate Et'] end. cbn [rbind] in Et'. unfold set_forest_related in Et'.
  match type of Et' with rbind ?x _ = _ => destruct x as [[[x0 wt] ms]|]; [|discriminate Et'] end. cbn [rbind] in Et'. injection Et' as <-.
  split; [|reflexivity]. split; [|split; [exact V|exact Sc]]. split; [|split; [|exact Z]].
  - exact P.
  - split; reflexivity.
Qed.
Lemma fold_min_le l : forall x, (fold_left qmin l x <= x)%Qc /\ Forall (fun y => (fold_left qmin l x <= y)%Qc) l.
Proof.
  induction l as [|y l IH]; intro x; cbn [fold_left]; [split; [apply Qcle_refl|constructor]|].
  destruct (IH (qmin x y)) as [A B]. assert (qmin x y <= x /\ qmin x y <= y)%Qc as [C D].
  { unfold qmin. destruct (qleb x y) eqn:E; qcase_in E; split; try apply Qcle_refl; try assumption. now apply Qclt_le_weak. }
  split; [now apply Qcle_trans with (qmin x y)|]. constructor; [now apply Qcle_trans with (qmin x y)|exact B].
Qed.
Lemma fold_max_ge l : forall x, (x <= fold_left qmax l x)%Qc /\ Forall (fun y => (y <= fold_left qmax l x)%Qc) l.
Proof.
  induction l as [|y l IH]; intro x; cbn [fold_left]; [split; [apply Qcle_refl|constructor]|].
  destruct (IH (qmax x y)) as [A B]. assert (x <= qmax x y /\ y <= qmax x y)%Qc as [C D].
  { unfold qmax. destruct (qleb x y) eqn:E; qcase_in E; split; try apply Qcle_refl; try assumption. now apply Qclt_le_weak. }
  split; [now apply Qcle_trans with (qmax x y)|]. constructor; [now apply Qcle_trans with (qmax x y)|exact B].
Qed.
Lemma ends_ordered d firsts lasts mn mx : Forall (fun p : string * list Qc => ascending (snd p)) d ->
  rseq (map rfirst (dvals d)) = Ok firsts -> rseq (map rlast (dvals d)) = Ok lasts -> rmin firsts = Ok mn -> rmax lasts = Ok mx -> (mn <= mx)%Qc.
Proof.
  intros Hd E1 E2 E3 E4. destruct d as [|[arm l] d]; [injection E1 as <-; discriminate E3|]. cbn [dvals map snd rseq] in E1, E2.
  destruct (rfirst l) as [x|] eqn:Ex; [|discriminate]. destruct (rlast l) as [y|] eqn:Ey; [|discriminate]. cbn [rbind] in E1, E2.
  destruct (rseq _) as [fs|] in E1; [|discriminate]. destruct (rseq _) as [ls|] in E2; [|discriminate]. cbn in E1, E2. injection E1 as <-. injection E2 as <-.
  cbn in E3, E4. injection E3 as <-. injection E4 as <-. inversion Hd as [|? ? Ha _]; subst. cbn [snd] in Ha.
  apply Qcle_trans with x; [apply fold_min_le|]. apply Qcle_trans with y; [|apply fold_max_ge].
  destruct l as [|z l]; [discriminate|]. injection Ex as ->. apply rlast_in in Ey. destruct Ey as [->|Hy]; [apply Qcle_refl|].
  inversion Ha as [|? ? _ F]; subst. rewrite Forall_forall in F. apply Qclt_le_weak. now apply F.
Qed.
Lemma fancy_write_len ii : forall v a, length (fancy_write ii v a) = length a.
Proof.
  unfold fancy_write. intros v a. generalize (combine ii v) as l. intro l. revert a. induction l as [|p l IH]; intro a; [reflexivity|]. cbn. now rewrite IH, upd_length.
Qed.
Lemma fancy_add_len a idx v : okall (fun a' => length a' = length a) (fancy_add a idx v).
Proof. unfold fancy_add. apply okall_bind. intro ii. destruct (_ =? _); [|exact I]. apply fancy_write_len. Qed.
Lemma unfitted_coadd nsqrt smooth junk dw vl e s : (forall iv sig, length (smooth iv sig) = length iv) -> (0 < dw)%Qc -> unfitted s ->
  okall (fun s' => ready s' /\ s_cat s' = s_cat s) (coadd_arms_forest nsqrt smooth junk dw vl e s).
Proof.
  intros Hlen Hdw ((P & Sh & Z) & V & Sc). pose proof (coadd_cat nsqrt smooth junk dw vl e s) as KC. unfold keeps in KC.
  destruct (coadd_arms_forest nsqrt smooth junk dw vl e s) as [s'|] eqn:E; [|exact I]. cbn [okall] in *. unfold skey in KC.
  assert (s_cat s' = s_cat s) as Ec by congruence. split; [|exact Ec].
  unfold coadd_arms_forest in E. cbv zeta in E.
  destruct (rseq (map rfirst _)) as [firsts|] eqn:E1; [|discriminate]. cbn [rbind] in E.
  destruct (rseq (map rlast _)) as [lasts|] eqn:E2; [|discriminate]. cbn [rbind] in E.
  destruct (rmin firsts) as [mn|] eqn:E3; [|discriminate]. cbn [rbind] in E.
  destruct (rmax lasts) as [mx|] eqn:E4; [|discriminate]. cbn [rbind] in E.
  change (Z.to_nat (qtrunc ((mx - mn) / dw + fq 1 10)%Qc + 1)) with (grid_n mn mx dw) in E. set (nw := grid_n mn mx dw) in *.
  assert (mn <= mx)%Qc as Hm.
  { refine (ends_ordered _ _ _ _ _ _ E1 E2 E3 E4). destruct P as (_ & N & Asc & _). apply Forall_forall. intros [arm l] Hl. apply (Asc arm). now apply In_pair_dget. }
  match type of E with rbind ?x _ = _ => destruct x as [acc|] eqn:Ea; [|discriminate E] end. cbn [rbind] in E.
  assert (length (co_flux acc) = nw /\ length (co_ivar acc) = nw /\ length (co_norm acc) = nw) as (L1 & L2 & L3).
  { refine (okall_use (fun c => length (co_flux c) = nw /\ length (co_ivar c) = nw /\ length (co_norm c) = nw) _ _ _ Ea).
    apply okall_for_each; [|cbn; now rewrite !repeat_length]. intros x c (C1 & C2 & C3). do 3 (apply okall_bind; intro). unfold coadd_one. do 2 (apply okall_bind; intro).
    eapply okall_bind2; [apply fancy_add_len|]. intros cf Lf. eapply okall_bind2; [apply fancy_add_len|]. intros ci Li. eapply okall_bind2; [apply fancy_add_len|]. intros cn Ln.
    cbn in *. split; [congruence|]. split; congruence. }
  unfold coadd_finish in E. set (cf := map2 _ (co_norm acc) (co_flux acc)) in E. set (ci := map2 _ (co_norm acc) (co_ivar acc)) in E.
  assert (length cf = nw) as Lf by (unfold cf; rewrite map2_length; lia). assert (length ci = nw) as Li by (unfold ci; rewrite map2_length; lia).
  match type of E with rbind ?x _ = _ => destruct x as [cont1|]; [|discriminate E] end. cbn [rbind] in E.
  match type of E with rbind ?x _ = _ => destruct x as [reso1|]; [|discriminate E] end. cbn [rbind] in E.
  match type of E with context [set_smooth_forestivar smooth dw (s_sscale s) ?t] => set (s1 := t) in E end.
  assert (length (linspace mn mx nw) = nw) as Lw by (unfold linspace; now rewrite map_length, seq_length).
  destruct P as (_ & _ & _ & _ & Hrs & Hrw).
  destruct (smooth_step smooth Hlen dw (s_sscale s) s1 cf ci (linspace mn mx nw) reso1 (s_f s) eq_refl) as (P2 & _ & _ & _ & _ & V2 & _ & C2); try congruence.
  { unfold nw. now apply linspace_ascending. }
  destruct (fallback_proper vl e _ P2) as (s3 & W3 & P3 & _). { left. rewrite V2. exact V. }
  rewrite W3 in E. cbn [rbind] in E. match type of E with rbind ?x _ = _ => destruct x as [d|]; [|discriminate E] end. cbn [rbind] in E. injection E as <-.
  split; [exact P3|]. split; [|unfold s_z in *; now rewrite Ec].
  change (shared (s_f s3)). unfold set_forest_weight in W3. rewrite V2 in W3. change (s_valid s1) with (s_valid s) in W3. rewrite V in W3. cbn [negb orb] in W3. injection W3 as <-.
  unfold set_smooth_forestivar. rewrite Sc. split; reflexivity.
Qed.
