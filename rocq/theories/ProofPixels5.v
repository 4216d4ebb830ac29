(** The masks of a run take the weight of the masked pixels (C71). *)
From Coq Require Import ZArith String List Bool Arith Lia Qcanon.
From Verif Require Import Num NpList NpListFacts Exn Dict Mpi ModelMpiUtils ModelSpectrum ModelMasks ModelFitArgs ModelCatalog ModelFitQueue ModelIO ModelVarFit ModelFitter ModelPipeline
  SpecMpi SpecSpectrum SpecMasks SpecPipeline SpecSelect SpecPixels
  ProofMpi ProofMpi2 ProofLock ProofSafe ProofFitter ProofCat ProofMasks ProofMasks2 ProofMasks3 ProofPipeline ProofAttributes ProofRanks5 ProofPixels1 ProofPixels2 ProofPixels3 ProofPixels4.
Import ListNotations.
Local Open Scope nat_scope.

Definition refs (f : forest) : nat * nat * nat := (ri f, rs f, rw f).
Lemma refs_loop {X} (l : list X) (body : X -> forest -> res forest) f0 :
  (forall x f, okall (fun f' => refs f' = refs f) (body x f)) -> okall (fun f => refs f = refs f0) (for_each l body f0).
Proof.
  intro H. apply okall_for_each; [|reflexivity]. intros x f E. specialize (H x f). destruct (body x f); [|exact I]. cbn in *. congruence.
Qed.
Lemma with_arm_refs arm f k : okall (fun f' => refs f' = refs f) (with_arm arm f k).
Proof. unfold with_arm. repeat (apply okall_bind; intro). reflexivity. Qed.
Lemma mask_refs p m s : okall (fun s' => refs (s_f s') = refs (s_f s)) (mask_apply p m s).
Proof.
  assert (forall X (l : list X) body, (forall x f, okall (fun f' => refs f' = refs f) (body x f)) ->
    okall (fun s' => refs (s_f s') = refs (s_f s)) (rmap (fun f => set_f f s) (for_each l body (s_f s)))) as K.
  { intros X l body H. eapply okall_rmap2; [apply refs_loop; exact H|]. intros f E. exact E. }
  destruct m; cbn [mask_apply].
  - apply K. intros. apply with_arm_refs.
  - unfold balmask_apply. apply okall_bind. intros [|v vs]; [reflexivity|]. apply K. intros. apply with_arm_refs.
  - unfold dlamask_apply. destruct (nonzero _); [reflexivity|]. apply okall_bind. intro. apply K. intros. apply with_arm_refs.
Qed.

(** the pixels at the wavelengths D have no inverse variance *)
Definition zeroed (D : Qc -> Prop) (s : spec) : Prop := forall arm k p, pixel_at s arm k = Some p -> D (p_wave p) -> p_ivar p = n0.
Lemma zeroed_each D s s' : each_pixel only_masked s s' -> zeroed D s -> zeroed D s'.
Proof.
  intros (_ & H) Hz arm k p' E Dx. specialize (H arm k). rewrite E in H. destruct (pixel_at s arm k) as [p|] eqn:Ep; [|contradiction].
  destruct H as (Hw & O & _). apply O. apply (Hz arm k p Ep). now rewrite <- Hw.
Qed.
Lemma zeroed_exactly (D : Qc -> Prop) s s' : (forall x, D x \/ ~ D x) -> zeroes_exactly D s s' -> zeroed D s' /\ each_pixel only_masked s s'.
Proof.
  intros Hd H. split; [|now apply (zeroes_each D)]. destruct H as (_ & H). intros arm k p' E Dx. specialize (H arm k). destruct (pixel_at s arm k) as [p|]; [|congruence].
  destruct H as (H1 & H2). destruct (Hd (p_wave p)) as [Q|Q].
  - rewrite (H1 Q) in E. injection E as <-. reflexivity.
  - rewrite (H2 Q) in E. injection E as <-. contradiction.
Qed.
Lemma zeroed_M (D : catrow -> Qc -> Prop) s : ready s -> zeroed (D (s_cat s)) s -> M D s.
Proof.
  intros ((A & _) & (S1 & S2) & _) H.
  assert (okd (D (s_cat s)) (fw (s_f s)) (fivar (s_f s))) as K.
  { intros arm k x v Ex Dx Ev. left. destruct (A arm) as (A1 & A2 & _). unfold at_pix in Ex, Ev.
    destruct (dget arm (fw (s_f s))) as [wv|] eqn:Ew; [|discriminate]. destruct (dget arm (fivar (s_f s))) as [iv|] eqn:Ei; [|discriminate].
    unfold len_at in A1. rewrite Ew in A1. destruct (dget arm (ff (s_f s))) as [fl|] eqn:Ef; [|discriminate]. cbn in A1. injection A1 as A1.
    assert (k < length fl) as Hk by (rewrite A1; apply nth_error_Some; congruence). apply nth_error_Some in Hk. destruct (nth_error fl k) as [y|] eqn:Ey; [|contradiction].
    apply (H arm k (mkPix x y v)); [|exact Dx]. unfold pixel_at, at_pix. now rewrite Ew, Ef, Ei, Ex, Ey, Ev. }
  split; [exact K|]. unfold fivar_sm, fweight. rewrite S1, S2. split; exact K.
Qed.

Section Steps.
Variable profile : Qc -> Qc -> Qc -> Qc.
Notation pf := (fun x z h => Fin (profile x z h)).
Lemma step_ready m s s' : mask_apply pf m s = Ok s' -> proper s' -> rest_unchanged s s' -> ready s -> ready s' /\ s_cat s' = s_cat s.
Proof.
  intros E P R (_ & Sh & Z). pose proof (mask_refs pf m s) as K. rewrite E in K. cbn [okall] in K. destruct R as (Rc & _).
  split; [|exact Rc]. split; [exact P|]. split; [|unfold s_z in *; now rewrite Rc]. unfold shared, refs in *. injection K as -> -> ->. exact Sh.
Qed.
Lemma sky_step rows s s' : mask_apply pf (MSky (skymask_init rows)) s = Ok s' -> ready s ->
  ready s' /\ s_cat s' = s_cat s /\ each_pixel only_masked s s' /\ zeroed (sky_masked rows (s_z s)) s'.
Proof.
  intros E H. pose proof H as (P & _ & Z). destruct (sky_spec rows s P Z) as (t & Et & Pt & Rt & Zt).
  cbn [mask_apply] in E. assert (t = s') as -> by congruence. destruct (step_ready (MSky (skymask_init rows)) s s' E Pt Rt H) as (Q1 & Q2).
  destruct (zeroed_exactly _ _ _ (sky_dec rows (s_z s)) Zt). auto.
Qed.
Lemma bal_step s s' : mask_apply pf MBal s = Ok s' -> ready s ->
  ready s' /\ s_cat s' = s_cat s /\ each_pixel only_masked s s' /\ zeroed (bal_masked (s_cat s)) s'.
Proof.
  intros E H. pose proof H as (P & _ & Z).
  assert (length (c_vmin450 (s_cat s) ++ c_vmin2000 (s_cat s)) = length (c_vmax450 (s_cat s) ++ c_vmax2000 (s_cat s))) as L.
  { cbn [mask_apply] in E. unfold balmask_apply, bal_velocities, zip2 in E. destruct (Nat.eqb_spec (length (c_vmin450 (s_cat s) ++ c_vmin2000 (s_cat s))) (length (c_vmax450 (s_cat s) ++ c_vmax2000 (s_cat s)))) as [Q|Q]; [exact Q|discriminate E]. }
  destruct (bal_spec s P L) as (t & Et & Pt & Rt & Zt).
  cbn [mask_apply] in E. assert (t = s') as -> by congruence. destruct (step_ready MBal s s' E Pt Rt H) as (Q1 & Q2).
  destruct (zeroed_exactly _ _ _ (fun x => bal_dec (s_cat s) x L) Zt). auto.
Qed.
Lemma dla_step cat ids s s' : mask_apply pf (MDla (dlamask_init cat (Some ids) (fq 8 10))) s = Ok s' -> ready s -> In (c_targetid (s_cat s)) ids ->
  ready s' /\ s_cat s' = s_cat s /\ each_pixel only_masked s s' /\
  zeroed (fun x => (transmission profile cat (c_targetid (s_cat s)) x < fq 8 10)%Qc /\ (x < (1 + s_z s) * fq 121567 100)%Qc) s'.
Proof.
  intros E H Hin. pose proof H as (P & _ & Z). destruct (dla_spec profile cat (Some ids) (fq 8 10) s P) as (t & Et & Pt & Rt & _ & Zt).
  { vm_compute. discriminate. } { intros l El. now injection El as <-. }
  destruct (dla_each profile cat (Some ids) (fq 8 10) s P) as (u & Eu & _ & _ & Ou).
  cbn [mask_apply] in E. change (pflux profile) with pf in *. assert (t = s') as -> by congruence. assert (u = s') as -> by congruence.
  destruct (step_ready (MDla (dlamask_init cat (Some ids) (fq 8 10))) s s' E Pt Rt H) as (Q1 & Q2). split; [exact Q1|]. split; [exact Q2|]. split; [exact Ou|].
  intros arm k p' Ep (T & X). destruct Zt as (_ & Zt). specialize (Zt arm k). rewrite Ep in Zt. destruct (pixel_at s arm k) as [p|]; [|contradiction].
  destruct Zt as (Hw & _ & _ & Hz & _). cbv zeta in Hz. rewrite <- Hw in Hz. now apply Hz.
Qed.
End Steps.

Section Masks.
Variable profile : Qc -> Qc -> Qc -> Qc.
Notation pf := (fun x z h => Fin (profile x z h)).
Variable dwave : Qc.
Variable w : world.
Variable a : runargs.
(** the masks of rank r, whose queue has the TARGETIDs ids *)
Definition masks_at (r : nat) (ids : list Z) : list masker :=
  (if r_sky a then match w_sky w r with Some rows => [MSky (skymask_init rows)] | None => [] end else []) ++
  (if r_bal a then [MBal] else []) ++
  (if r_dla a then match w_dla w 0 with Some cat => [MDla (dlamask_init cat (Some ids) (fq 8 10))] | None => [] end else []).
Lemma masks_at_read n (q : nat -> list (list ModelCatalog.row)) : 1 <= n -> (r_sky a = true -> forall r, r < n -> w_sky w r = None <-> w_sky w 0 = None) ->
  together n (fun r => read_masks w a r (q r)) (fun ms => forall r, r < n -> ms r = masks_at r (map TARGETID (concat (q r)))).
Proof.
  intros Hn Hs. unfold read_masks.
  set (M1 := fun r => if r_sky a then match w_sky w r with Some rows => [MSky (skymask_init rows)] | None => [] end else []).
  set (M2 := if r_bal a then [MBal] else []).
  apply (together_bind n _ _ (fun f => forall r, r < n -> f r = M1 r)); [exact Hn| |].
  - apply together_case; intro E; unfold M1; rewrite E; [|now apply together_ret].
    apply (together_bind n _ _ (fun f => forall r, r < n -> w_sky w r = Some (f r))); [exact Hn| |].
    + apply together_lift; [reflexivity|]. unfold mpi_fnc_bcast. cbn [negb orb Nat.eqb]. destruct (w_sky w 0) as [m0|] eqn:E0.
      * apply together_ext with (fun r => Ret (match w_sky w r with Some m => m | None => [] end)).
        { intros r Hr. destruct (w_sky w r) eqn:Er; [reflexivity|]. apply (Hs E r Hr) in Er. congruence. }
        apply together_ret. intros r Hr. destruct (w_sky w r) eqn:Er; [reflexivity|]. apply (Hs E r Hr) in Er. congruence.
      * apply together_ext with (fun r => Raise (QsonicExn "Error loading SkyMask from mask file")); [|now apply together_raise].
        intros r Hr. assert (w_sky w r = None) as -> by now apply Hs. reflexivity.
    + intros f Hf. apply together_ret. intros r Hr. now rewrite Hf.
  - intros m1 H1. apply (together_bind n _ _ (fun f => forall r, r < n -> f r = M2)); [exact Hn| |].
    + apply together_case; intro E; unfold M2; rewrite E; [|now apply together_ret].
      apply (together_bind n _ _ (fun _ => True)); [exact Hn| |intros; now apply together_ret].
      unfold bal_check. apply (together_bind n _ _ (fun _ => True)); [exact Hn| |].
      * apply together_local; [exact Hn|intros; safe|easy].
      * intros _ _. now apply together_same.
    + intros m2 H2. eapply (together_bind n _ _ (fun f => forall r, r < n -> f r =
        if r_dla a then match w_dla w 0 with Some cat => [MDla (dlamask_init cat (Some (map TARGETID (concat (q r)))) (fq 8 10))] | None => [] end else [])); [exact Hn| |].
      * apply together_case; intro E; rewrite E; [|now apply together_ret].
        apply (together_bind n _ _ (fun f => forall r, r < n -> f r = map TARGETID (concat (q r)))); [exact Hn| |].
        { apply together_local; [exact Hn|intros; unfold local_ids; safe|]. intros f Hf r Hr. specialize (Hf r Hr).
          unfold local_ids in Hf. apply rbind_Ok in Hf as (x & _ & Hf). congruence. }
        intros ids Hids. eapply (together_bind n); [exact Hn| |].
        { apply together_lift; [reflexivity|]. apply fnc_bcast_together; [exact Hn|intros; apply safe_of_option]. }
        intros f (cat & Ec & Hf). apply together_ret. intros r Hr. rewrite (Hf r Hr), (Hids r Hr).
        unfold the_file in Ec. destruct (w_dla w 0); [cbn in Ec; congruence|discriminate].
      * intros m3 H3. apply together_ret. intros r Hr. unfold masks_at. fold M2. fold (M1 r). now rewrite H1, H2, H3.
Qed.
Lemma masks_at_M r ids s : ready s -> In (c_targetid (s_cat s)) ids ->
  okall (fun s' => ready s' /\ M (masked_in_run profile w a r) s') (for_each (masks_at r ids) (mask_apply pf) s).
Proof.
  intros H Hin. unfold masks_at. rewrite !for_each_app.
  set (Ds := fun x => r_sky a = true /\ exists rows, w_sky w r = Some rows /\ sky_masked rows (c_z (s_cat s)) x).
  set (Db := fun x => r_bal a = true /\ bal_masked (s_cat s) x).
  set (Dd := fun x => r_dla a = true /\ exists dlas, w_dla w 0 = Some dlas /\ (transmission profile dlas (c_targetid (s_cat s)) x < fq 8 10)%Qc /\ (x < (1 + c_z (s_cat s)) * fq 121567 100)%Qc).
  apply okall_bind2 with (fun s1 => ready s1 /\ s_cat s1 = s_cat s /\ zeroed Ds s1).
  { unfold Ds. destruct (r_sky a); [|split; [exact H|]; split; [reflexivity|]; intros arm k p _ (C & _); discriminate].
    destruct (w_sky w r) as [rows|]; [|split; [exact H|]; split; [reflexivity|]; intros arm k p _ (_ & rows & C & _); discriminate].
    cbn [for_each]. destruct (mask_apply pf (MSky (skymask_init rows)) s) as [s1|] eqn:E; [|exact I]. cbn [rbind okall].
    destruct (sky_step profile rows s s1 E H) as (R1 & C1 & _ & Z1). split; [exact R1|]. split; [exact C1|].
    intros arm k p Ep (_ & rows' & Er & X). injection Er as <-. exact (Z1 arm k p Ep X). }
  intros s1 (R1 & C1 & Z1). rewrite for_each_app. apply okall_bind2 with (fun s2 => ready s2 /\ s_cat s2 = s_cat s /\ zeroed Ds s2 /\ zeroed Db s2).
  { unfold Db. destruct (r_bal a); [|split; [exact R1|]; split; [exact C1|]; split; [exact Z1|]; intros arm k p _ (C & _); discriminate].
    cbn [for_each]. destruct (mask_apply pf MBal s1) as [s2|] eqn:E; [|exact I]. cbn [rbind okall].
    destruct (bal_step profile s1 s2 E R1) as (R2 & C2 & O2 & Z2). split; [exact R2|]. split; [congruence|]. split; [now apply (zeroed_each Ds s1)|].
    intros arm k p Ep (_ & X). apply (Z2 arm k p Ep). now rewrite C1. }
  intros s2 (R2 & C2 & Z2 & Z2').
  assert (okall (fun s3 => ready s3 /\ s_cat s3 = s_cat s /\ zeroed Ds s3 /\ zeroed Db s3 /\ zeroed Dd s3)
    (for_each (if r_dla a then match w_dla w 0 with Some cat => [MDla (dlamask_init cat (Some ids) (fq 8 10))] | None => [] end else []) (mask_apply pf) s2)) as K.
  { unfold Dd. destruct (r_dla a); [|split; [exact R2|]; split; [exact C2|]; split; [exact Z2|]; split; [exact Z2'|]; intros arm k p _ (C & _); discriminate].
    destruct (w_dla w 0) as [cat|]; [|split; [exact R2|]; split; [exact C2|]; split; [exact Z2|]; split; [exact Z2'|]; intros arm k p _ (_ & cat & C & _); discriminate].
    cbn [for_each]. destruct (mask_apply pf (MDla _) s2) as [s3|] eqn:E; [|exact I]. cbn [rbind okall].
    destruct (dla_step profile cat ids s2 s3 E R2) as (R3 & C3 & O3 & Z3); [now rewrite C2|]. split; [exact R3|]. split; [congruence|].
    split; [now apply (zeroed_each Ds s2)|]. split; [now apply (zeroed_each Db s2)|].
    intros arm k p Ep (_ & cat' & Er & X). injection Er as <-. apply (Z3 arm k p Ep). unfold s_z. now rewrite C2. }
  destruct (for_each _ _ s2) as [s3|]; [|exact I]. cbn [okall] in *. destruct K as (R3 & C3 & Z3 & Z3' & Z3''). split; [exact R3|].
  apply zeroed_M; [exact R3|]. intros arm k p Ep X. rewrite C3 in X. destruct X as [X|[X|X]]; [exact (Z3 arm k p Ep X)|exact (Z3' arm k p Ep X)|exact (Z3'' arm k p Ep X)].
Qed.
End Masks.
