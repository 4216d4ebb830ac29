(** qsonic-fit as a whole does not depend on the number of ranks (C69). *)
From Coq Require Import ZArith String List Bool Arith Lia Qcanon Permutation.
From Verif Require Import Num NpList NpListFacts Exn Dict Mpi ModelMpiUtils ModelSpectrum ModelMasks ModelBlinding
  ModelContinuum ModelStack ModelSubsample ModelVarFit ModelFitter ModelExposures ModelFitArgs ModelCatalog ModelFitQueue ModelIO
  ModelPipeline SpecMpi SpecFinal SpecCatalog SpecPipeline SpecRanks ProofMpi ProofMpi2 ProofLock ProofSafe ProofFitter ProofFinal ProofCat ProofGroup
  ProofCatalog ProofBalance ProofIO2 ProofDistribution ProofPipeline ProofPipeline2 ProofRanks ProofRanks2 ProofRanks3 ProofRanks4.
Import ListNotations.
Local Open Scope nat_scope.

Section Masks.
Variable dla_flux : Qc -> Qc -> Qc -> num.
Variable dwave : Qc.
Variable w : world.
Variable a : runargs.
Hypothesis Hw : same_files w.

(** the masks of a rank whose queue has the TARGETIDs ids; None: of everything *)
Definition masks_of (ids : option (list Z)) : list masker :=
  (if r_sky a then match w_sky w 0 with Some rows => [MSky (skymask_init rows)] | None => [] end else []) ++
  (if r_bal a then [MBal] else []) ++
  (if r_dla a then match w_dla w 0 with Some cat => [MDla (dlamask_init cat ids (fq 8 10))] | None => [] end else []).
Lemma masks_inv n (q : nat -> list (list row)) : 1 <= n ->
  together n (fun r => read_masks w a r (q r)) (fun ms => forall r, r < n -> ms r = masks_of (Some (map TARGETID (concat (q r))))).
Proof.
  intro Hn. unfold read_masks.
  set (M1 := if r_sky a then match w_sky w 0 with Some rows => [MSky (skymask_init rows)] | None => [] end else []).
  set (M2 := if r_bal a then [MBal] else []).
  apply (together_bind n _ _ (fun f => forall r, r < n -> f r = M1)); [exact Hn| |].
  - apply together_case; intro E; unfold M1; rewrite E; [|now apply together_ret].
    apply (together_bind n _ _ (fun f => exists m, w_sky w 0 = Some m /\ forall r, r < n -> f r = m)); [exact Hn| |].
    + apply together_lift; [reflexivity|]. unfold mpi_fnc_bcast. cbn [negb orb Nat.eqb].
      apply together_ext with (fun r => match w_sky w 0 with Some m => Ret m | None => Raise (QsonicExn "Error loading SkyMask from mask file") end).
      { intros r Hr. rewrite (proj2 Hw r). now destruct (w_sky w 0). }
      destruct (w_sky w 0) as [m0|]; [|now apply together_raise]. apply (together_ret n (fun _ => m0)). now exists m0.
    + intros f (m & Em & Hf). apply together_ret. intros r Hr. now rewrite Em, Hf.
  - intros m1 H1. apply (together_bind n _ _ (fun f => forall r, r < n -> f r = M2)); [exact Hn| |].
    + apply together_case; intro E; unfold M2; rewrite E; [|now apply together_ret].
      apply (together_bind n _ _ (fun _ => True)); [exact Hn| |intros; now apply together_ret].
      unfold bal_check. apply (together_bind n _ _ (fun _ => True)); [exact Hn| |].
      * apply together_local; [exact Hn|intros; safe|easy].
      * intros _ _. now apply together_same.
    + intros m2 H2. eapply (together_bind n _ _ (fun f => forall r, r < n -> f r =
        if r_dla a then match w_dla w 0 with Some cat => [MDla (dlamask_init cat (Some (map TARGETID (concat (q r)))) (fq 8 10))] | None => [] end else [])); [exact Hn| |].
      * apply together_case; intro E; rewrite E; [|now apply together_ret].
        apply (together_bind n _ _ (fun f => forall r, r < n -> f r = map TARGETID (concat (q r)))); [exact Hn| |].
        { apply together_local; [exact Hn|intros; unfold local_ids; safe|]. intros f Hf r Hr. specialize (Hf r Hr).
          unfold local_ids in Hf. apply rbind_Ok in Hf as (x & _ & Hf). congruence. }
        intros ids Hids. eapply (together_bind n); [exact Hn| |].
        { apply together_lift; [reflexivity|]. apply fnc_bcast_together; [exact Hn|intros; apply safe_of_option]. }
        intros f (cat & Ec & Hf). apply together_ret. intros r Hr. rewrite (Hf r Hr), (Hids r Hr).
        unfold the_file in Ec. destruct (w_dla w 0); [cbn in Ec; congruence|discriminate].
      * intros m3 H3. apply together_ret. intros r Hr. unfold masks_of. fold M1 M2. now rewrite H1, H2, H3.
Qed.

Lemma for_each_app {X S} (f : X -> S -> res S) l l' s : for_each (l ++ l') f s = rbind (for_each l f s) (for_each l' f).
Proof. revert s. induction l as [|x l IH]; intro s; cbn; [reflexivity|]. destruct (f x s); cbn; [apply IH|reflexivity]. Qed.
Lemma masks_local ids s : In (c_targetid (s_cat s)) ids ->
  apply_masks_one dla_flux dwave (masks_of (Some ids)) s = apply_masks_one dla_flux dwave (masks_of None) s.
Proof.
  intro H. unfold apply_masks_one, masks_of. f_equal. rewrite !for_each_app.
  set (M1 := if r_sky a then _ else _). set (M2 := if r_bal a then _ else _).
  assert (forall M s1, okall (fun s' => skey s' = skey s1) (for_each M (mask_apply dla_flux) s1)) as KM.
  { intros M s1. apply okall_for_each; [|reflexivity]. intros m s2 E.
    pose proof (mask_cat dla_flux m s2) as K. unfold keeps in K. destruct (mask_apply dla_flux m s2); cbn in *; [congruence|exact I]. }
  pose proof (KM M1 s) as K1. destruct (for_each M1 (mask_apply dla_flux) s) as [s1|e1]; [|reflexivity]. cbn [rbind okall] in *.
  rewrite !for_each_app. pose proof (KM M2 s1) as K2. destruct (for_each M2 (mask_apply dla_flux) s1) as [s2|e2]; [|reflexivity]. cbn [rbind okall] in *.
  destruct (r_dla a); [|reflexivity]. destruct (w_dla w 0) as [cat|]; [|reflexivity]. cbn [for_each mask_apply].
  rewrite dlamask_local; [reflexivity|]. assert (skey s2 = skey s) as K by congruence. unfold skey in K. injection K as -> _. exact H.
Qed.
Lemma masks_none ids : masks_of ids = [] <-> masks_of None = [].
Proof.
  unfold masks_of. destruct (r_sky a), (r_bal a), (r_dla a); try destruct (w_sky w 0); try destruct (w_dla w 0); cbn; split; congruence.
Qed.
Lemma apply_masks_local ids l : (forall s, In s l -> In (c_targetid (s_cat s)) ids) ->
  apply_masks dla_flux dwave (masks_of (Some ids)) l = apply_masks dla_flux dwave (masks_of None) l.
Proof.
  intro H. unfold apply_masks. pose proof (masks_none (Some ids)) as N.
  assert (rseq (map (apply_masks_one dla_flux dwave (masks_of (Some ids))) l) = rseq (map (apply_masks_one dla_flux dwave (masks_of None)) l)) as E.
  { f_equal. apply map_ext_in. intros s Hs. apply masks_local. now apply H. }
  destruct (masks_of (Some ids)), (masks_of None); try exact E; try reflexivity; destruct N as [N1 N2]; exfalso.
  - now specialize (N1 eq_refl).
  - now specialize (N2 eq_refl).
Qed.
End Masks.

Lemma rbind_all {A B} n (d : A) (F : nat -> res A) (G : nat -> A -> res B) l : (forall r, r < n -> rbind (F r) (G r) = Ok (l r)) ->
  exists y, (forall r, r < n -> F r = Ok (y r)) /\ (forall r, r < n -> G r (y r) = Ok (l r)).
Proof.
  intro H. exists (fun r => match F r with Ok x => x | Err _ => d end).
  split; intros r Hr; specialize (H r Hr); apply rbind_Ok in H as (x & E & H); now rewrite E.
Qed.
Lemma rmap_all {A B} n (d : A) (F : nat -> res A) (G : A -> B) l : (forall r, r < n -> rmap G (F r) = Ok (l r)) ->
  exists y, (forall r, r < n -> F r = Ok (y r)) /\ (forall r, r < n -> G (y r) = l r).
Proof.
  intro H. exists (fun r => match F r with Ok x => x | Err _ => d end).
  split; intros r Hr; specialize (H r Hr); destruct (F r); cbn in H; congruence.
Qed.

Section Select.
Variable dla_flux : Qc -> Qc -> Qc -> num.
Variable row_of : catrow -> row.
Variable ev : interp -> Qc -> num.
Variable nsqrt : num -> num.
Variable smooth : arr -> Qc -> arr.
Variable junk : nat -> num.
Variable dwave : Qc.
Variable w : world.
Variable a : runargs.
Variables e c : when.
Hypothesis Hw : same_files w.
Hypothesis Hreads : reads_requested row_of w.
Hypothesis Hid : forall x, TARGETID (row_of x) = c_targetid x.
Notation read_queue := (read_queue nsqrt smooth junk dwave w false a e c).

Definition calibrated (l : list spec) : res (list spec) :=
  rbind (if r_noise a then rbind (the_file (w_noise w false 0)) (fun i => noise_calibrate (ev (fst i)) None l) else Ok l) (fun l1 =>
  if r_flux a then rbind (the_file (w_flux w false 0)) (fun i => rseq (map (flux_calibrate1 (ev i)) l1)) else Ok l1).
Definition cut (l : list spec) : res (list spec) :=
  snr_cut (r_minsnr a) (remove_short_spectra dwave (r_fw1 a) (r_fw2 a) (r_skip a) l).
Definition selected (queue : list (list row)) : res (list spec) :=
  rbind (read_queue 0 queue) (fun l => rbind (calibrated l) (fun l1 => rbind (apply_masks dla_flux dwave (masks_of w a None) l1) cut)).

Lemma read_queue_rank r queue : read_queue r queue = read_queue 0 queue.
Proof.
  unfold ModelPipeline.read_queue. f_equal. f_equal. apply map_ext. intro cat. now rewrite (proj1 Hw false r).
Qed.
Definition ids_of (q : nat -> list (list row)) (r : nat) (x : catrow * num) : Prop := In (c_targetid (fst x)) (map TARGETID (concat (q r))).
Lemma select_inv n (q : nat -> list (list row)) ms : 1 <= n -> (forall r, r < n -> ms r = masks_of w a (Some (map TARGETID (concat (q r))))) ->
  together n (fun r => select_spectra dla_flux ev nsqrt smooth junk dwave w false a e c r (ms r) (q r)) (fun l => forall r, r < n -> selected (q r) = Ok (l r)).
Proof.
  intros Hn Hm. unfold select_spectra, selected.
  apply (together_bind n _ _ (fun l => forall r, r < n -> cats (ids_of q r) (l r) /\ read_queue 0 (q r) = Ok (l r))); [exact Hn| |].
  { unfold read_spectra. apply (together_bind n _ _ (fun l => forall r, r < n -> cats (ids_of q r) (l r) /\ read_queue 0 (q r) = Ok (l r))); [exact Hn| |].
    - apply together_local; [exact Hn|intros; apply safe_read_queue|]. intros l Hl r Hr.
      split; [|rewrite <- (read_queue_rank r); now apply Hl].
      refine (okall_use _ _ _ (read_queue_cats nsqrt smooth junk dwave w n (fun r x => In x (concat (q r))) (ids_of q) a _ false e c r (q r) Hr _) (Hl r Hr)).
      + intros again r' e' cat l' s Hr' Hc El Hs _. unfold ids_of. cbn [skey fst]. rewrite <- Hid. apply in_map.
        rewrite Forall_forall in Hc. apply Hc. exact (Hreads _ _ _ _ _ _ El Hs).
      + apply Forall_forall. intros x Hx. apply Forall_forall. intros y Hy. apply in_concat. eauto.
    - intros l Hl. apply together_allreduce; [exact Hn|]. now apply together_ret. }
  intros l Hl.
  apply (together_bind n _ _ (fun l1 => forall r, r < n -> cats (ids_of q r) (l1 r) /\ calibrated (l r) = Ok (l1 r))); [exact Hn| |].
  { unfold calibrate, calibrated.
    apply (together_bind n _ _ (fun l1 => forall r, r < n -> cats (ids_of q r) (l1 r) /\
      (if r_noise a then rbind (the_file (w_noise w false 0)) (fun i => noise_calibrate (ev (fst i)) None (l r)) else Ok (l r)) = Ok (l1 r))); [exact Hn| |].
    - apply together_case; intros E; rewrite E; [|apply together_ret; intros r Hr; split; [now apply Hl|reflexivity]].
      eapply (together_bind n); [exact Hn| |].
      + apply together_lift; [reflexivity|]. apply fnc_bcast_together; [exact Hn|]. intros. apply safe_of_option.
      + intros i (x & Ex & Hi). apply together_local; [exact Hn|intros; apply safe_noise_calibrate|]. intros l1 Hl1 r Hr.
        rewrite Ex. cbn [rbind]. specialize (Hl1 r Hr). rewrite (Hi r Hr) in Hl1. split; [|exact Hl1].
        exact (okall_use _ _ _ (cats_noise (ids_of q r) _ _ _ (proj1 (Hl r Hr))) Hl1).
    - intros l1 Hl1. apply together_case; intros E; rewrite E.
      2:{ apply together_ret. intros r Hr. destruct (Hl1 r Hr) as (H1 & ->). split; [exact H1|reflexivity]. }
      eapply (together_bind n); [exact Hn| |].
      + apply together_lift; [reflexivity|]. apply fnc_bcast_together; [exact Hn|]. intros. apply safe_of_option.
      + intros i (x & Ex & Hi). apply together_local; [exact Hn|intros; safe|]. intros l2 Hl2 r Hr.
        destruct (Hl1 r Hr) as (H1 & ->). cbn [rbind]. rewrite Ex. cbn [rbind]. specialize (Hl2 r Hr). rewrite (Hi r Hr) in Hl2. split; [|exact Hl2].
        exact (okall_use _ _ _ (cats_rseq (ids_of q r) _ _ (flux_cat _) H1) Hl2). }
  intros l1 Hl1. apply together_local; [exact Hn|intros; safe|]. intros l2 Hl2 r Hr. specialize (Hl2 r Hr).
  destruct (Hl r Hr) as (_ & ->). cbn [rbind]. destruct (Hl1 r Hr) as (H1 & ->). cbn [rbind]. rewrite (Hm r Hr) in Hl2.
  rewrite apply_masks_local in Hl2; [exact Hl2|]. intros s Hs. unfold cats in H1. rewrite Forall_forall in H1. exact (H1 s Hs).
Qed.

Lemma calibrated_perm n m l l1 h h1 : Permutation (gathered n l) (gathered m h) ->
  (forall r, r < n -> calibrated (l r) = Ok (l1 r)) -> (forall r, r < m -> calibrated (h r) = Ok (h1 r)) ->
  Permutation (gathered n l1) (gathered m h1).
Proof.
  intros P H1 H2. unfold calibrated in *.
  apply (rbind_all n []) in H1 as (y & A1 & A2). apply (rbind_all m []) in H2 as (z & B1 & B2).
  assert (Permutation (gathered n y) (gathered m z)) as P1.
  { destruct (the_file (w_noise w false 0)) as [i|er].
    - cbn [rbind noise_calibrate] in A1, B1. exact (if_perm _ _ n m l y h z P A1 B1).
    - destruct (r_noise a); [|exact (if_perm false (fun x => Ok x) n m l y h z P A1 B1)].
      rewrite (gathered_ext n y (fun _ => [])) by (intros r Hr; discriminate (A1 r Hr)).
      rewrite (gathered_ext m z (fun _ => [])) by (intros r Hr; discriminate (B1 r Hr)).
      unfold gathered. rewrite !(proj2 (concat_nil_Forall _)); [constructor| |]; apply Forall_forall; intros x Hx; apply in_map_iff in Hx as (? & <- & _); reflexivity. }
  destruct (the_file (w_flux w false 0)) as [i|er].
  - cbn [rbind] in A2, B2. exact (if_perm _ _ n m y l1 z h1 P1 A2 B2).
  - destruct (r_flux a); [|exact (if_perm false (fun x => Ok x) n m y l1 z h1 P1 A2 B2)].
    rewrite (gathered_ext n l1 (fun _ => [])) by (intros r Hr; discriminate (A2 r Hr)).
    rewrite (gathered_ext m h1 (fun _ => [])) by (intros r Hr; discriminate (B2 r Hr)).
    unfold gathered. rewrite !(proj2 (concat_nil_Forall _)); [constructor| |]; apply Forall_forall; intros x Hx; apply in_map_iff in Hx as (? & <- & _); reflexivity.
Qed.
Lemma cut_perm n m l l1 h h1 : Permutation (gathered n l) (gathered m h) ->
  (forall r, r < n -> cut (l r) = Ok (l1 r)) -> (forall r, r < m -> cut (h r) = Ok (h1 r)) ->
  Permutation (gathered n l1) (gathered m h1).
Proof.
  intros P H1 H2. unfold cut, snr_cut in *.
  apply (rmap_all n []) in H1 as (y & A1 & A2). apply (rmap_all m []) in H2 as (z & B1 & B2).
  rewrite <- (gathered_ext n _ _ A2), <- (gathered_ext m _ _ B2). rewrite !gathered_concat. apply concat_perm.
  refine (rseq_perm _ n m _ y _ z _ A1 B1). unfold remove_short_spectra. destruct (qeqb _ _); [exact P|].
  rewrite !gathered_filter. now apply filter_perm.
Qed.
Lemma selected_perm n m q l q' h : Permutation (gathered n q) (gathered m q') ->
  (forall r, r < n -> selected (q r) = Ok (l r)) -> (forall r, r < m -> selected (q' r) = Ok (h r)) ->
  Permutation (gathered n l) (gathered m h).
Proof.
  intros P H1 H2. unfold selected in *.
  apply (rbind_all n []) in H1 as (l1 & A1 & H1). apply (rbind_all m []) in H2 as (h1 & B1 & H2).
  assert (Permutation (gathered n l1) (gathered m h1)) as P1.
  { unfold ModelPipeline.read_queue in A1, B1.
    apply (rbind_all n []) in A1 as (ll & A0 & A1). apply (rbind_all m []) in B1 as (hh & B0 & B1).
    pose proof (rseq_perm _ n m q ll q' hh P A0 B0) as P0. apply concat_perm in P0. rewrite <- !gathered_concat in P0.
    exact (if_perm _ _ n m _ l1 _ h1 P0 A1 B1). }
  apply (rbind_all n []) in H1 as (l2 & A2 & H1). apply (rbind_all m []) in H2 as (h2 & B2 & H2).
  pose proof (calibrated_perm n m l1 l2 h1 h2 P1 A2 B2) as P2.
  apply (rbind_all n []) in H1 as (l3 & A3 & H1). apply (rbind_all m []) in H2 as (h3 & B3 & H2).
  assert (Permutation (gathered n l3) (gathered m h3)) as P3.
  { unfold apply_masks in A3, B3. destruct (masks_of w a None).
    - exact (if_perm false (fun x => Ok x) n m l2 l3 h2 h3 P2 A3 B3).
    - exact (rseq_perm _ n m l2 l3 h2 h3 P2 A3 B3). }
  exact (cut_perm n m l3 l h3 h P3 H1 H2).
Qed.
End Select.
