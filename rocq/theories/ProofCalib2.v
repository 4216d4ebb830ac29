(** The qsonic-calib run. *)
From Coq Require Import ZArith String List Bool Arith Lia Qcanon Field Permutation.
From Verif Require Import Num NpList NpListFacts Exn Dict Mpi ModelMpiUtils ModelSpectrum ModelDelta ModelStack ModelSubsample ModelVarFit ModelFitter
  ModelCatalog ModelIO ModelPipeline ModelCalib SpecCatalog SpecVarFit SpecCalib SpecMpi SpecFinal.
From Verif Require Import ProofCatalog ProofCoadd ProofStack ProofVarFit3 ProofVarFit4 ProofLock ProofSafe ProofFitter ProofPipeline2 ProofCalib.
Import ListNotations.
Local Open Scope nat_scope.

(** ** who is removed *)
Section Removed.
Variable ang2pix : Z -> num -> num -> Z.
Variables (y : calworld) (a : calargs).

Lemma id_in_listed i l : id_in i l = true <-> In i (listed l).
Proof. destruct l as [z|l]; cbn; [|apply zmem_In]. rewrite Z.eqb_eq. split; [intros ->; now left|intros [->|[]]; reflexivity]. Qed.
Lemma concat_ids_listed l b l' : concat_ids l b = Ok l' -> forall i, In i (listed l') <-> In i (listed l) \/ In i b.
Proof. destruct l; [discriminate|]. cbn. intros [= <-] i. cbn. apply in_app_iff. Qed.
Lemma npos_n0 v : npos v = nltb n0 v. Proof. reflexivity. Qed.
Lemma is_bal_spec r : is_bal y r = true <->
  exists vmin vmax, In (vmin, vmax) (y_ai y (TARGETID r) ++ y_bi y (TARGETID r)) /\ nltb n0 vmin = true /\ nltb n0 vmax = true.
Proof.
  unfold is_bal, bal_velocities. rewrite orb_true_iff, !existsb_exists. split.
  - intros [((u, v) & Hin & H)|((u, v) & Hin & H)]; apply andb_true_iff in H as [H1 H2]; exists u, v; rewrite in_app_iff; tauto.
  - intros (u & v & Hin & H1 & H2). apply in_app_iff in Hin. cbn [fst snd].
    destruct Hin as [Hin|Hin]; [left|right]; exists (u, v); (split; [exact Hin|]); apply andb_true_iff; now split.
Qed.

Lemma removal_spec ids cat ids' :
  (if k_remove a then y_ids y = Some ids else ids = Ids []) ->
  (if k_catalog a then exists rs, cat = Some rs /\ read_quasar_catalog ang2pix (the_file (y_catalog y)) (k_mock a) false None n0 (Fin (zq 100)) = Ok rs
   else cat = None) ->
  add_removals y a ids cat = Ok ids' -> forall i, id_in i ids' = true <-> removed y a i.
Proof.
  intros Hi Hc Ha i. rewrite id_in_listed.
  assert (In i (listed ids) <-> (k_remove a = true /\ exists l, y_ids y = Some l /\ In i (listed l))) as Hids.
  { destruct (k_remove a).
    - split; [intro H; split; [reflexivity|]; now exists ids|]. intros (_ & l & E & H). congruence.
    - subst ids. split; [easy|]. intros (C & _). discriminate. }
  unfold removed. rewrite <- Hids. destruct (k_catalog a).
  2:{ subst cat. cbn in Ha. injection Ha as <-. split; [now left|]. intros [H|[C _]]; [exact H|discriminate]. }
  destruct Hc as (rs & -> & Hr).
  destruct (read_quasar_catalog_spec _ _ _ _ _ _ _ _ Hr) as (c & Ec & _ & _ & _ & Hp & _).
  assert (y_catalog y = Some c) as Ec' by (unfold the_file in Ec; destruct (y_catalog y); [cbn in Ec; congruence|discriminate]).
  assert (forall (q : row -> bool), (forall r p, q (set_hpx p r) = q r) ->
    (In i (map TARGETID (filter q rs)) <-> exists r, In r (rows c) /\ TARGETID r = i /\
      nleb n0 (row_z r) = true /\ nleb (row_z r) (Fin (zq 100)) = true /\ q r = true)) as Hq.
  { intros q Hs. rewrite in_map_iff. split.
    - intros (r & E & Hin). apply filter_In in Hin as [Hin Hqr]. apply (Permutation_in _ Hp) in Hin.
      apply in_map_iff in Hin as (r0 & E0 & Hin). apply filter_In in Hin as [Hin Hsel]. unfold selected_b in Hsel.
      apply andb_true_iff in Hsel as [Hsel _]. apply andb_true_iff in Hsel as [Hs1 Hs2]. exists r0. subst r. rewrite Hs in Hqr. cbn in E. auto.
    - intros (r & Hin & E & H1 & H2 & Hqr). exists (set_hpx (pixel_of ang2pix (colnames c) (if k_mock a then 16 else 64)%Z r) r).
      split; [exact E|]. apply filter_In. rewrite Hs. split; [|exact Hqr]. apply (Permutation_in _ (Permutation_sym Hp)).
      refine (in_map _ _ r _). apply filter_In. split; [exact Hin|]. unfold selected_b. change (Fin 0%Qc) with n0. now rewrite H1, H2. }
  unfold add_removals in Ha.
  (* first the BALs *)
  assert (exists ids1, (In i (listed ids1) <-> In i (listed ids) \/ (k_bal a = true /\ exists r, In r (rows c) /\ TARGETID r = i /\
      nleb n0 (row_z r) = true /\ nleb (row_z r) (Fin (zq 100)) = true /\ is_bal y r = true)) /\
    match k_surveys a with
    | Some (s :: ss) =>
        if match y_catalog y with Some c => smem "SURVEY" (colnames c) | None => false end
        then concat_ids ids1 (map TARGETID (filter (fun r => negb (zmem (SURVEY r) (s :: ss))) rs))
        else Err (OtherExn "ValueError: no field of name SURVEY")
    | _ => Ok ids1
    end = Ok ids') as (ids1 & H1 & Hs).
  { destruct (k_bal a).
    - destruct (y_balcols y); [|discriminate]. destruct (concat_ids ids _) as [ids1|] eqn:E1; [|discriminate]. cbn [rbind] in Ha.
      exists ids1. split; [|exact Ha]. rewrite (concat_ids_listed _ _ _ E1). rewrite (Hq (is_bal y)) by reflexivity. intuition.
    - cbn [rbind] in Ha. exists ids. split; [|exact Ha]. split; [now left|]. intros [H|[C _]]; [exact H|discriminate]. }
  clear Ha.
  assert (In i (listed ids') <-> In i (listed ids1) \/ exists r, In r (rows c) /\ TARGETID r = i /\
      nleb n0 (row_z r) = true /\ nleb (row_z r) (Fin (zq 100)) = true /\
      exists ss, k_surveys a = Some ss /\ ss <> [] /\ ~ In (SURVEY r) ss) as H2.
  { destruct (k_surveys a) as [[|s ss]|].
    - injection Hs as <-. split; [now left|]. intros [H|(r & _ & _ & _ & _ & ss & E & N & _)]; [exact H|congruence].
    - destruct (match y_catalog y with Some _ => _ | None => false end); [|discriminate].
      rewrite (concat_ids_listed _ _ _ Hs). rewrite Hq by reflexivity. clear. split; (intros [H|(r & A & B & C & D & H)]; [now left|right]).
      + exists r. do 4 (split; [assumption|]). exists (s :: ss). split; [reflexivity|]. split; [easy|].
        rewrite <- zmem_In. now destruct (zmem _ _).
      + exists r. do 4 (split; [assumption|]). destruct H as (ss' & [= <-] & _ & H). rewrite <- zmem_In in H. now destruct (zmem _ _).
    - injection Hs as <-. split; [now left|]. intros [H|(r & _ & _ & _ & _ & ss & E & _)]; [exact H|discriminate]. }
  rewrite H2, H1. split.
  - intros [[H|(Hb & r & A & B & C & D & H)]|(r & A & B & C & D & H)]; [now left|right..].
    + split; [reflexivity|]. exists c, r. do 5 (split; [assumption|]). left. split; [exact Hb|]. subst i. now apply is_bal_spec.
    + split; [reflexivity|]. exists c, r. do 5 (split; [assumption|]). now right.
  - intros [H|(_ & c' & r & Ec'' & A & B & C & D & [[Hb H]|H])]; [now left; left|..];
      (assert (c' = c) as -> by congruence).
    + left. right. split; [exact Hb|]. exists r. do 4 (split; [assumption|]). apply is_bal_spec. now rewrite B.
    + right. exists r. auto.
Qed.

Lemma kept_wanted ids : (forall i, id_in i ids = true <-> removed y a i) -> forall d, is_kept a ids d = true <-> wanted y a d.
Proof.
  intros H d. unfold is_kept, wanted. rewrite !andb_true_iff, negb_true_iff. rewrite <- H. destruct (id_in _ _); intuition congruence.
Qed.
End Removed.

Lemma block_files {F} (files : list F) size r : calib_files_of_rank files size r = block files size r.
Proof.
  unfold calib_files_of_rank, block, slice. set (k := Nat.max 1 (length files / size)).
  destruct (Nat.le_gt_cases (length files) (k * r + k)) as [L|L].
  - rewrite Nat.min_l by exact L. rewrite !firstn_all2; try reflexivity; rewrite skipn_length; lia.
  - rewrite Nat.min_r by lia. now replace (k * r + k - k * r) with k by lia.
Qed.
Lemma rseq_Forall2 {A B} (f : A -> option B) l : forall ll, rseq (map (fun x => the_file (f x)) l) = Ok ll <-> Forall2 (fun x b => f x = Some b) l ll.
Proof.
  induction l as [|x l IH]; intro ll; cbn.
  - split; [intros [= <-]; constructor|intro H; now inversion H].
  - unfold the_file at 1. destruct (f x) as [b|] eqn:E; cbn.
    + destruct (rseq (map (fun x => the_file (f x)) l)) as [m|e] eqn:Er; cbn.
      * split; [intros [= <-]; constructor; [exact E|now apply IH]|]. intro H. inversion H as [|? b' ? m' Hb Hm]; subst.
        assert (b' = b) as -> by congruence. apply IH in Hm. congruence.
      * split; [discriminate|]. intro H. inversion H as [|? ? ? m' Hb Hm]; subst. apply IH in Hm. discriminate.
    + split; [discriminate|]. intro H. inversion H; subst. congruence.
Qed.

(** ** the arrays that are added *)
Lemma add_all_lengths l : forall v v', vfit_add_all l v = Ok v' ->
  forall w d i, In (w, d, i) l -> length w = length i /\ length d = length i.
Proof.
  induction l as [|[[w0 d0] i0] l IH]; intros v v' H w d i Hin; [destruct Hin|]. cbn in H.
  destruct (vfit_add w0 d0 i0 v) as [v1 ok] eqn:E. destruct ok as [u|]; [|discriminate]. cbn [rbind] in H.
  destruct Hin as [Hin|Hin]; [|exact (IH _ _ H _ _ _ Hin)]. injection Hin as <- <- <-.
  unfold vfit_add in E. destruct (v_wave v); [discriminate|].
  destruct (Nat.eqb_spec (length w0) (length i0)) as [E1|]; [|discriminate].
  destruct (Nat.eqb_spec (length d0) (length i0)) as [E2|]; [|discriminate]. now split.
Qed.
Lemma finite_arr_Ok x q : finite_arr x = Ok q -> q = map nval x.
Proof. unfold finite_arr. destruct (forallb nfinite x); [|discriminate]. now intros [= <-]. Qed.
Lemma items_calls l items : rseq (map lss_item l) = Ok items ->
  (forall w d i, In (w, d, i) items -> length w = length i /\ length d = length i) ->
  items = map call_of (map lss_pixels l).
Proof.
  revert items. induction l as [|d l IH]; intros items H HL; cbn in H.
  - injection H as <-. reflexivity.
  - destruct (lss_item d) as [it|] eqn:Ei; [|discriminate]. cbn [rbind] in H.
    destruct (rseq (map lss_item l)) as [rest|] eqn:Er; [|discriminate]. cbn in H. injection H as <-.
    cbn [map]. f_equal; [|apply IH; [reflexivity|]; intros; apply HL; now right].
    unfold lss_item in Ei. destruct (finite_arr (d_delta d)) as [x|] eqn:Ex; [|discriminate]. cbn [rbind] in Ei.
    destruct (finite_arr (d_ivar d)) as [iv|] eqn:Ev; [|discriminate]. cbn [rbind] in Ei. injection Ei as <-.
    apply finite_arr_Ok in Ex, Ev. destruct (HL _ _ _ (or_introl eq_refl)) as [L1 L2]. subst x iv. rewrite !map_length in *.
    unfold call_of, lss_pixels. rewrite !map_map. cbn [l_wave l_delta l_ivar].
    revert L1 L2. generalize (d_wave d) (d_delta d) (d_ivar d). clear. intros w x i. revert x i.
    induction w as [|a w IH]; intros [|b x] [|c i] L1 L2; try discriminate; [reflexivity|].
    cbn. injection L1 as L1. injection L2 as L2. specialize (IH x i L1 L2). congruence.
Qed.
