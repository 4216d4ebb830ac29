(** qsonic-fit as a whole: from the command line to the written files. *)
From Coq Require Import ZArith String List Bool Arith Lia Qcanon Permutation Sorting.Sorted.
From Verif Require Import Num NpList Exn Dict Mpi ModelMpiUtils ModelSpectrum ModelMasks ModelBlinding
  ModelContinuum ModelStack ModelSubsample ModelVarFit ModelFitter ModelExposures ModelFitArgs ModelCatalog ModelFitQueue ModelIO
  ModelPipeline SpecMpi SpecFinal SpecCatalog SpecPipeline ProofMpi ProofMpi2 ProofLock ProofSafe ProofFitter ProofFinal ProofCat ProofGroup NpListFacts
  ProofCatalog ProofIO2 ProofDistribution ProofPipeline.
Import ListNotations.
Local Open Scope nat_scope.

Lemma parse_together {T} n (parse : res T) (logic : T -> bool) : 1 <= n -> (forall m, parse <> Err (QsonicExn m)) ->
  together n (fun r => mpi_parse r parse (fun a => Ok (logic a)))
    (fun f => exists a, parse = Ok a /\ logic a = true /\ forall r, r < n -> f r = a).
Proof.
  intros Hn Hp. unfold mpi_parse.
  set (args := fun r => if Nat.eqb r 0 then
      match parse with Ok a => if logic a then Ok (Some a) else Ok None | Err SysExit => Ok None | Err e => Err e end
    else Ok (@None T)).
  apply (together_peq n _ (fun r => pbind (of_res (args r)) (fun v => Bcast v (fun x => match x with None => Raise SysExit | Some v => Ret v end)))).
  { intros r Hr. unfold args. destruct (Nat.eqb r 0); [|apply peq_refl]. destruct parse as [a|[m|m|]]; try apply peq_refl.
    destruct (logic a); apply peq_refl. }
  apply (together_bind n _ _ (fun v => forall r, r < n -> args r = Ok (v r))); [exact Hn| |].
  - apply together_local; [exact Hn| |easy]. intros r Hr. unfold args. destruct (Nat.eqb r 0); [|exact I].
    destruct parse as [a|[m|m|]]; [destruct (logic a); exact I|now destruct (Hp m)|exact I|exact I].
  - intros v Hv. apply (together_bcast n v (fun _ x => match x with None => Raise SysExit | Some v => Ret v end)); [exact Hn|].
    specialize (Hv 0 ltac:(lia)). unfold args in Hv. cbn [Nat.eqb] in Hv.
    destruct (v 0) as [a|]; [|now apply together_raise]. apply (together_ret n (fun _ => a)). exists a.
    destruct parse as [a'|[m|m|]]; try discriminate. destruct (logic a') eqn:El; [|discriminate].
    injection Hv as ->. auto.
Qed.

Lemma nth_error_eq {A} (l l' : list A) : (forall r, nth_error l r = nth_error l' r) -> l = l'.
Proof.
  revert l'. induction l as [|x l IH]; intros [|y l'] H; [reflexivity|discriminate (H 0)|discriminate (H 0)|].
  f_equal; [now injection (H 0)|]. apply IH. intro r. exact (H (S r)).
Qed.
Lemma queue_together ang2pix file n is_mock is_tile keep zmin zmax : 1 <= n -> file <> Err SysExit ->
  together n (fun rank => mpi_get_local_queue ang2pix file true rank n is_mock is_tile keep (Fin zmin) (Fin zmax))
    (fun f => exists cat, read_quasar_catalog ang2pix file is_mock is_tile keep (Fin zmin) (Fin zmax) = Ok cat /\
       forall r, r < n -> nth_error (make_queues is_tile n cat) r = Some (f r)).
Proof.
  intros Hn Hf. unfold together. rewrite mpi_get_local_queue_run by assumption.
  destruct (read_quasar_catalog ang2pix file is_mock is_tile keep (Fin zmin) (Fin zmax)) as [cat|e] eqn:Er.
  - right; right. destruct (read_quasar_catalog_spec _ _ _ _ _ _ _ _ Er) as (c & _ & _ & _ & Hne & _ & Ss & _).
    destruct (make_queues_spec cat is_tile n Hn Hne (sorted_by_group _ _ _ _ Ss)) as (assign & Hl & _ & Eq).
    assert (length (make_queues is_tile n cat) = n) as L by (rewrite Eq, map_length; exact Hl).
    exists (fun r => nth r (make_queues is_tile n cat) []). split.
    + f_equal. clear - L. apply nth_error_eq. intro r. rewrite !nth_error_map.
      destruct (Nat.lt_ge_cases r n) as [Hr|Hr].
      * rewrite (nth_error_nth' (seq 0 n) 0) by now rewrite seq_length. rewrite seq_nth by exact Hr. cbn.
        rewrite (nth_error_nth' (make_queues is_tile n cat) []) by lia. reflexivity.
      * rewrite (proj2 (nth_error_None (seq 0 n) r)) by now rewrite seq_length.
        now rewrite (proj2 (nth_error_None (make_queues is_tile n cat) r)) by lia.
    + exists cat. split; [reflexivity|]. intros r Hr. now apply nth_error_nth'; lia.
  - right; left. exists (QsonicExn "Error while reading catalog."). split; [discriminate|reflexivity].
Qed.

Section Run.
Variable ang2pix : Z -> num -> num -> Z.
Variable dla_flux : Qc -> Qc -> Qc -> num.
Variable row_of : catrow -> row.
Variable logic : runargs -> bool.
Variable argsort : list Z -> list nat.
Variable hpix_of : spec -> Z.
Variable g : runargs -> config.
Variable ev : interp -> Qc -> num.
Variable ev_stack : stacker -> Qc -> num.
Variable slope : Qc -> num.
Variable minimizer : interp -> interp -> interp -> interp -> spec -> num -> option minres.
Variable input_cont : spec -> option (Qc -> num).
Variable true_cont : spec -> Qc -> num.
Variable nsqrt : num -> num.
Variable uspline : list Qc -> list num -> list num -> option (list num).
Variable xs : list Qc.
Variable quad : list Qc -> Qc.
Variable min_num_pix min_num_qso : nat.
Variable cholesky : list (list Qc) -> bool.
Variable curve_fit : list Qc -> list Qc -> list num -> errors -> option (list num * list num).
Variable vspline : list Qc -> list num -> list num -> option (list num).
Variable write_ok : string -> bool.
Variable iter_suffix : nat -> string.
Variable smooth : list num -> Qc -> list num.
Variable junk : nat -> num.
Variable dwave : Qc.
Variable w : world.
Variable n : nat.
Hypothesis Hn : 1 <= n.
Hypothesis sky : sky_alike w n.

Definition the_run (r : nat) := run_all ang2pix dla_flux row_of logic argsort hpix_of g ev ev_stack slope minimizer input_cont true_cont
  nsqrt uspline xs quad min_num_pix min_num_qso cholesky curve_fit vspline write_ok iter_suffix smooth junk dwave w r n.

(** R and C may depend on the command line and on the queues *)
Lemma run_all_together (R : (nat -> list (list row)) -> nat -> row -> Prop) (C : runargs -> (nat -> list (list row)) -> nat -> catrow * num -> Prop) :
  (forall a q again r e cat l s, r < n -> Forall (R q r) cat -> w_reader w again r e cat = Some l -> In s l ->
     nleb (r_minrsnr a) (s_rsnr s) = true -> C a q r (skey s)) ->
  (forall a q r c, r < n -> C a q r c -> R q r (row_of (fst c))) ->
  (forall q r, r < n -> Forall (Forall (R q r)) (q r)) ->
  together n the_run (fun f => exists a cat q, w_parse w = Parsed a /\
    read_quasar_catalog ang2pix (the_file (w_catalog w)) (r_mock a) (r_tile a) (r_surveys a)
      (Fin (fst (z_limits (r_w1 a) (r_w2 a) (r_fw1 a) (r_fw2 a) (r_skip a))))
      (Fin (snd (z_limits (r_w1 a) (r_w2 a) (r_fw1 a) (r_fw2 a) (r_skip a)))) = Ok cat /\
    (forall r, r < n -> nth_error (make_queues (r_tile a) n cat) r = Some (q r)) /\
    written argsort hpix_of n (C a q) a f).
Proof.
  intros Hreads Hrows Hq. unfold the_run, run_all.
  eapply (together_bind n); [exact Hn|apply together_lift; [reflexivity|]; apply parse_together; [exact Hn|]|].
  { intro m. unfold parse_result. destruct (w_parse w); discriminate. }
  intros a0 (a & Ea & _ & Ha0). unfold parse_result in Ea. destruct (w_parse w) as [a'| |] eqn:Ew; try discriminate.
  injection Ea as ->.
  eapply together_ext. { intros r Hr. rewrite (Ha0 r Hr). reflexivity. }
  apply (together_bind n _ _ (fun _ => True)); [exact Hn| |].
  { apply together_local; [exact Hn| |easy]. intros r Hr. destruct (_ && _); exact I. }
  intros _ _. destruct (z_limits (r_w1 a) (r_w2 a) (r_fw1 a) (r_fw2 a) (r_skip a)) as [zmin zmax] eqn:Ez.
  eapply (together_bind n); [exact Hn|apply together_lift; [reflexivity|]; apply queue_together; [exact Hn|]|].
  { unfold the_file. destruct (w_catalog w); discriminate. }
  intros q (cat & Ecat & Eq).
  eapply together_weaken; [|eapply (after_queue_together dla_flux row_of argsort hpix_of g ev ev_stack slope minimizer input_cont true_cont
    nsqrt uspline xs quad min_num_pix min_num_qso cholesky curve_fit vspline write_ok iter_suffix smooth junk dwave w n Hn (R q) (C a q))].
  - intros f Hf. exists a, cat, q. rewrite Ez. cbn [fst snd]. auto.
  - intros again r e c l s. apply (Hreads a q).
  - intros r c. apply (Hrows a q).
  - intros r Hr. now apply Hq.
  - now apply sky.
Qed.

Lemma run_all_ends_together : together n the_run (fun _ => True).
Proof.
  eapply together_weaken; [|apply (run_all_together (fun _ _ _ => True) (fun _ _ _ _ => True))]; try easy.
  - intros. apply Forall_forall. intros. apply Forall_forall. easy.
Qed.

(** *** what a finished run has written *)
Lemma saved_member l outdir byhpx r blinded files k ss s : argsort_ok argsort ->
  save_deltas hpix_of s_valid argsort l outdir byhpx (Some r) blinded = Ok files -> In (k, ss) files -> In s ss ->
  In s l /\ s_valid s = true.
Proof.
  intros Ha Hs Hk Hss. destruct outdir. { cbn in Hs. injection Hs as <-. destruct Hk. }
  destruct blinded.
  2:{ destruct (save_unblinded_refuses hpix_of s_valid argsort Ha l byhpx (Some r)) as (m & K). congruence. }
  destruct byhpx.
  - destruct (save_by_hpx_spec hpix_of s_valid argsort Ha l (Some r)) as (fs & E & P & _). rewrite E in Hs. injection Hs as ->.
    apply (filter_In s_valid). apply (Permutation_in _ P). apply in_concat. exists ss. split; [|exact Hss].
    apply in_map_iff. now exists (k, ss).
  - rewrite save_by_rank_spec in Hs. injection Hs as <-. destruct Hk as [[= <- <-]|[]]. now apply filter_In in Hss.
Qed.
Lemma saved_name_hpx l r blinded files k : argsort_ok argsort ->
  save_deltas hpix_of s_valid argsort l false true (Some r) blinded = Ok files -> In k (map fst files) -> exists s, In s l /\ hpix_of s = k.
Proof.
  intros Ha Hs Hk. destruct blinded.
  2:{ destruct (save_unblinded_refuses hpix_of s_valid argsort Ha l true (Some r)) as (m & K). congruence. }
  destruct (save_by_hpx_spec hpix_of s_valid argsort Ha l (Some r)) as (fs & E & _ & _ & N & _). rewrite E in Hs. injection Hs as ->.
  apply N in Hk. apply in_map_iff in Hk as (s & <- & Hk). eauto.
Qed.
Lemma saved_name_rank l r blinded files k :
  save_deltas hpix_of s_valid argsort l false false (Some r) blinded = Ok files -> In k (map fst files) -> k = r.
Proof.
  intros Hs Hk. destruct blinded; [|discriminate]. rewrite save_by_rank_spec in Hs. injection Hs as <-. now destruct Hk as [<-|[]].
Qed.

Lemma unique_ids_inj is_tile l r1 r2 : unique_ids is_tile l -> In r1 l -> In r2 l -> row_id is_tile r1 = row_id is_tile r2 -> r1 = r2.
Proof.
  unfold unique_ids, row_id. intros H H1 H2 E.
  assert (forall (B : Type) (f : row -> B), NoDup (map f l) -> f r1 = f r2 -> r1 = r2) as K.
  { intros B f. clear - H1 H2. induction l as [|x l IH]; [destruct H1|]. cbn. intros Hn Ef. apply NoDup_cons_iff in Hn as [Hx Hn].
    destruct H1 as [->|H1]; destruct H2 as [->|H2]; [reflexivity| | |now apply IH].
    - exfalso. apply Hx. rewrite Ef. now apply in_map.
    - exfalso. apply Hx. rewrite <- Ef. now apply in_map. }
  destruct is_tile; apply (K _ _ H); cbn; congruence.
Qed.

Hypothesis Ha : argsort_ok argsort.
Hypothesis reader_rows : reads_requested row_of w.
Lemma run_all_files f : finishes n the_run f ->
  exists a c, w_parse w = Parsed a /\ w_catalog w = Some c /\
    (forall r k ss s, r < n -> In (k, ss) (f r) -> In s ss -> requested a c row_of s) /\
    (forall r1 r2 k1 k2 ss1 ss2 s1 s2, r1 < n -> r2 < n -> r1 <> r2 -> In (k1, ss1) (f r1) -> In (k2, ss2) (f r2) ->
       In s1 ss1 -> In s2 ss2 -> row_id (r_tile a) (row_of (s_cat s1)) <> row_id (r_tile a) (row_of (s_cat s2))) /\
    ((forall s, hpix_of s = HPXPIXEL (row_of (s_cat s))) -> r_byhpx a = false \/ r_tile a = false ->
       forall r1 r2 k, r1 < n -> r2 < n -> r1 <> r2 -> In k (map fst (f r1)) -> ~ In k (map fst (f r2))).
Proof.
  intro Hf.
  set (R := fun (q : nat -> list (list row)) r x => In x (concat (q r))).
  destruct (together_finishes n the_run _ f Hn (run_all_together R (fun a q r c => R q r (row_of (fst c)) /\ nleb (r_minrsnr a) (snd c) = true) ltac:(
    intros a q again r e cat l s _ Hc Hl Hs Hm; split; [rewrite Forall_forall in Hc; apply Hc; eapply reader_rows; eassumption|exact Hm])
    ltac:(intros a q r c _ Hc; exact (proj1 Hc))
    ltac:(intros q r _; apply Forall_forall; intros x Hx; apply Forall_forall; intros y Hy; apply in_concat; eauto)) Hf)
    as (f' & (a & cat & q & Ew & Ecat & Eq & b & Hw) & Ef).
  assert (forall r, r < n -> exists l, (forall s, In s l -> In (row_of (s_cat s)) (concat (q r))) /\ (forall s, In s l -> nleb (r_minrsnr a) (s_rsnr s) = true) /\
    save_deltas hpix_of s_valid argsort l (negb (r_outdir a)) (r_byhpx a) (Some (Z.of_nat r)) b = Ok (f r)) as Hwr.
  { intros r Hr. destruct (Hw r Hr) as (l & Hl & Hs). rewrite (Ef r Hr) in Hs. unfold cats in Hl. rewrite Forall_forall in Hl. exists l.
    split; [|split; [|exact Hs]]; intros s Hin; apply (Hl s Hin). }
  clear Hw Ef f'. destruct (read_quasar_catalog_spec _ _ _ _ _ _ _ _ Ecat) as (c & Ec & _ & _ & Hne & Hperm & Ss & Hu).
  exists a, c. split; [exact Ew|]. split. { unfold the_file in Ec. destruct (w_catalog w); [cbn in Ec; congruence|discriminate]. }
  destruct (make_queues_spec cat (r_tile a) n Hn Hne (sorted_by_group _ _ _ _ Ss)) as (assign & Hl & [Hnd _] & Em).
  assert (forall r x, r < n -> In x (concat (q r)) -> In x cat /\
    exists ks, nth_error assign r = Some ks /\ In (group_key (r_tile a) x) ks) as Hin.
  { intros r x Hr Hx. specialize (Eq r Hr). rewrite Em, nth_error_map in Eq. destruct (nth_error assign r) as [ks|]; [|discriminate].
    cbn in Eq. injection Eq as Eq. rewrite <- Eq in Hx. apply in_concat in Hx as (gr & Hg & Hx). apply in_map_iff in Hg as (k & <- & Hk).
    apply filter_In in Hx as [Hx Hk']. apply Z.eqb_eq in Hk'. split; [exact Hx|]. exists ks. split; [reflexivity|congruence]. }
  assert (forall r1 r2 x1 x2, r1 < n -> r2 < n -> r1 <> r2 -> In x1 (concat (q r1)) -> In x2 (concat (q r2)) ->
    group_key (r_tile a) x1 <> group_key (r_tile a) x2) as Hdis.
  { intros r1 r2 x1 x2 H1 H2 Hr X1 X2 E. destruct (Hin r1 x1 H1 X1) as (_ & k1 & K1 & I1). destruct (Hin r2 x2 H2 X2) as (_ & k2 & K2 & I2).
    apply (NoDup_concat_disjoint assign r1 r2 k1 k2 (group_key (r_tile a) x1) Hnd Hr K1 K2 I1). now rewrite E. }
  split; [|split].
  - intros r k ss s Hr Hk Hs. destruct (Hwr r Hr) as (l & Hl1 & Hl2 & Hsave). destruct (saved_member _ _ _ _ _ _ _ _ _ Ha Hsave Hk Hs) as [Hsl Hv].
    split; [exact Hv|]. split; [now apply Hl2|]. destruct (Hin r _ Hr (Hl1 s Hsl)) as [Hc _]. apply (Permutation_in _ Hperm) in Hc.
    apply in_map_iff in Hc as (row0 & E0 & Hc). apply filter_In in Hc as [Hc Hsel]. apply selected_b_spec in Hsel as [Hz Hsv].
    exists row0. split; [exact Hc|]. split; [exact Hz|]. split; [exact Hsv|]. rewrite <- E0. unfold same_but_pixel. cbn. do 7 (split; [reflexivity|]). reflexivity.
  - intros r1 r2 k1 k2 ss1 ss2 s1 s2 H1 H2 Hr K1 K2 S1 S2 E.
    destruct (Hwr r1 H1) as (l1 & L1 & _ & W1). destruct (Hwr r2 H2) as (l2 & L2 & _ & W2).
    destruct (saved_member _ _ _ _ _ _ _ _ _ Ha W1 K1 S1) as [I1 _]. destruct (saved_member _ _ _ _ _ _ _ _ _ Ha W2 K2 S2) as [I2 _].
    apply (Hdis r1 r2 _ _ H1 H2 Hr (L1 _ I1) (L2 _ I2)). f_equal.
    apply (unique_ids_inj (r_tile a) cat); [exact Hu|exact (proj1 (Hin _ _ H1 (L1 _ I1)))|exact (proj1 (Hin _ _ H2 (L2 _ I2)))|exact E].
  - intros Hh Hor r1 r2 k H1 H2 Hr K1 K2. destruct (Hwr r1 H1) as (l1 & L1 & _ & W1). destruct (Hwr r2 H2) as (l2 & L2 & _ & W2).
    destruct (negb (r_outdir a)). { cbn in W1. injection W1 as E. rewrite <- E in K1. destruct K1. }
    destruct (r_byhpx a).
    + destruct Hor as [Hor|Hor]; [discriminate|].
      destruct (saved_name_hpx _ _ _ _ _ Ha W1 K1) as (s1 & I1 & E1). destruct (saved_name_hpx _ _ _ _ _ Ha W2 K2) as (s2 & I2 & E2).
      apply (Hdis r1 r2 _ _ H1 H2 Hr (L1 _ I1) (L2 _ I2)). rewrite Hor. cbn [group_key]. rewrite <- !Hh. congruence.
    + pose proof (saved_name_rank _ _ _ _ _ W1 K1). pose proof (saved_name_rank _ _ _ _ _ W2 K2). lia.
Qed.
End Run.
