(** Proofs about the readers and the delta writer. *)
From Coq Require Import String ZArith List Bool Arith Lia Permutation Sorting.Sorted Qcanon.
From Verif Require Import Num Exn NpList NpListFacts ProofGroup ProofCatalog
  ModelCatalog ModelIO SpecCatalog.
Import ListNotations.
Local Open Scope nat_scope.

(** ** fancy indexing *)
Lemma take_idx_total {A} (l : list A) idx :
  (forall i, In i idx -> i < length l) -> exists r, take_idx l idx = Some r.
Proof.
  induction idx as [|i idx IH]; intro H; cbn; [eauto|].
  destruct (nth_error l i) as [x|] eqn:E.
  - destruct IH as [r ->]; [intros; apply H; now right|]. eauto.
  - apply nth_error_None in E. specialize (H i (or_introl eq_refl)). lia.
Qed.
Lemma take_idx_length {A} (l : list A) idx r : take_idx l idx = Some r -> length r = length idx.
Proof. intro H. apply take_idx_spec in H. induction H; cbn; congruence. Qed.
Lemma take_idx_nth_error {A} (l : list A) idx r k i :
  take_idx l idx = Some r -> nth_error idx k = Some i -> nth_error r k = nth_error l i.
Proof.
  intro H. apply take_idx_spec in H. revert k. induction H as [|i0 x idx r H0 H IH]; intros k Hk.
  - destruct k; discriminate.
  - destruct k as [|k]; cbn in *; [congruence|]. now apply IH.
Qed.
Lemma take_idx_compose {A} (l : list A) idx perm r idx2 :
  take_idx l idx = Some r -> take_idx idx perm = Some idx2 -> take_idx l idx2 = take_idx r perm.
Proof.
  intros H1. revert idx2. induction perm as [|p perm IH]; intros idx2 H2; cbn in *.
  - injection H2 as <-. reflexivity.
  - destruct (nth_error idx p) as [i|] eqn:E; [|discriminate].
    destruct (take_idx idx perm) as [is|] eqn:E2; [|discriminate].
    injection H2 as <-. cbn. rewrite <- (take_idx_nth_error _ _ _ _ _ H1 E).
    now rewrite (IH _ eq_refl).
Qed.
Lemma take_idx_seq {A} (l : list A) : take_idx l (seq 0 (length l)) = Some l.
Proof.
  apply take_idx_spec.
  assert (forall pre, Forall2 (fun i x => nth_error (pre ++ l) i = Some x) (seq (length pre) (length l)) l) as G.
  { induction l as [|x l IH]; intro pre; cbn; [constructor|]. constructor.
    - rewrite nth_error_app2, Nat.sub_diag by lia. reflexivity.
    - specialize (IH (pre ++ [x])). rewrite <- app_assoc in IH. cbn in IH.
      rewrite app_length in IH. cbn in IH. rewrite Nat.add_1_r in IH. exact IH. }
  exact (G []).
Qed.
Lemma take_idx_perm {A} (l : list A) p1 p2 r1 :
  Permutation p1 p2 -> take_idx l p1 = Some r1 ->
  exists r2, take_idx l p2 = Some r2 /\ Permutation r1 r2.
Proof.
  intro P. revert r1. induction P as [|i p1 p2 P IH|i j p|p1 p2 p3 P1 IH1 P2 IH2]; intros r1 H; cbn in *.
  - injection H as <-. eauto.
  - destruct (nth_error l i) as [x|]; [|discriminate].
    destruct (take_idx l p1) as [r|]; [|discriminate]. injection H as <-.
    destruct (IH r eq_refl) as (r2 & -> & Hp). eauto.
  - destruct (nth_error l j) as [y|]; [|discriminate].
    destruct (nth_error l i) as [x|]; [|discriminate].
    destruct (take_idx l p) as [r|]; [|discriminate]. injection H as <-.
    eexists. split; [reflexivity|]. constructor.
  - destruct (IH1 _ H) as (r2 & H2 & Hp2). destruct (IH2 _ H2) as (r3 & H3 & Hp3).
    exists r3. split; [easy|]. etransitivity; eauto.
Qed.
(** applying a permutation of the indices permutes the list *)
Lemma take_idx_permutation {A} (l : list A) p :
  Permutation p (seq 0 (length l)) -> exists r, take_idx l p = Some r /\ Permutation r l.
Proof.
  intro P. destruct (take_idx_perm l _ _ _ (Permutation_sym P) (take_idx_seq l)) as (r & H & Hp).
  exists r. split; [easy|]. now symmetry.
Qed.
Lemma take_idx_nonzero_from {A} (p : A -> bool) (l : list A) (pre : list A) :
  take_idx (pre ++ l) (nonzero_from (length pre) (map p l)) = Some (filter p l).
Proof.
  revert pre. induction l as [|x l IH]; intro pre; cbn; [easy|].
  specialize (IH (pre ++ [x])). rewrite <- app_assoc, app_length in IH. cbn in IH.
  rewrite Nat.add_1_r in IH.
  destruct (p x); cbn; [|exact IH]. rewrite IH.
  rewrite nth_error_app2, Nat.sub_diag by lia. reflexivity.
Qed.
Lemma take_idx_nonzero {A} (p : A -> bool) (l : list A) :
  take_idx l (nonzero (map p l)) = Some (filter p l).
Proof. exact (take_idx_nonzero_from p l []). Qed.
Lemma take_idx_combine {A B} (l1 : list A) (l2 : list B) idx r1 r2 :
  take_idx l1 idx = Some r1 -> take_idx l2 idx = Some r2 ->
  take_idx (combine l1 l2) idx = Some (combine r1 r2).
Proof.
  revert r1 r2. induction idx as [|i idx IH]; intros r1 r2 H1 H2; cbn in *.
  - injection H1 as <-. reflexivity.
  - destruct (nth_error l1 i) as [x|] eqn:E1; [|discriminate].
    destruct (take_idx l1 idx) as [s1|]; [|discriminate]. injection H1 as <-.
    destruct (nth_error l2 i) as [y|] eqn:E2; [|discriminate].
    destruct (take_idx l2 idx) as [s2|]; [|discriminate]. injection H2 as <-.
    assert (nth_error (combine l1 l2) i = Some (x, y)) as ->.
    { clear -E1 E2. revert l2 i E1 E2. induction l1 as [|a l1 IH]; intros [|b l2] [|i]; cbn; try discriminate.
      - congruence.
      - apply IH. }
    rewrite (IH _ _ eq_refl eq_refl). reflexivity.
Qed.

Lemma StronglySorted_Permutation_eq l1 l2 :
  StronglySorted Z.le l1 -> StronglySorted Z.lt l2 -> Permutation l1 l2 -> l1 = l2.
Proof.
  intros H1 H2 P. apply StronglySorted_lt_ext; [|easy|].
  - apply StronglySorted_le_NoDup_lt; [easy|].
    eapply Permutation_NoDup; [symmetry; exact P|]. now apply StronglySorted_lt_NoDup.
  - intro v. split; apply Permutation_in; [easy|now symmetry].
Qed.

Lemma filter_length_le {A} (p : A -> bool) l : length (filter p l) <= length l.
Proof. induction l as [|a l IH]; cbn; [lia|]. destruct (p a); cbn; lia. Qed.

Section Readers.
Context {D E : Type}.
Variable argsort : list Z -> list nat.
Hypothesis Hsort : argsort_ok argsort.

Lemma argsort_take l : exists r, take_idx l (argsort l) = Some r /\ Permutation r l /\
  StronglySorted Z.le r.
Proof.
  destruct (Hsort l) as [P S].
  destruct (take_idx_permutation l _ P) as (r & Hr & Hp). exists r. split; [easy|]. split; [easy|].
  assert (map (fun i => nth i l 0%Z) (argsort l) = r) as <-; [|easy].
  apply take_idx_spec in Hr. clear -Hr. induction Hr as [|i x idx r H Hr IH]; cbn; [easy|].
  f_equal; [|easy]. now apply nth_error_nth.
Qed.

(** the rows of a file that belong to the given targets, with their image rows *)
Definition rows_of (tids : list Z) (f : specfile D E) : list ((Z * E) * D) :=
  filter (fun x => zmem (fst (fst x)) tids) (combine (fibermap f) (images f)).

Lemma read_onehealpix_file_spec tids (f : specfile D E) :
  length (images f) = length (fibermap f) ->
  exists rd, read_onehealpix_file argsort tids f = Ok rd /\
    rd_idx_cat rd = map (fun v => index_of v tids)
                        (filter (fun v => zmem v tids) (np_unique (map fst (fibermap f)))) /\
    length (rd_data rd) = length (rd_fbrmap rd) /\
    Permutation (combine (rd_fbrmap rd) (rd_data rd)) (rows_of tids f) /\
    StronglySorted Z.le (map fst (rd_fbrmap rd)).
Proof.
  intro HL. unfold read_onehealpix_file.
  set (ids := map fst (fibermap f)).
  set (idx := nonzero (map (fun t => zmem t tids) ids)).
  assert (take_idx ids idx = Some (filter (fun t => zmem t tids) ids)) as E1
    by apply take_idx_nonzero.
  rewrite E1. cbn [of_option rbind].
  set (tf := filter (fun t => zmem t tids) ids) in *.
  assert (take_idx (fibermap f) idx = Some (filter (fun x => zmem (fst x) tids) (fibermap f))) as E2.
  { unfold idx, ids. rewrite map_map. apply take_idx_nonzero. }
  assert (forall i, In i idx -> i < length (fibermap f)) as Hlt.
  { intros i Hi. unfold idx in Hi. apply nonzero_spec in Hi.
    assert (nth_error (map (fun t => zmem t tids) ids) i <> None) as C by congruence.
    apply nth_error_Some in C. unfold ids in C. now rewrite !map_length in C. }
  destruct (take_idx_total (images f) idx) as [im E3].
  { intros i Hi. rewrite HL. auto. }
  pose proof (Hsort tf) as [P _].
  assert (length tf = length idx) as Ltf by (eapply take_idx_length; eauto).
  rewrite Ltf in P. destruct (take_idx_permutation idx _ P) as (idx2 & E4 & P2).
  rewrite E4. cbn [of_option rbind].
  destruct (take_idx_perm (images f) _ _ _ (Permutation_sym P2) E3) as (data & E5 & P5).
  rewrite E5. cbn [of_option rbind].
  destruct (take_idx_perm (fibermap f) _ _ _ (Permutation_sym P2) E2) as (fb & E6 & P6).
  rewrite E6. cbn [of_option rbind].
  eexists. split; [reflexivity|]. cbn [rd_idx_cat rd_data rd_fbrmap].
  split; [unfold intersect1d; rewrite map_map; reflexivity|].
  split.
  { rewrite (take_idx_length _ _ _ E5), (take_idx_length _ _ _ E6). reflexivity. }
  split.
  - pose proof (take_idx_combine _ _ _ _ _ E6 E5) as E7.
    pose proof (take_idx_combine _ _ _ _ _ E2 E3) as E8.
    destruct (take_idx_perm (combine (fibermap f) (images f)) _ _ _ P2 E7) as (r & Er & Pr).
    rewrite Pr. rewrite E8 in Er. injection Er as <-.
    assert (combine (filter (fun x => zmem (fst x) tids) (fibermap f)) im = rows_of tids f) as ->; [|reflexivity].
    unfold rows_of.
    assert (take_idx (combine (fibermap f) (images f)) idx
            = Some (filter (fun x => zmem (fst (fst x)) tids) (combine (fibermap f) (images f)))) as E9.
    { unfold idx, ids. rewrite map_map.
      assert (map (fun x => zmem (fst x) tids) (fibermap f)
              = map (fun x : Z * E * D => zmem (fst (fst x)) tids) (combine (fibermap f) (images f))) as ->.
      { generalize (images f) (fibermap f) HL. clear. intros im fb. revert im.
        induction fb as [|x fb IH]; intros [|d im] H; cbn in *; try discriminate; [easy|].
        f_equal. apply IH. now injection H. }
      apply take_idx_nonzero. }
    congruence.
  - assert (take_idx ids idx2 = Some (map fst fb)) as E7.
    { unfold ids. rewrite take_idx_map, E6. reflexivity. }
    rewrite (take_idx_compose _ _ _ _ _ E1 E4) in E7.
    destruct (argsort_take tf) as (r & Er & _ & Sr). congruence.
Qed.

Lemma generate_spectra_list_combine {R} (cat : list R) (data : list D) :
  length cat <= length data -> generate_spectra_list cat data = Ok (combine cat data).
Proof.
  revert data. induction cat as [|c cat IH]; intros [|d data] H; cbn in *; try lia; auto.
  rewrite IH by lia. reflexivity.
Qed.

(** the catalog rows found in the file *)
Definition found (ids : list Z) (cat : list row) : list row :=
  filter (fun r => zmem (TARGETID r) ids) cat.

Definition sorted_cat (cat : list row) : Prop :=
  StronglySorted (fun a b => (TARGETID a < TARGETID b)%Z) cat.
Lemma sorted_cat_ids cat : sorted_cat cat -> StronglySorted Z.lt (map TARGETID cat).
Proof. apply (proj1 (StronglySorted_map TARGETID Z.lt cat)). Qed.

Lemma found_ids ids cat :
  sorted_cat cat ->
  map TARGETID (found ids cat) = filter (fun v => zmem v (map TARGETID cat)) (np_unique ids).
Proof.
  intro Hs. apply StronglySorted_lt_ext.
  - apply (StronglySorted_map TARGETID Z.lt). now apply StronglySorted_filter.
  - apply StronglySorted_filter, np_unique_sorted.
  - intro v. unfold found. rewrite in_map_iff, filter_In, np_unique_In, zmem_In, in_map_iff.
    split.
    + intros (r & <- & H). apply filter_In in H. destruct H as [H1 H2]. apply zmem_In in H2. eauto.
    + intros [H1 (r & <- & H2)]. exists r. split; [easy|]. apply filter_In. split; [easy|].
      now apply zmem_In.
Qed.

Lemma restrict_catalog_spec ids cat :
  sorted_cat cat ->
  restrict_catalog cat (map (fun v => index_of v (map TARGETID cat))
                          (filter (fun v => zmem v (map TARGETID cat)) (np_unique ids)))
  = Ok (found ids cat).
Proof.
  intro Hs. rewrite <- (found_ids ids cat Hs). unfold restrict_catalog.
  rewrite !map_length. destruct (Nat.eqb_spec (length (found ids cat)) (length cat)) as [EL|EL].
  - f_equal. unfold found in *. clear Hs. induction cat as [|r cat IH]; cbn in *; [easy|].
    destruct (zmem (TARGETID r) ids); cbn in *.
    + f_equal. apply IH. lia.
    + exfalso. assert (length (filter (fun r => zmem (TARGETID r) ids) cat) <= length cat) by apply filter_length_le. lia.
  - assert (take_idx cat (map (fun v => index_of v (map TARGETID cat)) (map TARGETID (found ids cat)))
            = Some (found ids cat)) as ->; [|easy].
    apply take_idx_spec.
    assert (forall r, In r (found ids cat) -> In r cat) as Hin.
    { intros r H. unfold found in H. apply filter_In in H. easy. }
    assert (forall r, In r cat -> nth_error cat (index_of (TARGETID r) (map TARGETID cat)) = Some r) as Hr.
    { intros r H. apply In_nth_error in H. destruct H as [i Hi].
      rewrite (index_of_nth_NoDup _ i); [easy| |].
      - apply StronglySorted_lt_NoDup. now apply sorted_cat_ids.
      - now apply map_nth_error. }
    revert Hin. generalize (found ids cat). induction l as [|r l IH]; intro Hin; cbn; constructor.
    + apply Hr, Hin. now left.
    + apply IH. intros; apply Hin. now right.
Qed.

(** ** C08: coadded files *)
Lemma combine_map_fst {A B C} (f : A -> C) (l : list A) (l' : list B) :
  length l = length l' -> map (fun x => f (fst x)) (combine l l') = map f l.
Proof.
  revert l'; induction l as [|x l IH]; intros [|y l'] H; cbn in *; try discriminate; [easy|].
  f_equal. apply IH. now injection H.
Qed.
Lemma Permutation_length_combine {A B} (l : list A) (l' : list B) :
  length l = length l' -> length (combine l l') = length l.
Proof. intro H. rewrite combine_length, H. apply Nat.min_id. Qed.

Lemma read_coadd_group_spec cat (f : specfile D E) :
  sorted_cat cat -> NoDup (map fst (fibermap f)) -> length (images f) = length (fibermap f) ->
  exists specs, read_coadd_group argsort cat f = Ok specs /\
    map fst specs = filter (fun r => zmem (TARGETID r) (map fst (fibermap f))) cat /\
    forall r d, In (r, d) specs ->
      exists i e, nth_error (fibermap f) i = Some (TARGETID r, e) /\ nth_error (images f) i = Some d.
Proof.
  intros Hs Hn HL. unfold read_coadd_group.
  destruct (read_onehealpix_file_spec (map TARGETID cat) f HL) as (rd & -> & Ei & L & P & S).
  cbn [rbind]. rewrite Ei, restrict_catalog_spec by easy. cbn [rbind].
  set (ids := map fst (fibermap f)) in *.
  assert (map fst (rd_fbrmap rd) = map TARGETID (found ids cat)) as Ef.
  { rewrite found_ids by easy. apply StronglySorted_Permutation_eq; [easy| |].
    - apply StronglySorted_filter, np_unique_sorted.
    - apply (Permutation_map (fun x : Z * E * D => fst (fst x))) in P.
      rewrite combine_map_fst in P by easy. rewrite P.
      apply NoDup_Permutation.
      + unfold rows_of. apply NoDup_map_filter. rewrite combine_map_fst; easy.
      + apply NoDup_filter, np_unique_NoDup.
      + intro v. rewrite filter_In, np_unique_In. unfold rows_of.
        rewrite in_map_iff. split.
        * intros (x & <- & H). apply filter_In in H. destruct H as [H1 H2]. split; [|easy].
          destruct x as [[t e] d]. apply in_combine_l in H1. unfold ids. now apply (in_map fst) in H1.
        * intros [H1 H2]. unfold ids in H1. rewrite <- (combine_map_fst fst (fibermap f) (images f)) in H1 by easy.
          apply in_map_iff in H1. destruct H1 as (x & <- & H1). exists x. split; [easy|].
          apply filter_In. easy. }
  assert (length (found ids cat) = length (rd_data rd)) as L2.
  { rewrite L. apply (f_equal (@length Z)) in Ef. now rewrite !map_length in Ef. }
  rewrite generate_spectra_list_combine by lia.
  eexists. split; [reflexivity|]. split.
  - rewrite (combine_map_fst (fun x => x)) by easy. apply map_id.
  - intros r d H. apply In_nth_error in H. destruct H as [k Hk].
    assert (nth_error (found ids cat) k = Some r /\ nth_error (rd_data rd) k = Some d) as [H1 H2].
    { revert Hk. generalize (found ids cat) (rd_data rd). clear. intros l l'. revert l' k.
      induction l as [|x l IH]; intros [|y l'] [|k] H; cbn in *; try discriminate.
      - injection H as <- <-. easy.
      - now apply IH. }
    assert (nth_error (map fst (rd_fbrmap rd)) k = Some (TARGETID r)) as H3.
    { rewrite Ef. now apply map_nth_error. }
    rewrite nth_error_map in H3. destruct (nth_error (rd_fbrmap rd) k) as [[t e]|] eqn:H4; [|discriminate].
    cbn in H3. injection H3 as ->.
    assert (In ((TARGETID r, e), d) (combine (rd_fbrmap rd) (rd_data rd))) as H5.
    { revert H2 H4. generalize (rd_data rd) (rd_fbrmap rd). clear. intros l' l. revert l' k.
      induction l as [|x l IH]; intros [|y l'] [|k] H H'; cbn in *; try discriminate.
      - left. congruence.
      - right. eapply IH; eauto. }
    eapply Permutation_in in H5; [|exact P]. unfold rows_of in H5. apply filter_In in H5.
    destruct H5 as [H5 _]. apply In_nth_error in H5. destruct H5 as [i Hi]. exists i, e.
    revert Hi. generalize (fibermap f) (images f). clear. intros l l'. revert l' i.
    induction l as [|x l IH]; intros [|y l'] [|k] H; cbn in *; try discriminate.
    + injection H as <- <-. easy.
    + now apply IH.
Qed.

(** ** C09: exposures *)
Lemma take_idx_map_total {A B} (l : list A) (g : B -> nat) (h : B -> A) (xs : list B) :
  (forall x, In x xs -> nth_error l (g x) = Some (h x)) -> take_idx l (map g xs) = Some (map h xs).
Proof.
  intro H. apply take_idx_spec. induction xs as [|x xs IH]; cbn; constructor.
  - apply H. now left.
  - apply IH. intros; apply H. now right.
Qed.

Lemma lookup_sorted cat t :
  sorted_cat cat -> In t (map TARGETID cat) ->
  exists r, In r cat /\ TARGETID r = t /\
    nth_error cat (zsearchsorted (map TARGETID cat) t) = Some r.
Proof.
  intros Hs Hin. pose proof (zsearchsorted_found _ _ (sorted_cat_ids _ Hs) Hin) as H.
  rewrite nth_error_map in H.
  destruct (nth_error cat (zsearchsorted (map TARGETID cat) t)) as [r|] eqn:Er; [|discriminate].
  exists r. cbn in H. injection H as H. split; [|easy]. eapply nth_error_In; eauto.
Qed.

Lemma read_uncoadd_group_spec cat (f : specfile D E) :
  sorted_cat cat -> length (images f) = length (fibermap f) ->
  exists specs, read_uncoadd_group argsort cat f = Ok specs /\
    (forall r e d, In ((r, e), d) specs -> In r cat) /\
    Permutation (map (fun x => ((TARGETID (fst (fst x)), snd (fst x)), snd x)) specs)
      (filter (fun x => zmem (fst (fst x)) (map TARGETID cat)) (combine (fibermap f) (images f))).
Proof.
  intros Hs HL. unfold read_uncoadd_group.
  destruct (read_onehealpix_file_spec (map TARGETID cat) f HL) as (rd & -> & Ei & L & P & S).
  cbn [rbind]. rewrite Ei, restrict_catalog_spec by easy. cbn [rbind].
  set (ids := map fst (fibermap f)) in *. set (cat2 := found ids cat).
  assert (sorted_cat cat2) as Hs2 by now apply StronglySorted_filter.
  assert (forall te, In te (rd_fbrmap rd) -> In (fst te) (map TARGETID cat2)) as Hin.
  { intros te H.
    assert (exists d, In (te, d) (combine (rd_fbrmap rd) (rd_data rd))) as [d Hd].
    { revert L H. generalize (rd_data rd) (rd_fbrmap rd). clear. intros l' l. revert l'.
      induction l as [|x l IH]; intros [|y l'] L H; cbn in *; try easy.
      injection L as L. destruct H as [->|H]; [eauto|].
      destruct (IH _ L H) as [d Hd]. eauto. }
    eapply Permutation_in in Hd; [|exact P]. unfold rows_of in Hd. apply filter_In in Hd.
    destruct Hd as [H1 H2]. apply zmem_In in H2. cbn in H2.
    apply in_combine_l in H1. apply in_map_iff in H2. destruct H2 as (r & E1 & H2).
    apply in_map_iff. exists r. split; [easy|]. unfold cat2, found. apply filter_In. split; [easy|].
    apply zmem_In. rewrite E1. unfold ids. now apply in_map. }
  destruct (take_idx_total cat2 (map (fun te => zsearchsorted (map TARGETID cat2) (fst te)) (rd_fbrmap rd)))
    as [nc Enc].
  { intros i Hi. apply in_map_iff in Hi. destruct Hi as (te & <- & Hi).
    destruct (lookup_sorted cat2 (fst te) Hs2 (Hin _ Hi)) as (r & _ & _ & H).
    apply nth_error_Some. congruence. }
  rewrite Enc. cbn [of_option rbind].
  assert (map TARGETID nc = map fst (rd_fbrmap rd) /\ (forall r, In r nc -> In r cat)) as [Eids Hnc].
  { apply take_idx_spec in Enc. revert Enc Hin. generalize (rd_fbrmap rd).
    clear -Hs2. intro fb. revert nc.
    induction fb as [|te fb IH]; intros nc H Hin; cbn in *; inversion H as [|? r ? nc' H1 H2]; subst.
    - easy.
    - destruct (lookup_sorted cat2 (fst te) Hs2 (Hin _ (or_introl eq_refl))) as (r' & Hr1 & Hr2 & Hr3).
      rewrite Hr3 in H1. injection H1 as <-.
      destruct (IH nc' H2) as [G1 G2]; [intros; apply Hin; now right|].
      cbn. split; [congruence|]. intros x [<-|Hx]; [|auto].
      unfold cat2, found in Hr1. now apply filter_In in Hr1. }
  assert (length nc = length (rd_fbrmap rd)) as Lnc.
  { apply (f_equal (@length Z)) in Eids. now rewrite !map_length in Eids. }
  rewrite generate_spectra_list_combine.
  2:{ rewrite combine_length, map_length. lia. }
  eexists. split; [reflexivity|]. split.
  - intros r e d H. apply in_combine_l in H. apply in_combine_l in H. auto.
  - change (filter (fun x : Z * E * D => zmem (fst (fst x)) (map TARGETID cat)) (combine (fibermap f) (images f)))
      with (rows_of (map TARGETID cat) f). rewrite <- P.
    assert (map (fun x : row * E * D => (TARGETID (fst (fst x)), snd (fst x), snd x))
             (combine (combine nc (map snd (rd_fbrmap rd))) (rd_data rd))
            = combine (rd_fbrmap rd) (rd_data rd)) as ->; [|reflexivity].
    revert Eids L Lnc. generalize (rd_fbrmap rd) (rd_data rd). clear. intros fb. revert nc.
    induction fb as [|[t e] fb IH]; intros [|r nc] [|d data] E1 L1 L2; cbn in *; try discriminate; [easy|].
    injection E1 as E0 E1. rewrite E0. f_equal. apply IH; auto.
Qed.

End Readers.
