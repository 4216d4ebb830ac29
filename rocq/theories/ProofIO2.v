(** More proofs about readers, writer, file distribution and broadcast helpers. *)
From Coq Require Import String ZArith List Bool Arith Lia Permutation Sorting.Sorted Qcanon.
From Verif Require Import Num Exn NpList NpListFacts ProofGroup ProofCatalog ProofIO Mpi
  ModelMpiUtils ModelCatalog ModelIO ModelInputCont ModelFitQueue SpecCatalog.
Import ListNotations.
Local Open Scope nat_scope.

(** ** C07 *)
Section Survey.
Context {D E : Type}.
Variable argsort : list Z -> list nat.
Hypothesis Hsort : argsort_ok argsort.

Definition wellformed (f : specfile D E) : Prop :=
  NoDup (map fst (fibermap f)) /\ length (images f) = length (fibermap f).

Lemma concat_with_key_sorted (key : row -> Z) l :
  StronglySorted (fun a b => (key a <= key b)%Z) l -> l <> [] ->
  concat (map (with_key key l) (np_unique (map key l))) = l.
Proof.
  intros Hs Hne. rewrite <- split_by_key_filter by easy.
  now destruct (split_by_key_grouped key l Hs Hne).
Qed.

Lemma read_groups_with_key {X} (key : row -> Z) (reader : list row -> specfile D E -> res (list X))
  (fl : Z -> specfile D E) (file : Z -> res (specfile D E)) (out : Z -> list X) l ks :
  (forall k, In k ks -> In k (map key l)) ->
  (forall k, In k ks -> file k = Ok (fl k)) ->
  (forall k, In k ks -> reader (with_key key l k) (fl k) = Ok (out k)) ->
  read_groups key reader file (map (with_key key l) ks)
  = Ok (concat (map (fun k => map (pair k) (out k)) ks)).
Proof.
  induction ks as [|k ks IH]; intros Hk Hf Hr; cbn [map read_groups concat]; [easy|].
  assert (with_key key l k <> []) as Hne by (apply with_key_nonempty, Hk; now left).
  destruct (with_key key l k) as [|r0 g] eqn:Eg; [easy|].
  assert (key r0 = k) as Ek.
  { assert (In r0 (with_key key l k)) as H by (rewrite Eg; now left). now apply with_key_In in H. }
  rewrite Ek, (Hf k (or_introl eq_refl)). cbn [rbind].
  rewrite <- Eg, (Hr k (or_introl eq_refl)). cbn [rbind].
  rewrite IH; [easy| | |]; intros; [apply Hk|apply Hf|apply Hr]; now right.
Qed.

Lemma filter_concat {A} (p : A -> bool) ll : filter p (concat ll) = concat (map (filter p) ll).
Proof. induction ll as [|l ll IH]; cbn; [easy|]. now rewrite filter_app, IH. Qed.

(** a catalog of one group sorted by survey, then target *)
Definition survey_sorted (key : row -> Z) (l : list row) : Prop :=
  StronglySorted (fun a b => (key a < key b)%Z \/ (key a = key b /\ (TARGETID a < TARGETID b)%Z)) l.

Lemma survey_sorted_le key l :
  survey_sorted key l -> StronglySorted (fun a b => (key a <= key b)%Z) l.
Proof. apply StronglySorted_impl. intros; lia. Qed.
Lemma survey_sorted_group key l k : survey_sorted key l -> sorted_cat (with_key key l k).
Proof.
  intro H. unfold sorted_cat. eapply StronglySorted_impl; [|apply StronglySorted_filter; exact H].
  intros a b Ha Hb. apply filter_In in Ha, Hb. rewrite Z.eqb_eq in Ha, Hb. lia.
Qed.

Lemma read_by_key_spec (key : row -> Z) (l : list row) (file : Z -> res (specfile D E)) (fl : Z -> specfile D E) :
  l <> [] -> survey_sorted key l ->
  (forall r, In r l -> file (key r) = Ok (fl (key r)) /\ wellformed (fl (key r))) ->
  exists specs,
    read_groups key (read_coadd_group argsort) file (split_by_key key l) = Ok specs /\
    map (fun x => fst (snd x)) specs
      = filter (fun r => zmem (TARGETID r) (map fst (fibermap (fl (key r))))) l /\
    forall k r d, In (k, (r, d)) specs ->
      k = key r /\
      exists i e, nth_error (fibermap (fl (key r))) i = Some (TARGETID r, e) /\
                  nth_error (images (fl (key r))) i = Some d.
Proof.
  intros Hne Hs Hf.
  set (ks := np_unique (map key l)).
  assert (forall k, In k ks -> In k (map key l)) as Hks.
  { intros k Hk. unfold ks in Hk. now rewrite np_unique_In in Hk. }
  assert (forall k, In k ks -> file k = Ok (fl k) /\ wellformed (fl k)) as Hf'.
  { intros k Hk. apply Hks in Hk. apply in_map_iff in Hk. destruct Hk as (r & <- & Hr). auto. }
  assert (forall k, In k ks -> exists specs, read_coadd_group argsort (with_key key l k) (fl k) = Ok specs /\
    map fst specs = filter (fun r => zmem (TARGETID r) (map fst (fibermap (fl k)))) (with_key key l k) /\
    forall r d, In (r, d) specs ->
      exists i e, nth_error (fibermap (fl k)) i = Some (TARGETID r, e) /\ nth_error (images (fl k)) i = Some d) as Hg.
  { intros k Hk. destruct (Hf' k Hk) as [_ [W1 W2]].
    apply read_coadd_group_spec; auto. now apply survey_sorted_group. }
  set (out := fun k => match read_coadd_group argsort (with_key key l k) (fl k) with Ok s => s | Err _ => [] end).
  exists (concat (map (fun k => map (pair k) (out k)) ks)). split.
  { rewrite split_by_key_filter; [|now apply survey_sorted_le|easy]. fold ks.
    apply read_groups_with_key with (fl := fl); auto.
    - intros k Hk. now apply Hf'.
    - intros k Hk. destruct (Hg k Hk) as (s & Es & _). unfold out. now rewrite Es. }
  split.
  - pose proof (concat_with_key_sorted key l (survey_sorted_le _ _ Hs) Hne) as Ecat. fold ks in Ecat.
    transitivity (filter (fun r => zmem (TARGETID r) (map fst (fibermap (fl (key r)))))
                    (concat (map (with_key key l) ks))); [|now rewrite Ecat].
    rewrite filter_concat, concat_map, !map_map. f_equal. apply map_ext_in. intros k Hk.
    destruct (Hg k Hk) as (s & Es & E1 & _). unfold out. rewrite Es, map_map. cbn [fst snd].
    etransitivity; [exact E1|]. apply filter_ext_in. intros r Hr. apply with_key_In in Hr. destruct Hr as [_ <-]. reflexivity.
  - intros k r d H. apply in_concat in H. destruct H as (x & Hx & H).
    apply in_map_iff in Hx. destruct Hx as (k' & <- & Hk).
    apply in_map_iff in H. destruct H as ([r' d'] & [= -> -> ->] & H).
    destruct (Hg k Hk) as (s & Es & E1 & H1). unfold out in H. rewrite Es in H.
    assert (In r (map fst s)) as Hr by (apply (in_map fst) in H; exact H).
    rewrite E1 in Hr. apply filter_In in Hr. destruct Hr as [Hr _].
    apply with_key_In in Hr. destruct Hr as [_ Ek]. split; [easy|].
    destruct (H1 _ _ H) as (i & e & G1 & G2). subst k. eauto.
Qed.
End Survey.

(** the healpix groups of a catalog read with a survey selection are sorted by survey *)
Lemma lex_filter_pixel keys p l :
  StronglySorted (lex_lt (HPXPIXEL :: keys)) l ->
  StronglySorted (lex_lt keys) (filter (fun r => Z.eqb (HPXPIXEL r) p) l).
Proof.
  intro H. eapply StronglySorted_impl; [|apply StronglySorted_filter; exact H].
  intros a b Ha Hb. apply filter_In in Ha, Hb. rewrite Z.eqb_eq in Ha, Hb. cbn. intros [C|[_ C]]; [lia|exact C].
Qed.

Lemma healpix_group_survey_sorted ang2pix file is_mock ks zmin zmax cat p :
  (forall c, file = Ok c -> In "SURVEY"%string (colnames c)) ->
  read_quasar_catalog ang2pix file is_mock false (Some ks) (Fin zmin) (Fin zmax) = Ok cat ->
  survey_sorted SURVEY (filter (fun r => Z.eqb (HPXPIXEL r) p) cat).
Proof.
  intros Hcol H.
  destruct (read_quasar_catalog_spec _ _ _ _ _ _ _ _ H) as (c & Ec & _ & _ & _ & P & S & U).
  specialize (Hcol c Ec).
  unfold expected_order, sort_order in S.
  assert (smem "SURVEY" (colnames c) = true) as Es by now apply smem_In.
  rewrite Es in S. cbn [andb] in S.
  destruct (Nat.ltb_spec 1 (length ks)) as [L|L].
  - apply (lex_filter_pixel _ p) in S. unfold survey_sorted.
    eapply StronglySorted_impl; [|exact S]. cbn. intros; lia.
  - apply (lex_filter_pixel _ p) in S. unfold survey_sorted.
    eapply StronglySorted_impl; [|exact S]. cbn. intros a b Ha Hb C. right. split; [|lia].
    assert (forall r, In r (filter (fun r => Z.eqb (HPXPIXEL r) p) cat) -> In (SURVEY r) ks) as Hin.
    { intros r Hr. apply filter_In in Hr. destruct Hr as [Hr _].
      eapply Permutation_in in Hr; [|exact P]. apply in_map_iff in Hr.
      destruct Hr as (r0 & <- & Hr). apply filter_In in Hr. destruct Hr as [_ Hr].
      apply selected_b_spec in Hr. destruct Hr as [_ Hr]. cbn in Hr. cbn. auto. }
    apply Hin in Ha, Hb.
    destruct ks as [|s0 [|s1 ks]]; cbn in L; try lia; cbn in Ha, Hb; intuition congruence.
Qed.

(** ** C10 *)
Lemma zip_reso_map {D} (imgs : list D) idx specs :
  length idx = length specs ->
  zip_reso idx imgs specs = map (fun x => (snd x, nth_error imgs (fst x))) (combine idx specs).
Proof.
  revert idx. induction specs as [|s specs IH]; intros [|j idx] H; cbn in *; try discriminate; auto.
  f_equal. apply IH. now injection H.
Qed.
Lemma onlyreso_all_found {D E} (f : specfile D E) (ids : list Z) :
  StronglySorted Z.lt ids -> (forall t, In t ids -> In t (map fst (fibermap f))) ->
  read_onehealpix_file_onlyreso ids f ids
  = map (fun t => (t, nth_error (images f) (index_of t (map fst (fibermap f))))) ids.
Proof.
  intros Hs Hin. unfold read_onehealpix_file_onlyreso, intersect1d. rewrite map_map. cbn [fst snd].
  assert (filter (fun v => zmem v ids) (np_unique (map fst (fibermap f))) = ids) as ->.
  { apply StronglySorted_lt_ext; [apply StronglySorted_filter, np_unique_sorted|easy|].
    intro v. rewrite filter_In, np_unique_In, zmem_In. split; [easy|]. auto. }
  rewrite zip_reso_map by now rewrite map_length.
  clear. induction ids as [|t ids IH]; cbn; [easy|]. now rewrite IH.
Qed.

(** ** true continua of mocks *)
Lemma read_true_continuum_spec {C} ids (table : list (Z * C)) conts :
  StronglySorted Z.lt ids -> NoDup (map fst table) ->
  read_true_continuum ids table = Ok conts ->
  length conts = length ids /\
  forall k t c, nth_error ids k = Some t -> nth_error conts k = Some c -> In (t, c) table.
Proof.
  intros Hs Hn. unfold read_true_continuum.
  set (common := intersect1d (map fst table) ids).
  destruct (Nat.eqb_spec (length common) (length ids)) as [L|L]; cbn [negb]; [|discriminate].
  assert (filter (fun v => zmem v ids) (np_unique (map fst table)) = ids) as Ef.
  { apply StronglySorted_lt_ext; [apply StronglySorted_filter, np_unique_sorted|easy|].
    assert (incl (filter (fun v => zmem v ids) (np_unique (map fst table))) ids) as Hi.
    { intros v Hv. apply filter_In in Hv. now apply zmem_In. }
    intro v. split; [apply Hi|].
    apply (NoDup_length_incl (NoDup_filter _ (np_unique_NoDup _))); [|exact Hi].
    unfold common, intersect1d in L. rewrite map_length in L. lia. }
  unfold common, intersect1d. rewrite Ef, map_map. cbn [fst snd].
  destruct (take_idx (map snd table) (map (fun x => index_of x (map fst table)) ids)) as [r|] eqn:Et;
    cbn [of_option]; [|discriminate].
  intros [= <-]. split; [rewrite (take_idx_length _ _ _ Et), map_length; easy|].
  intros k t c Hk Hc.
  assert (nth_error (map (fun x => index_of x (map fst table)) ids) k = Some (index_of t (map fst table))) as Hk'
    by now apply (map_nth_error (fun x => index_of x (map fst table))).
  rewrite (take_idx_nth_error _ _ _ _ _ Et Hk') in Hc.
  assert (In t (map fst table)) as Hin.
  { apply nth_error_In in Hk. rewrite <- Ef in Hk. apply filter_In in Hk. now rewrite np_unique_In in Hk. }
  pose proof (index_of_nth _ _ Hin) as Hi.
  rewrite nth_error_map in Hi, Hc.
  destruct (nth_error table (index_of t (map fst table))) as [[t' c']|] eqn:Ex; [|discriminate].
  cbn in Hi, Hc. injection Hi as ->. injection Hc as ->. eapply nth_error_In; eauto.
Qed.

Lemma nth_error_combine {A B} (l1 : list A) (l2 : list B) k x y :
  nth_error (combine l1 l2) k = Some (x, y) -> nth_error l1 k = Some x /\ nth_error l2 k = Some y.
Proof.
  revert l2 k. induction l1 as [|a l1 IH]; intros [|b l2] [|k] H; cbn in *; try discriminate.
  - injection H as -> ->. easy.
  - now apply IH.
Qed.

Lemma read_mock_spec {D E C} argsort (cat : list row) (f : specfile D E) (truth : list (Z * C)) specs :
  argsort_ok argsort -> sorted_cat cat -> NoDup (map fst (fibermap f)) ->
  length (images f) = length (fibermap f) -> NoDup (map fst truth) ->
  read_onehealpix_file_mock argsort cat f truth = Ok specs ->
  map fst specs = filter (fun r => zmem (TARGETID r) (map fst (fibermap f))) cat /\
  forall r d c, In (r, (d, c)) specs ->
    (exists i e, nth_error (fibermap f) i = Some (TARGETID r, e) /\ nth_error (images f) i = Some d) /\
    In (TARGETID r, c) truth.
Proof.
  intros Ha Hs Hn HL Ht H.
  destruct (read_coadd_group_spec argsort Ha cat f Hs Hn HL) as (sp & Esp & E1 & E2).
  unfold read_coadd_group in Esp. unfold read_onehealpix_file_mock in H.
  destruct (read_onehealpix_file_spec argsort Ha (map TARGETID cat) f HL) as (rd & Erd & Ei & L & P & S).
  rewrite Erd in *. cbn [rbind] in *. rewrite Ei, restrict_catalog_spec in * by easy. cbn [rbind] in *.
  destruct (read_true_continuum _ truth) as [conts|] eqn:Et; cbn [rbind] in *; [|discriminate].
  rewrite Esp in H. cbn [rbind] in H. injection H as <-.
  assert (StronglySorted Z.lt (map TARGETID (found (map fst (fibermap f)) cat))) as Hs2.
  { apply sorted_cat_ids. now apply StronglySorted_filter. }
  destruct (read_true_continuum_spec _ _ _ Hs2 Ht Et) as [Lc Hc].
  assert (length sp = length conts) as Ls.
  { apply (f_equal (@length row)) in E1. rewrite map_length in E1. rewrite Lc, map_length, E1. reflexivity. }
  split.
  - rewrite <- E1, map_map. cbn [fst]. now rewrite (combine_map_fst fst sp conts Ls).
  - intros r d c H. apply in_map_iff in H. destruct H as ([[r' d'] c'] & [= -> -> ->] & H).
    split; [apply E2; apply in_combine_l in H; easy|].
    apply In_nth_error in H. destruct H as [k Hk]. apply nth_error_combine in Hk.
    destruct Hk as [Hk1 Hk2]. apply (Hc k); [|easy].
    apply map_nth_error. change (found (map fst (fibermap f)) cat)
      with (filter (fun r => zmem (TARGETID r) (map fst (fibermap f))) cat). rewrite <- E1.
    now apply (map_nth_error fst) in Hk1.
Qed.

(** ** C05: save_deltas *)
Section Save.
Context {S : Type}.
Variable hpix : S -> Z.
Variable valid : S -> bool.
Variable argsort : list Z -> list nat.
Hypothesis Hsort : argsort_ok argsort.

Lemma combine_map_r {A B} (g : A -> B) l : combine l (map g l) = map (fun x => (x, g x)) l.
Proof. induction l as [|x l IH]; cbn; [easy|]. now rewrite IH. Qed.

Lemma save_by_hpx_spec specs r :
  exists files, save_deltas hpix valid argsort specs false true r true = Ok files /\
    Permutation (concat (map snd files)) (filter valid specs) /\
    NoDup (map fst files) /\
    (forall n, In n (map fst files) <-> In n (map hpix specs)) /\
    forall n ss s, In (n, ss) files -> In s ss -> hpix s = n.
Proof.
  unfold save_deltas.
  destruct (argsort_take argsort Hsort (map hpix specs)) as (pix & Ep & Pp & Sp). rewrite Ep. cbn [of_option rbind].
  destruct (Hsort (map hpix specs)) as [Pa _]. rewrite map_length in Pa.
  destruct (take_idx_permutation specs _ Pa) as (sp & Esp & Psp). rewrite Esp. cbn [of_option rbind negb].
  assert (pix = map hpix sp) as ->.
  { rewrite take_idx_map, Esp in Ep. cbn in Ep. congruence. }
  cbn [fst snd].
  destruct sp as [|s0 sp'] eqn:Es.
  - exists []. cbn. apply Permutation_nil in Psp. subst specs. cbn. repeat split; try easy; constructor.
  - rewrite <- Es in *. assert (sp <> []) as Hne by (rewrite Es; discriminate). clear Es s0 sp'.
    change (np_split sp (tl (np_unique_index (map hpix sp)))) with (split_by_key hpix sp).
    assert (StronglySorted (fun a b => (hpix a <= hpix b)%Z) sp) as Hss
      by now apply (StronglySorted_map hpix Z.le).
    rewrite (split_by_key_filter hpix sp Hss Hne), combine_map_r, map_map. cbn [fst snd].
    eexists. split; [reflexivity|]. rewrite !map_map. cbn [fst snd]. rewrite map_id.
    split; [|split; [apply np_unique_NoDup|split]].
    + rewrite <- (map_map (with_key hpix sp) (filter valid)). rewrite <- filter_concat.
      apply Permutation_filter. rewrite <- Psp.
      apply with_key_perm; [apply np_unique_NoDup|]. intros a Ha. rewrite np_unique_In. now apply in_map.
    + intro n. rewrite np_unique_In. split; apply Permutation_in; [|symmetry]; now apply Permutation_map.
    + intros n ss s H Hs. apply in_map_iff in H. destruct H as (k & [= -> <-] & _).
      apply filter_In in Hs. destruct Hs as [Hs _]. now apply with_key_In in Hs.
Qed.

Lemma save_by_rank_spec specs r :
  save_deltas hpix valid argsort specs false false (Some r) true = Ok [(r, filter valid specs)].
Proof. reflexivity. Qed.
Lemma save_unblinded_refuses specs by_hpx r :
  exists m, save_deltas hpix valid argsort specs false by_hpx r false = Err (QsonicExn m).
Proof.
  unfold save_deltas. destruct by_hpx.
  - destruct (argsort_take argsort Hsort (map hpix specs)) as (pix & Ep & _). rewrite Ep. cbn [of_option rbind].
    destruct (Hsort (map hpix specs)) as [Pa _]. rewrite map_length in Pa.
    destruct (take_idx_permutation specs _ Pa) as (sp & Esp & _). rewrite Esp. cbn. eauto.
  - destruct r; cbn; eauto.
Qed.
End Save.

(** ** C11: files of qsonic-calib *)
Lemma firstn_skipn_slice {A} (l : list A) i n : slice i (Nat.min (length l) (i + n)) l = firstn n (skipn i l).
Proof.
  unfold slice. destruct (Nat.le_ge_cases (i + n) (length l)) as [H|H].
  - rewrite Nat.min_r by lia. f_equal. lia.
  - rewrite Nat.min_l by lia. rewrite <- (skipn_length i l), firstn_all.
    symmetry. apply firstn_all2. rewrite skipn_length. lia.
Qed.
Lemma skipn_skipn_add {A} a m (l : list A) : skipn m (skipn a l) = skipn (a + m) l.
Proof. revert l. induction a as [|a IH]; intros [|x l]; cbn; auto. apply skipn_nil. Qed.
Lemma calib_files_prefix {F} (files : list F) size :
  1 <= size ->
  concat (map (calib_files_of_rank files size) (seq 0 size))
  = firstn (size * Nat.max 1 (length files / size)) files.
Proof.
  intro Hs. set (m := Nat.max 1 (length files / size)).
  assert (forall k s, concat (map (calib_files_of_rank files size) (seq s k))
          = firstn (k * m) (skipn (s * m) files)) as G.
  { induction k as [|k IH]; intro s; cbn [seq map concat]; [easy|].
    rewrite IH. unfold calib_files_of_rank. fold m.
    rewrite firstn_skipn_slice.
    replace (m * s) with (s * m) by lia.
    replace (S s * m) with (s * m + m) by lia.
    replace (skipn (s * m + m) files) with (skipn m (skipn (s * m) files)).
    2:{ apply skipn_skipn_add. }
    generalize (skipn (s * m) files). intro l.
    replace (S k * m) with (m + k * m) by lia.
    rewrite <- (firstn_skipn m l) at 3.
    destruct (Nat.le_ge_cases m (length l)) as [H|H].
    - rewrite firstn_app. rewrite firstn_length_le by easy.
      replace (m + k * m - m) with (k * m) by lia. f_equal.
      symmetry. apply firstn_all2. rewrite firstn_length_le by easy. lia.
    - rewrite skipn_all2 by easy. rewrite firstn_nil, !app_nil_r. rewrite !firstn_all2; auto; try lia.
      }
  rewrite G. reflexivity.
Qed.

(** ** C12: broadcast helpers *)
Lemma map_repeat {A B} (f : A -> B) x n : map f (repeat x n) = repeat (f x) n.
Proof. induction n as [|n IH]; cbn; [easy|]. now rewrite IH. Qed.

Lemma mpi_fnc_bcast_run {T} n msg (fnc : nat -> res T) :
  1 <= n -> fnc 0 <> Err SysExit ->
  spmd n (fun rank => mpi_fnc_bcast true rank msg (fnc rank)) =
  match fnc 0 with
  | Ok v => Done (repeat (Finished v) n)
  | Err _ => Done (repeat (Failed (QsonicExn msg)) n)
  end.
Proof.
  intros Hn Hsys. destruct n as [|m]; [lia|]. unfold spmd.
  unfold mpi_fnc_bcast at 1. cbn [Nat.eqb orb negb].
  assert (exists o, invalid_or (fnc 0) = Ok o /\
     o = match fnc 0 with Ok v => Some v | Err _ => None end) as (o & Eo & Ho).
  { destruct (fnc 0) as [v|[]]; cbn; eauto. congruence. }
  rewrite Eo. cbn [run]. rewrite map_map.
  match goal with |- context [all_some (map ?f (seq 1 m))] =>
    rewrite (all_some_map f (fun _ => finish_bcast msg)) end.
  2:{ intros r Hr. apply in_seq in Hr. unfold mpi_fnc_bcast.
      destruct (Nat.eqb_spec r 0); [lia|]. cbn. reflexivity. }
  rewrite map_map, map_seq_const with (x := finish_bcast msg o) by easy.
  subst o. destruct (fnc 0) as [v|e]; cbn [finish_bcast].
  - rewrite <- (map_repeat (@Ret (option T) T) v m). rewrite run_ret. f_equal.
    change (v :: repeat v m) with (repeat v (S m)). now rewrite map_repeat.
  - apply run_raise.
Qed.

Lemma mpi_parse_run {T} n (parse : nat -> res T) (logic : T -> res bool) :
  1 <= n ->
  spmd n (fun rank => mpi_parse rank (parse rank) logic) =
  match parse 0 with
  | Ok a => match logic a with
            | Ok true => Done (repeat (Finished a) n)
            | Ok false | Err SysExit => Done (repeat (Failed SysExit) n)
            | Err e => run (Raise e) (repeat (Bcast None (fun r => match r with
                              | None => Raise SysExit | Some v => Ret v end)) (n - 1))
            end
  | Err SysExit => Done (repeat (Failed SysExit) n)
  | Err e => run (Raise e) (repeat (Bcast None (fun r => match r with
                              | None => Raise SysExit | Some v => Ret v end)) (n - 1))
  end.
Proof.
  intros Hn. destruct n as [|m]; [lia|]. unfold spmd.
  assert (map (fun rank : nat => mpi_parse rank (parse rank) logic) (seq 1 m)
    = repeat (Bcast None (fun r : option T => match r with None => Raise SysExit | Some v => Ret v end)) m) as ->.
  { apply map_seq_const. intros i Hi. unfold mpi_parse. destruct (Nat.eqb_spec i 0); [lia|reflexivity]. }
  replace (S m - 1) with m by lia.
  assert (forall o : option T, run (Bcast o (fun r : option T => match r with None => Raise SysExit | Some v => Ret v end))
    (repeat (Bcast None (fun r : option T => match r with None => Raise SysExit | Some v => Ret v end)) m)
    = match o with Some a => Done (repeat (Finished a) (S m)) | None => Done (repeat (Failed SysExit) (S m)) end) as G.
  { intro o. cbn [run]. rewrite map_repeat. cbn [bcast_k].
    assert (forall (X : Type) (x : X) k, all_some (repeat (Some x) k) = Some (repeat x k)) as As.
    { intros X x k. induction k as [|k IH]; cbn; [easy|]. now rewrite IH. }
    rewrite As, map_repeat. destruct o as [a|].
    - rewrite <- (map_repeat (@Ret (option T) T) a m). rewrite run_ret. f_equal.
      change (a :: repeat a m) with (repeat a (S m)). now rewrite map_repeat.
    - apply run_raise. }
  unfold mpi_parse. cbn [Nat.eqb].
  destruct (parse 0) as [a|[ | |]]; try reflexivity; try apply G.
  destruct (logic a) as [[|]|[ | |]]; try reflexivity; apply G.
Qed.

(** ** C40: input continua *)
Section InputContProof.
Context {S C : Type}.
Variables (sid spix : S -> Z).
Variable argsort2 : list (Z * Z) -> list nat.

(** sorts by pixel first *)
Definition argsort2_ok : Prop :=
  forall l, Permutation (argsort2 l) (seq 0 (length l)) /\
    StronglySorted Z.le (map (fun i => fst (nth i l (0%Z, 0%Z))) (argsort2 l)).
Hypothesis Hsort : argsort2_ok.

Lemma rseq_Forall2 {A B} (f : A -> res B) l r :
  rseq (map f l) = Ok r <-> Forall2 (fun a b => f a = Ok b) l r.
Proof.
  revert r. induction l as [|a l IH]; intro r; cbn.
  - split; [intros [= <-]; constructor|]. intro H; now inversion H.
  - split.
    + destruct (f a) as [b|] eqn:Eb; cbn; [|discriminate].
      destruct (rseq (map f l)) as [r'|] eqn:Er; cbn; [|discriminate].
      intros [= <-]. constructor; [easy|]. now apply IH.
    + intro H. inversion H as [|? b ? r' H1 H2]; subst. rewrite H1. cbn.
      apply IH in H2. now rewrite H2.
Qed.

Lemma nonzero_eqb_spec (common : list Z) t :
  match nonzero (map (fun v => Z.eqb v t) common) with
  | [] => ~ In t common
  | i :: _ => nth_error common i = Some t
  end.
Proof.
  destruct (nonzero (map (fun v => Z.eqb v t) common)) as [|i r] eqn:En.
  - intro H. apply In_nth_error in H. destruct H as [i Hi].
    assert (In i (nonzero (map (fun v => Z.eqb v t) common))) as C1.
    { apply nonzero_spec. rewrite nth_error_map, Hi. cbn. now rewrite Z.eqb_refl. }
    now rewrite En in C1.
  - assert (In i (nonzero (map (fun v => Z.eqb v t) common))) as C1 by (rewrite En; now left).
    apply nonzero_spec in C1. rewrite nth_error_map in C1.
    destruct (nth_error common i) as [v|]; [|discriminate]. cbn in C1. injection C1 as C1.
    apply Z.eqb_eq in C1. now subst.
Qed.

(** The specification of one spectrum. *)
Definition attached_ok (files : Z -> option (contfile C)) (x : S * attached) : Prop :=
  match snd x with
  | Some (w1, dw, c) =>
      exists f i, files (spix (fst x)) = Some f /\ w1 = cf_wave1 f /\ dw = cf_dwave f /\
        nth_error (cf_ids f) i = Some (sid (fst x)) /\ nth_error (cf_cont f) i = Some c
  | None => forall f, files (spix (fst x)) = Some f -> ~ In (sid (fst x)) (cf_ids f)
  end.

Lemma read_continua_group_spec (files : Z -> option (contfile C)) specs r :
  (forall p f, files p = Some f -> cf_wave1 f <> 0%Qc) ->
  (forall a b, In a specs -> In b specs -> spix a = spix b) ->
  read_continua_group sid spix files specs = Ok r ->
  map fst r = specs /\ Forall (attached_ok files) r.
Proof.
  intros Hw Hp H. unfold read_continua_group in H.
  destruct specs as [|s0 rest] eqn:Es; [discriminate|]. rewrite <- Es in *.
  assert (forall s, In s specs -> spix s = spix s0) as Hp0.
  { intros s Hs. apply Hp; [easy|]. rewrite Es. now left. }
  destruct (files (spix s0)) as [f|] eqn:Ef.
  - cbn [read_continua_one_file] in H.
    destruct (Nat.eqb_spec (length (cf_ids f)) (length (cf_cont f))) as [L|L]; cbn [negb] in H; [|discriminate].
    destruct (take_idx (cf_cont f) (map (fun x => snd (fst x)) (intersect1d (cf_ids f) (map sid specs)))) as [conts|] eqn:Et;
      cbn [of_option rmap rbind] in H; [|discriminate].
    specialize (Hw _ _ Ef). destruct (qeqb (cf_wave1 f) 0) eqn:E0; [apply qeqb_true in E0; easy|].
    apply rseq_Forall2 in H.
    set (common := map (fun x => fst (fst x)) (intersect1d (cf_ids f) (map sid specs))) in *.
    assert (common = filter (fun v => zmem v (map sid specs)) (np_unique (cf_ids f))) as Ec.
    { unfold common, intersect1d. rewrite map_map. cbn. apply map_id. }
    assert (forall k t, nth_error common k = Some t -> exists i c, nth_error (cf_ids f) i = Some t /\
       nth_error (cf_cont f) i = Some c /\ nth_error conts k = Some c) as Hk.
    { intros k t Hk. unfold intersect1d in Et. rewrite map_map in Et. cbn in Et. rewrite <- Ec in Et.
      assert (nth_error (map (fun v => index_of v (cf_ids f)) common) k = Some (index_of t (cf_ids f))) as Hk'
        by now apply (map_nth_error (fun v => index_of v (cf_ids f))).
      pose proof (take_idx_nth_error _ _ _ _ _ Et Hk') as Hc.
      assert (In t (cf_ids f)) as Hin.
      { apply nth_error_In in Hk. rewrite Ec in Hk. apply filter_In in Hk. now rewrite np_unique_In in Hk. }
      pose proof (index_of_nth _ _ Hin) as Hi. pose proof (index_of_lt _ _ Hin) as Hl.
      destruct (nth_error (cf_cont f) (index_of t (cf_ids f))) as [c|] eqn:E1.
      - eauto.
      - apply nth_error_None in E1. lia. }
    assert (forall s y, In s specs -> find_append_one sid (cf_wave1 f) (cf_dwave f) common conts s = Ok y ->
       fst y = s /\ attached_ok files y) as Hone.
    { intros s y Hs Hy. unfold find_append_one in Hy.
      pose proof (nonzero_eqb_spec common (sid s)) as Hz.
      destruct (nonzero (map (fun t => Z.eqb t (sid s)) common)) as [|k ?].
      - injection Hy as <-. split; [easy|]. unfold attached_ok. cbn.
        rewrite (Hp0 _ Hs). intros f' Ef' Hin. rewrite Ef in Ef'. injection Ef' as <-.
        apply Hz. rewrite Ec. apply filter_In. split; [now rewrite np_unique_In|].
        apply zmem_In. now apply in_map.
      - destruct (Hk _ _ Hz) as (i & c & G1 & G2 & G3). rewrite G3 in Hy. cbn in Hy. injection Hy as <-.
        split; [easy|]. unfold attached_ok. cbn. rewrite (Hp0 _ Hs). exists f, i. auto. }
    assert (forall l r, Forall2 (fun a b => find_append_one sid (cf_wave1 f) (cf_dwave f) common conts a = Ok b) l r ->
       (forall s, In s l -> In s specs) -> map fst r = l /\ Forall (attached_ok files) r) as G.
    { clear -Hone. induction 1 as [|s y l r H1 H IH]; intro Hin; cbn; [easy|].
      destruct (Hone s y (Hin _ (or_introl eq_refl)) H1) as [G1 G2].
      destruct IH as [G3 G4]; [intros; apply Hin; now right|].
      split; [congruence|]. constructor; easy. }
    apply G; [exact H|easy].
  - cbn [read_continua_one_file rbind] in H. rewrite qeqb_refl in H. injection H as <-.
    rewrite map_map. cbn. rewrite map_id. split; [easy|].
    apply Forall_forall. intros x Hx. apply in_map_iff in Hx. destruct Hx as (s & <- & Hs).
    unfold attached_ok. cbn. rewrite (Hp0 _ Hs), Ef. discriminate.
Qed.

(** when every readable file has as many continua as fibermap rows nothing fails *)
Lemma read_continua_group_total (files : Z -> option (contfile C)) specs :
  (forall p f, files p = Some f -> length (cf_ids f) = length (cf_cont f)) ->
  specs <> [] -> exists r, read_continua_group sid spix files specs = Ok r.
Proof.
  intros HL Hne. unfold read_continua_group. destruct specs as [|s0 rest] eqn:Es; [easy|].
  rewrite <- Es. clear Es Hne.
  destruct (files (spix s0)) as [f|] eqn:Ef; cbn [read_continua_one_file].
  2:{ cbn [rbind]. rewrite qeqb_refl. eauto. }
  specialize (HL _ _ Ef). rewrite HL, Nat.eqb_refl. cbn [negb].
  destruct (take_idx_total (cf_cont f) (map (fun x => snd (fst x)) (intersect1d (cf_ids f) (map sid specs)))) as [conts Et].
  { intros i Hi. apply in_map_iff in Hi. destruct Hi as ([[v a] b] & <- & Hi). cbn.
    unfold intersect1d in Hi. apply in_map_iff in Hi. destruct Hi as (v' & [= -> <- <-] & Hi).
    apply filter_In in Hi. destruct Hi as [Hi _]. rewrite np_unique_In in Hi. rewrite <- HL.
    now apply index_of_lt. }
  rewrite Et. cbn [of_option rmap rbind]. destruct (qeqb _ _); [eauto|].
  set (common := map (fun x => fst (fst x)) (intersect1d (cf_ids f) (map sid specs))).
  assert (length common = length conts) as Lc.
  { apply take_idx_length in Et. unfold common. rewrite map_length in *. congruence. }
  generalize specs. intro l. clear -Lc. induction l as [|s l [r IH]]; cbn; [eauto|].
  unfold find_append_one at 1.
  pose proof (nonzero_eqb_spec common (sid s)) as Hz.
  destruct (nonzero (map (fun t => Z.eqb t (sid s)) common)) as [|k ?].
  - cbn. rewrite IH. cbn. eauto.
  - destruct (nth_error conts k) as [c|] eqn:Ek.
    + cbn. rewrite IH. cbn. eauto.
    + apply nth_error_None in Ek. assert (nth_error common k <> None) as C1 by congruence.
      apply nth_error_Some in C1. lia.
Qed.

Lemma read_continua_spec (files : Z -> option (contfile C)) specs :
  (forall p f, files p = Some f -> cf_wave1 f <> 0%Qc /\ length (cf_ids f) = length (cf_cont f)) ->
  specs <> [] ->
  exists r, read_continua sid spix argsort2 files specs = Ok r /\
    Permutation (map fst r) specs /\ Forall (attached_ok files) r.
Proof.
  intros Hf Hne. unfold read_continua. destruct specs as [|s0 rest] eqn:Es; [easy|].
  rewrite <- Es in *. clear Es.
  destruct (Hsort (map (fun s => (spix s, sid s)) specs)) as [P Ss]. rewrite map_length in P.
  destruct (take_idx_permutation specs _ P) as (sp & Esp & Psp). rewrite Esp. cbn [of_option rbind].
  assert (StronglySorted (fun a b => (spix a <= spix b)%Z) sp) as Hss.
  { apply (StronglySorted_map spix Z.le).
    assert (map (fun i => fst (nth i (map (fun s => (spix s, sid s)) specs) (0%Z, 0%Z)))
              (argsort2 (map (fun s => (spix s, sid s)) specs)) = map spix sp) as <-; [|easy].
    apply take_idx_spec in Esp. clear -Esp. induction Esp as [|i x idx r H Hr IH]; cbn; [easy|].
    f_equal; [|easy]. erewrite nth_error_nth; [|apply map_nth_error; exact H]. reflexivity. }
  assert (sp <> []) as Hsp.
  { intros ->. apply Permutation_nil in Psp. easy. }
  destruct (split_by_key_grouped spix sp Hss Hsp) as (G1 & G2 & _).
  set (gs := split_by_key spix sp) in *.
  assert (exists rs, rseq (map (read_continua_group sid spix files) gs) = Ok rs /\
    map fst (concat rs) = concat gs /\ Forall (attached_ok files) (concat rs)) as (rs & E1 & E2 & E3).
  { clearbody gs. clear G1. induction G2 as [|g gs' [Hg Hk] Hgs IH]; cbn.
    { exists []. cbn. auto. }
    destruct (read_continua_group_total files g) as [r Er]; [intros; now apply (Hf p)|easy|].
    destruct IH as (rs & E1 & E2 & E3). rewrite Er, E1. cbn. exists (r :: rs).
    destruct (read_continua_group_spec files g r) as [F1 F2]; auto.
    { intros; now apply (Hf p). }
    split; [easy|]. cbn. rewrite map_app, F1, E2. split; [easy|]. now apply Forall_app. }
  rewrite E1. cbn [rmap]. exists (concat rs). split; [easy|]. split; [|easy].
  rewrite E2, G1. easy.
Qed.
End InputContProof.
