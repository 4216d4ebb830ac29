(** Proofs about the catalog and its distribution over ranks. *)
From Coq Require Import String ZArith List Bool Arith Lia Permutation Sorting.Sorted Qcanon.
From Verif Require Import Num Exn NpList NpListFacts ProofGroup ProofBalance Mpi
  ModelMpiUtils ModelCatalog SpecCatalog.
Import ListNotations.
Local Open Scope nat_scope.

Lemma smem_In s l : smem s l = true <-> In s l.
Proof.
  unfold smem. rewrite existsb_exists. split.
  - intros (x & Hx & E). apply String.eqb_eq in E. now subst.
  - intro H. exists s. split; [easy|]. apply String.eqb_refl.
Qed.
Lemma check_required_columns_spec req cols :
  check_required_columns req cols = true <-> has_columns req cols.
Proof.
  unfold check_required_columns, has_columns. rewrite forallb_forall.
  split; intros H a Ha; specialize (H a Ha).
  - apply existsb_exists in H. destruct H as (c & Hc & E). exists c. split; [easy|now apply smem_In].
  - apply existsb_exists. destruct H as (c & Hc & E). exists c. split; [easy|now apply smem_In].
Qed.

(** sizes of duplicate free lists *)
Lemma insert_uniq_length v l : length (insert_uniq v l) <= S (length l).
Proof.
  induction l as [|x l IH]; cbn; [lia|].
  destruct (Z.ltb v x); cbn; [lia|]. destruct (Z.eqb v x); cbn; lia.
Qed.
Lemma np_unique_length_le l : length (np_unique l) <= length l.
Proof.
  induction l as [|x l IH]; cbn; [lia|]. fold (np_unique l).
  pose proof (insert_uniq_length x (np_unique l)). lia.
Qed.
Lemma np_unique_NoDup l : NoDup (np_unique l).
Proof. apply StronglySorted_lt_NoDup, np_unique_sorted. Qed.
Lemma np_unique_size l : length l = length (np_unique l) <-> NoDup l.
Proof.
  split; intro H.
  - apply NoDup_incl_NoDup with (l := np_unique l).
    + apply np_unique_NoDup.
    + lia.
    + intros v Hv. now apply np_unique_In.
  - apply Permutation_length. apply NoDup_Permutation; [easy|apply np_unique_NoDup|].
    intro v. now rewrite np_unique_In.
Qed.

Lemma pair_uniq_In p l : In p (pair_uniq l) <-> In p l.
Proof.
  induction l as [|q l IH]; cbn; [easy|].
  destruct (existsb _ l) eqn:E; cbn; rewrite IH; [|easy].
  split; [now right|]. intros [<-|H]; [|easy].
  apply existsb_exists in E. destruct E as (x & Hx & E).
  apply andb_prop in E. destruct E as [E1 E2]. apply Z.eqb_eq in E1, E2.
  destruct q, x; cbn in *; subst. easy.
Qed.
Lemma pair_uniq_NoDup l : NoDup (pair_uniq l).
Proof.
  induction l as [|q l IH]; cbn; [constructor|].
  destruct (existsb _ l) eqn:E; [easy|]. constructor; [|easy].
  rewrite pair_uniq_In. intro H.
  assert (existsb (fun q0 => Z.eqb (fst q) (fst q0) && Z.eqb (snd q) (snd q0)) l = true); [|congruence].
  apply existsb_exists. exists q. split; [easy|]. now rewrite !Z.eqb_refl.
Qed.
Lemma pair_uniq_size l : length l = length (pair_uniq l) <-> NoDup l.
Proof.
  split; intro H.
  - apply NoDup_incl_NoDup with (l := pair_uniq l).
    + apply pair_uniq_NoDup.
    + lia.
    + intros v Hv. now apply pair_uniq_In.
  - apply Permutation_length. apply NoDup_Permutation; [easy|apply pair_uniq_NoDup|].
    intro v. now rewrite pair_uniq_In.
Qed.

Lemma validate_spec c is_mock is_tile :
  (columns_ok is_mock is_tile (colnames c) /\ unique_ids is_tile (rows c) /\
   validate_adjust_column_names c is_mock is_tile = Ok c) \/
  (~ (columns_ok is_mock is_tile (colnames c) /\ unique_ids is_tile (rows c)) /\
   exists m, validate_adjust_column_names c is_mock is_tile = Err (OtherExn m)).
Proof.
  unfold validate_adjust_column_names, columns_ok.
  destruct (check_required_columns required_columns (colnames c)) eqn:E1; cbn [negb].
  2:{ right. split; [|eauto]. intros [[H _] _]. apply check_required_columns_spec in H. congruence. }
  destruct (check_required_columns required_data_columns (colnames c)) eqn:E2.
  2:{ destruct is_mock; cbn [negb andb].
      - destruct (check_required_columns required_tile_columns (colnames c)) eqn:E3.
        2:{ destruct is_tile; cbn [negb andb].
            - right. split; [|eauto]. intros [(_ & _ & H) _]. specialize (H eq_refl).
              apply check_required_columns_spec in H. congruence.
            - destruct (Nat.eqb_spec (length (rows c)) (length (np_unique (map TARGETID (rows c))))) as [E|E]; cbn [negb andb].
              + left. apply check_required_columns_spec in E1. repeat split; try easy.
                cbn. apply np_unique_size. now rewrite map_length.
              + right. split; [|eauto]. intros [_ H]. cbn in H. apply np_unique_size in H.
                rewrite map_length in H. easy. }
        rewrite andb_false_r. apply check_required_columns_spec in E1, E3.
        destruct is_tile; cbn [negb andb].
        + destruct (Nat.eqb_spec (length (rows c)) (length (pair_uniq (map (fun r => (TARGETID r, TILEID r)) (rows c))))) as [E|E]; cbn [negb andb].
          * left. repeat split; try easy. cbn. apply pair_uniq_size. now rewrite map_length.
          * right. split; [|eauto]. intros [_ H]. cbn in H. apply pair_uniq_size in H.
            rewrite map_length in H. easy.
        + destruct (Nat.eqb_spec (length (rows c)) (length (np_unique (map TARGETID (rows c))))) as [E|E]; cbn [negb andb].
          * left. repeat split; try easy. cbn. apply np_unique_size. now rewrite map_length.
          * right. split; [|eauto]. intros [_ H]. cbn in H. apply np_unique_size in H.
            rewrite map_length in H. easy.
      - right. split; [|eauto]. intros [(_ & H & _) _]. specialize (H eq_refl).
        apply check_required_columns_spec in H. congruence. }
  rewrite andb_false_r.
  destruct (check_required_columns required_tile_columns (colnames c)) eqn:E3.
  2:{ destruct is_tile; cbn [negb andb].
      - right. split; [|eauto]. intros [(_ & _ & H) _]. specialize (H eq_refl).
        apply check_required_columns_spec in H. congruence.
      - apply check_required_columns_spec in E1, E2.
        destruct (Nat.eqb_spec (length (rows c)) (length (np_unique (map TARGETID (rows c))))) as [E|E]; cbn [negb andb].
        + left. repeat split; try easy. cbn. apply np_unique_size. now rewrite map_length.
        + right. split; [|eauto]. intros [_ H]. cbn in H. apply np_unique_size in H.
          rewrite map_length in H. easy. }
  rewrite andb_false_r. apply check_required_columns_spec in E1, E2, E3.
  destruct is_tile; cbn [negb andb].
  + destruct (Nat.eqb_spec (length (rows c)) (length (pair_uniq (map (fun r => (TARGETID r, TILEID r)) (rows c))))) as [E|E]; cbn [negb andb].
    * left. repeat split; try easy. cbn. apply pair_uniq_size. now rewrite map_length.
    * right. split; [|eauto]. intros [_ H]. cbn in H. apply pair_uniq_size in H.
      rewrite map_length in H. easy.
  + destruct (Nat.eqb_spec (length (rows c)) (length (np_unique (map TARGETID (rows c))))) as [E|E]; cbn [negb andb].
    * left. repeat split; try easy. cbn. apply np_unique_size. now rewrite map_length.
    * right. split; [|eauto]. intros [_ H]. cbn in H. apply np_unique_size in H.
      rewrite map_length in H. easy.
Qed.

Lemma z_filter_spec zmin zmax r :
  nleb (Fin zmin) (row_z r) && nleb (row_z r) (Fin zmax) = true <-> z_selected zmin zmax r.
Proof.
  unfold z_selected. destruct (row_z r) as [z| | |].
  - rewrite !nleb_fin, andb_true_iff, !qleb_true. split.
    + intros [H1 H2]. eauto.
    + intros (z' & [= <-] & H1 & H2). easy.
  - split; [easy|]. intros (z & E & _). discriminate.
  - split; [easy|]. intros (z & E & _). discriminate.
  - split; [easy|]. intros (z & E & _). discriminate.
Qed.

Lemma lexleb_lex_lt keys a b :
  lexleb keys a b = true -> (exists k, In k keys /\ k a <> k b) -> lex_lt keys a b.
Proof.
  induction keys as [|k ks IH]; cbn; intros H (k' & Hk & Hne); [easy|].
  destruct (Z.ltb_spec (k a) (k b)); [now left|].
  destruct (Z.eqb_spec (k a) (k b)) as [E|E]; [|easy].
  right. split; [easy|]. apply IH; [easy|].
  destruct Hk as [<-|Hk]; [easy|]. eauto.
Qed.

(** sorted + distinct on some of the key columns -> strictly sorted *)
Lemma StronglySorted_strict (keys : list (row -> Z)) l :
  StronglySorted (fun a b => lexleb keys a b = true) l ->
  ForallOrdPairs (fun a b => exists k, In k keys /\ k a <> k b) l ->
  StronglySorted (lex_lt keys) l.
Proof.
  induction 1 as [|x l Hs IH Hf]; intro H; [constructor|].
  inversion H as [|? ? H1 H2]; subst. constructor; [auto|].
  rewrite Forall_forall in *. intros y Hy. apply lexleb_lex_lt; auto.
Qed.
Lemma NoDup_map_pairs {A B} (f : A -> B) l :
  NoDup (map f l) -> ForallOrdPairs (fun a b => f a <> f b) l.
Proof.
  induction l as [|x l IH]; cbn; intro H; [constructor|].
  inversion H as [|? ? H1 H2]; subst. constructor; [|auto].
  apply Forall_forall. intros y Hy E. apply H1. rewrite E. now apply in_map.
Qed.
Lemma FOP_impl {A} (P Q : A -> A -> Prop) l :
  (forall a b, P a b -> Q a b) -> ForallOrdPairs P l -> ForallOrdPairs Q l.
Proof.
  intros H. induction 1; constructor; auto. eapply Forall_impl; [|eassumption]. auto.
Qed.
Lemma NoDup_map_filter {A B} (f : A -> B) p l : NoDup (map f l) -> NoDup (map f (filter p l)).
Proof.
  induction l as [|x l IH]; cbn; intro H; [constructor|].
  inversion H as [|? ? H1 H2]; subst. destruct (p x); cbn; [|auto].
  constructor; [|auto]. intro C. apply H1. apply in_map_iff in C.
  destruct C as (y & E & Hy). apply filter_In in Hy. apply in_map_iff. exists y. easy.
Qed.
Lemma NoDup_Permutation_map {A B} (f : A -> B) l1 l2 :
  Permutation l1 l2 -> NoDup (map f l1) -> NoDup (map f l2).
Proof. intros P. apply Permutation_NoDup. now apply Permutation_map. Qed.

Section Cat.
Variable ang2pix : Z -> num -> num -> Z.

(** the pixel the HPXPIXEL column holds after priming *)
Definition pixel_of (cols : list string) (n_side : Z) (r : row) : Z :=
  if smem "HPXPIXEL" cols then HPXPIXEL r else ang2pix n_side (row_ra r) (row_dec r).

Definition expected_order (cols : list string) (keep : option (list Z)) (is_tile : bool)
  : list (row -> Z) := sort_order (smem "SURVEY" cols) keep is_tile.

Definition selected_b (cols : list string) (keep : option (list Z)) (zmin zmax : Qc) (r : row) : bool :=
  (nleb (Fin zmin) (row_z r) && nleb (row_z r) (Fin zmax)) &&
  match keep with
  | Some ks => if smem "SURVEY" cols then zmem (SURVEY r) ks else true
  | None => true
  end.
Lemma selected_b_spec cols keep zmin zmax r :
  selected_b cols keep zmin zmax r = true <->
  z_selected zmin zmax r /\ survey_selected cols keep r.
Proof.
  unfold selected_b. rewrite andb_true_iff, z_filter_spec.
  unfold survey_selected. destruct keep as [ks|]; [|easy].
  destruct (smem "SURVEY" cols) eqn:E.
  - rewrite zmem_In. apply smem_In in E. intuition.
  - assert (~ In "SURVEY"%string cols) by (rewrite <- smem_In; congruence). intuition.
Qed.

Lemma filter_filter {A} (p q : A -> bool) l :
  filter q (filter p l) = filter (fun x => p x && q x) l.
Proof.
  induction l as [|x l IH]; cbn; [easy|].
  destruct (p x); cbn; [destruct (q x)|]; now rewrite IH.
Qed.

Lemma prime_catalog_spec c n_side keep zmin zmax is_tile :
  let sel := filter (selected_b (colnames c) keep zmin zmax) (rows c) in
  let out := map (fun r => set_hpx (pixel_of (colnames c) n_side r) r) sel in
  rmap rows (prime_catalog ang2pix c n_side keep (Fin zmin) (Fin zmax) is_tile) =
  if Nat.eqb (length sel) 0 then Err (OtherExn "Empty quasar catalogue.")
  else Ok (isort (lexleb (expected_order (colnames c) keep is_tile)) out).
Proof.
  cbn zeta. unfold prime_catalog, expected_order.
  set (rs1 := filter (fun r => nleb (Fin zmin) (row_z r) && nleb (row_z r) (Fin zmax)) (rows c)).
  assert (match keep with
          | Some ks => if smem "SURVEY" (colnames c) then filter (fun r => zmem (SURVEY r) ks) rs1 else rs1
          | None => rs1
          end = filter (selected_b (colnames c) keep zmin zmax) (rows c)) as ->.
  { unfold rs1, selected_b. destruct keep as [ks|].
    - destruct (smem "SURVEY" (colnames c)).
      + apply filter_filter.
      + apply filter_ext. intro. now rewrite andb_true_r.
    - apply filter_ext. intro. now rewrite andb_true_r. }
  destruct (Nat.eqb _ 0); [easy|]. cbn [rmap]. f_equal.
  unfold add_healpix, pixel_of. destruct (smem "HPXPIXEL" (colnames c)); cbn [rows colnames].
  - f_equal. rewrite <- (map_id (filter _ _)) at 1. apply map_ext. intros []. reflexivity.
  - reflexivity.
Qed.

Lemma read_quasar_catalog_spec file is_mock is_tile keep zmin zmax l :
  read_quasar_catalog ang2pix file is_mock is_tile keep (Fin zmin) (Fin zmax) = Ok l ->
  exists c, file = Ok c /\ columns_ok is_mock is_tile (colnames c) /\ unique_ids is_tile (rows c) /\
    l <> [] /\
    Permutation l (map (fun r => set_hpx (pixel_of (colnames c) (if is_mock then 16 else 64)%Z r) r)
                    (filter (selected_b (colnames c) keep zmin zmax) (rows c))) /\
    StronglySorted (lex_lt (expected_order (colnames c) keep is_tile)) l /\
    unique_ids is_tile l.
Proof.
  unfold read_quasar_catalog. destruct file as [c|e]; cbn [rbind]; [|discriminate].
  destruct (validate_spec c is_mock is_tile) as [(Hc & Hu & E)|(Hn & m & E)];
    rewrite E; cbn [rbind]; [|discriminate].
  rewrite prime_catalog_spec.
  destruct (Nat.eqb_spec (length (filter (selected_b (colnames c) keep zmin zmax) (rows c))) 0) as [E0|E0];
    [discriminate|].
  intros [= El]. exists c. split; [easy|]. split; [easy|]. split; [easy|].
  match type of El with isort _ ?X = _ => set (m := X) in El; change X with m end.
  assert (Permutation l m) as Hp by (subst l; apply isort_perm).
  assert (unique_ids is_tile m) as Hum.
  { unfold m, unique_ids in *. destruct is_tile; rewrite map_map; cbn.
    - now apply NoDup_map_filter.
    - now apply NoDup_map_filter. }
  assert (unique_ids is_tile l) as Hul.
  { unfold unique_ids in *. destruct is_tile; (apply (NoDup_Permutation_map _ m l); [symmetry; exact Hp|exact Hum]). }
  split; [|split; [easy|split; [|easy]]].
  - intros ->. apply Permutation_length in Hp. unfold m in Hp. rewrite map_length in Hp.
    cbn in Hp. lia.
  - apply StronglySorted_strict; [subst l; apply isort_lex_sorted|].
    unfold unique_ids in Hul. unfold expected_order, sort_order.
    destruct is_tile.
    + apply NoDup_map_pairs in Hul. eapply FOP_impl; [|exact Hul]. cbn.
      intros a b Hab. destruct (Z.eq_dec (TARGETID a) (TARGETID b)) as [E1|E1].
      * exists TILEID. split; [auto|]. intro. apply Hab. congruence.
      * exists TARGETID. auto.
    + apply NoDup_map_pairs in Hul. eapply FOP_impl; [|exact Hul]. cbn.
      intros a b Hab. exists TARGETID. split; [|easy].
      destruct keep as [ks|]; [destruct (smem _ _ && _)|]; cbn; auto.
Qed.

Lemma read_quasar_catalog_Ok_iff file is_mock is_tile keep zmin zmax :
  (exists l, read_quasar_catalog ang2pix file is_mock is_tile keep (Fin zmin) (Fin zmax) = Ok l) <->
  exists c, file = Ok c /\ columns_ok is_mock is_tile (colnames c) /\ unique_ids is_tile (rows c) /\
    exists r, In r (rows c) /\ z_selected zmin zmax r /\ survey_selected (colnames c) keep r.
Proof.
  split.
  - intros (l & H). pose proof (read_quasar_catalog_spec _ _ _ _ _ _ _ H) as (c & E & Hc & Hu & Hl & P & _).
    exists c. split; [easy|]. split; [easy|]. split; [easy|].
    destruct (filter (selected_b (colnames c) keep zmin zmax) (rows c)) as [|r rs] eqn:Ef.
    + cbn in P. apply Permutation_sym, Permutation_nil in P. easy.
    + assert (In r (filter (selected_b (colnames c) keep zmin zmax) (rows c))) as Hr
        by (rewrite Ef; now left).
      apply filter_In in Hr. destruct Hr as [Hr Hs]. exists r. split; [easy|].
      now apply selected_b_spec.
  - intros (c & -> & Hc & Hu & r & Hr & Hs). unfold read_quasar_catalog. cbn [rbind].
    destruct (validate_spec c is_mock is_tile) as [(_ & _ & E)|(Hn & m & E)];
      [|exfalso; apply Hn; now split].
    rewrite E. cbn [rbind]. rewrite prime_catalog_spec.
    destruct (Nat.eqb_spec (length (filter (selected_b (colnames c) keep zmin zmax) (rows c))) 0) as [E0|E0];
      [|eauto].
    exfalso. assert (In r (filter (selected_b (colnames c) keep zmin zmax) (rows c))) as C.
    { apply filter_In. split; [easy|]. now apply selected_b_spec. }
    destruct (filter _ _); [easy|discriminate].
Qed.
(** never SystemExit or QsonicException *)
Lemma read_quasar_catalog_err file is_mock is_tile keep zmin zmax e :
  read_quasar_catalog ang2pix file is_mock is_tile keep zmin zmax = Err e ->
  file = Err e \/ exists m, e = OtherExn m.
Proof.
  unfold read_quasar_catalog. destruct file as [c|e']; cbn [rbind].
  2:{ intros [= ->]. now left. }
  destruct (validate_spec c is_mock is_tile) as [(_ & _ & E)|(_ & m & E)]; rewrite E; cbn [rbind].
  - unfold prime_catalog. destruct (Nat.eqb _ 0); cbn [rmap]; [|discriminate].
    intros [= <-]. right. eauto.
  - intros [= <-]. right. eauto.
Qed.

(** ** distribution *)
Definition group_key (is_tile : bool) : row -> Z := if is_tile then TILEID else HPXPIXEL.

Lemma sorted_by_group cols keep is_tile l :
  StronglySorted (lex_lt (expected_order cols keep is_tile)) l ->
  StronglySorted (fun a b => (group_key is_tile a <= group_key is_tile b)%Z) l.
Proof.
  apply StronglySorted_impl. intros a b _ _. unfold expected_order, sort_order, group_key.
  destruct is_tile; cbn; [lia|].
  destruct keep as [ks|]; [destruct (smem _ _ && _)|]; cbn; lia.
Qed.

Lemma map_assign {A} (f : Z -> list A) (assign : list Z) qs :
  Permutation (concat qs) (map f assign) ->
  exists assign', Permutation (concat assign') assign /\ qs = map (map f) assign'.
Proof.
  revert assign. induction qs as [|q qs IH]; intros assign P; cbn in P.
  - apply Permutation_nil in P. destruct assign; [|discriminate]. exists []. now split.
  - apply Permutation_map_inv in P.
    destruct P as (l3 & E & P).
    symmetry in E. apply map_eq_app in E. destruct E as (a1 & a2 & -> & E1 & E2).
    destruct (IH a2) as (as' & P' & Eq); [rewrite E2; reflexivity|].
    exists (a1 :: as'). cbn. split; [|now rewrite E1, Eq].
    rewrite P'. now symmetry.
Qed.

Lemma make_queues_spec cat is_tile n :
  1 <= n -> cat <> [] ->
  StronglySorted (fun a b => (group_key is_tile a <= group_key is_tile b)%Z) cat ->
  exists assign, length assign = n /\
    assigns_each_once (group_key is_tile) cat assign /\
    make_queues is_tile n cat
    = map (map (fun k => filter (fun r => Z.eqb (group_key is_tile r) k) cat)) assign.
Proof.
  intros Hn Hne Hs. unfold make_queues.
  change (if is_tile then TILEID else HPXPIXEL) with (group_key is_tile).
  rewrite (split_by_key_filter (group_key is_tile) cat Hs Hne).
  destruct (balance_load_permutation
    (map (with_key (group_key is_tile) cat) (np_unique (map (group_key is_tile) cat))) n Hn) as [L P].
  destruct (map_assign _ _ _ P) as (assign & P' & E).
  exists assign. split; [rewrite E, map_length in L; easy|].
  split; [|exact E]. split.
  - eapply Permutation_NoDup; [symmetry; exact P'|]. apply np_unique_NoDup.
  - intro k. split; intro H.
    + eapply Permutation_in in H; [|exact P']. rewrite np_unique_In in H.
      apply in_map_iff in H. destruct H as (r & E' & H). eauto.
    + eapply Permutation_in; [symmetry; exact P'|]. rewrite np_unique_In.
      destruct H as (r & H & E'). apply in_map_iff. eauto.
Qed.

Lemma concat_map_concat {A B} (f : A -> list B) (ll : list (list A)) :
  concat (concat (map (map f) ll)) = concat (map f (concat ll)).
Proof.
  induction ll as [|l ll IH]; [easy|]. cbn [map concat].
  now rewrite map_app, !concat_app, IH.
Qed.

Lemma assigned_rows_perm key (cat : list row) assign :
  assigns_each_once key cat assign ->
  Permutation (concat (concat (map (map (fun k => filter (fun r => Z.eqb (key r) k) cat)) assign))) cat.
Proof.
  intros [Hn Hk]. rewrite concat_map_concat.
  apply (with_key_perm key cat (concat assign) Hn).
  intros a Ha. apply Hk. eauto.
Qed.

(** ** running on n ranks *)
Lemma all_some_map {A B} (f : A -> option B) g l :
  (forall x, In x l -> f x = Some (g x)) -> all_some (map f l) = Some (map g l).
Proof.
  induction l as [|x l IH]; intro H; cbn; [easy|].
  rewrite (H x (or_introl eq_refl)), IH; [easy|]. intros; apply H; now right.
Qed.

Lemma final_all {V A} (p0 : prog V A) ps (f : prog V A -> ending A) :
  (forall p, In p (p0 :: ps) -> ending_of p = Some (f p)) -> final (p0 :: ps) = Done (map f (p0 :: ps)).
Proof.
  intro H. unfold final. rewrite (all_some_map ending_of f); auto.
Qed.

Lemma run_ret {V A} (l : list A) a : run (V := V) (Ret a) (map Ret l) = Done (map Finished (a :: l)).
Proof.
  unfold run. unfold final. change (Ret a :: map Ret l) with (map (@Ret V A) (a :: l)).
  rewrite map_map. cbn [ending_of].
  rewrite (all_some_map (fun x => Some (Finished x)) Finished); auto.
Qed.
Lemma run_raise {V A} n e : run (V := V) (A := A) (Raise e) (repeat (Raise e) n)
  = Done (repeat (Failed e) (S n)).
Proof.
  unfold run, final.
  change (Raise e :: repeat (Raise e) n) with (repeat (@Raise V A e) (S n)).
  generalize (S n) as m. intro m.
  assert (all_some (map ending_of (repeat (@Raise V A e) m)) = Some (repeat (Failed e) m)) as ->; [|easy].
  induction m as [|m IH]; cbn; [easy|]. now rewrite IH.
Qed.

Lemma map_seq_const {A} (f : nat -> A) x s n :
  (forall i, s <= i < s + n -> f i = x) -> map f (seq s n) = repeat x n.
Proof.
  revert s; induction n as [|n IH]; intros s H; cbn; [easy|].
  rewrite (H s) by lia. f_equal. apply IH. intros; apply H; lia.
Qed.

Lemma combine_const {A B V} (k : V -> B) (g : A -> V) (f : A -> B) s m (qs : list A) :
  length qs = m -> (forall q, k (g q) = f q) ->
  map (fun kv : (V -> B) * V => fst kv (snd kv)) (combine (map (fun _ => k) (seq s m)) (map g qs))
  = map f qs.
Proof.
  intros L H. revert s m L. induction qs as [|q qs IH]; intros s m L; destruct m as [|m];
    try discriminate; cbn; [easy|]. rewrite H. f_equal. apply IH. now injection L.
Qed.

Lemma mpi_get_local_queue_run file n is_mock is_tile keep zmin zmax :
  1 <= n -> file <> Err SysExit ->
  spmd n (fun rank => mpi_get_local_queue ang2pix file true rank n is_mock is_tile keep zmin zmax) =
  match read_quasar_catalog ang2pix file is_mock is_tile keep zmin zmax with
  | Ok cat => Done (map Finished (make_queues is_tile n cat))
  | Err _ => Done (repeat (Failed (QsonicExn "Error while reading catalog.")) n)
  end.
Proof.
  intros Hn Hsys. destruct n as [|m]; [lia|]. unfold spmd.
  unfold mpi_get_local_queue at 1. cbn [Nat.eqb].
  destruct (read_quasar_catalog ang2pix file is_mock is_tile keep zmin zmax) as [cat|e] eqn:Er.
  - cbn [negb run]. rewrite map_map.
    match goal with |- context [all_some (map ?f (seq 1 m))] =>
      rewrite (all_some_map f (fun _ => fun v => match v with
        | VStatus true => Scatter None (fun v => match v with VQueue q => Ret q
                                      | VStatus _ => Raise (OtherExn "impossible") end)
        | VStatus false => Raise (QsonicExn "Error while reading catalog.")
        | VQueue _ => Raise (OtherExn "impossible") end)) end.
    2:{ intros r Hr. apply in_seq in Hr. unfold mpi_get_local_queue.
        destruct (Nat.eqb_spec r 0); [lia|]. cbn. reflexivity. }
    rewrite map_map. cbn [run].
    destruct (balance_load_permutation
      (split_by_key (if is_tile then TILEID else HPXPIXEL) cat) (S m) Hn) as [L _].
    fold (make_queues is_tile (S m) cat) in L.
    destruct (make_queues is_tile (S m) cat) as [|q0 qs]; [discriminate|].
    cbn in L. injection L as L. cbn [map]. rewrite map_map. cbn [scatter_k].
    rewrite (all_some_map _ (fun _ => fun v : qval => match v with VQueue q => Ret q
                                      | VStatus _ => Raise (OtherExn "impossible") end));
      [|easy].
    rewrite !map_length, seq_length, L, Nat.eqb_refl.
    set (ks := map _ (seq 1 m)).
    assert (map (fun kv : (qval -> prog qval (list (list row))) * qval => fst kv (snd kv))
              (combine ks (map VQueue qs)) = map Ret qs) as ->.
    { subst ks. apply (combine_const (fun v : qval => match v with VQueue q => Ret q
         | VStatus _ => Raise (OtherExn "impossible") end) VQueue); [easy|]. intros; reflexivity. }
    apply run_ret.
  - assert (e <> SysExit) as He.
    { destruct (read_quasar_catalog_err _ _ _ _ _ _ _ Er) as [H|[s H]]; congruence. }
    assert (run (V := qval)
     (Bcast (VStatus false)
        (fun v : qval =>
         match v with
         | VStatus true => Scatter None
               (fun v0 : qval => match v0 with VStatus _ => Raise (OtherExn "impossible") | VQueue q => Ret q end)
         | VStatus false => Raise (QsonicExn "Error while reading catalog.")
         | VQueue _ => Raise (OtherExn "impossible")
         end))
     (map (fun rank : nat => mpi_get_local_queue ang2pix file true rank (S m) is_mock is_tile keep zmin zmax) (seq 1 m))
     = Done (repeat (Failed (A := list (list row)) (QsonicExn "Error while reading catalog.")) (S m))) as G.
    { cbn [run]. rewrite map_map.
      match goal with |- context [all_some (map ?f (seq 1 m))] =>
        rewrite (all_some_map f (fun _ => fun v => match v with
          | VStatus true => Scatter None (fun v => match v with VQueue q => Ret q
                                        | VStatus _ => Raise (OtherExn "impossible") end)
          | VStatus false => Raise (QsonicExn "Error while reading catalog.")
          | VQueue _ => Raise (OtherExn "impossible") end)) end.
      2:{ intros r Hr. apply in_seq in Hr. unfold mpi_get_local_queue.
          destruct (Nat.eqb_spec r 0); [lia|]. cbn. reflexivity. }
      rewrite map_map. rewrite map_seq_const with (x := Raise (QsonicExn "Error while reading catalog.")) by easy.
      apply run_raise. }
    destruct e; [exact G|exact G|congruence].
Qed.
End Cat.
