(** Closing lemmas for PropDistribution.v. *)
From Coq Require Import String ZArith List Bool Arith Lia Permutation Sorting.Sorted Qcanon.
From Verif Require Import Num Exn NpList NpListFacts Mpi ModelMpiUtils ModelCatalog ModelIO ModelInputCont
  ModelFitQueue SpecCatalog ProofBalance ProofGroup ProofCatalog ProofIO ProofIO2 Examples1.
Import ListNotations.
Local Open Scope nat_scope.

Lemma res_dec_sysexit {A} (r : res A) : {r = Err SysExit} + {r <> Err SysExit}.
Proof. destruct r as [a|[m|m|]]; (left; reflexivity) || (right; discriminate). Qed.

Lemma run_raise_done {V A} e (ps : list (prog V A)) l :
  run (Raise e) ps = Done l -> exists t, l = Failed e :: t.
Proof.
  cbn. unfold final. cbn. destruct (all_some (map ending_of ps)) as [r|]; cbn.
  - intros [= <-]. eauto.
  - unfold mismatch. destruct (existsb aborts _); discriminate.
Qed.

Lemma map_Finished_inj {A} (l1 l2 : list A) :
  map (@Finished A) l1 = map (@Finished A) l2 -> l1 = l2.
Proof.
  revert l2; induction l1 as [|x l1 IH]; intros [|y l2] H; cbn in *; try discriminate; [easy|].
  injection H as -> H. f_equal. auto.
Qed.

Lemma NoDup_concat_disjoint {A} (ll : list (list A)) i j li lj x :
  NoDup (concat ll) -> i <> j -> nth_error ll i = Some li -> nth_error ll j = Some lj ->
  In x li -> In x lj -> False.
Proof.
  revert i j. induction ll as [|l ll IH]; intros i j Hn Hij Hi Hj Hxi Hxj; [destruct i; discriminate|].
  cbn in Hn.
  assert (forall a, In a l -> In a (concat ll) -> False) as Hd.
  { intros a H1 H2. clear -Hn H1 H2. induction l as [|b l IH]; [easy|].
    cbn in Hn. inversion Hn; subst. destruct H1 as [->|H1]; [|auto].
    apply H3. apply in_app_iff. now right. }
  assert (NoDup (concat ll)) as Hn' by (clear -Hn; induction l; cbn in Hn; [easy|inversion Hn; auto]).
  destruct i as [|i], j as [|j]; cbn in Hi, Hj.
  - easy.
  - injection Hi as ->. apply (Hd x); [easy|]. apply in_concat. exists lj. split; [|easy]. eapply nth_error_In; eauto.
  - injection Hj as ->. apply (Hd x); [easy|]. apply in_concat. exists li. split; [|easy]. eapply nth_error_In; eauto.
  - apply (IH i j); auto.
Qed.

Lemma healpix_files_disjoint ang2pix file mpi_size is_mock keep_surveys zmin zmax queues
  {S} (hpix : S -> Z) (valid : S -> bool) (argsort : list Z -> list nat) :
  argsort_ok argsort -> 1 <= mpi_size ->
  spmd mpi_size (fun rank => mpi_get_local_queue ang2pix file true rank mpi_size
                               is_mock false keep_surveys (Fin zmin) (Fin zmax))
    = Done (map Finished queues) ->
  forall i j queue_i queue_j specs_i specs_j rank_i rank_j files_i files_j n,
    i <> j -> nth_error queues i = Some queue_i -> nth_error queues j = Some queue_j ->
    (forall s, In s specs_i -> exists r, In r (concat queue_i) /\ hpix s = HPXPIXEL r) ->
    (forall s, In s specs_j -> exists r, In r (concat queue_j) /\ hpix s = HPXPIXEL r) ->
    save_deltas hpix valid argsort specs_i false true rank_i true = Ok files_i ->
    save_deltas hpix valid argsort specs_j false true rank_j true = Ok files_j ->
    ~ (In n (map fst files_i) /\ In n (map fst files_j)).
Proof.
  intros Ha Hn Hrun i j qi qj si sj ri rj fi fj n Hij Hqi Hqj Hsi Hsj Hfi Hfj [Hni Hnj].
  destruct (res_dec_sysexit file) as [Es|Es].
  { subst file. destruct mpi_size as [|m]; [lia|]. unfold spmd in Hrun.
    match type of Hrun with run ?p ?ps = _ => assert (exists e, p = Raise e) as [e Ee] by (cbn; eauto) end.
    rewrite Ee in Hrun. apply run_raise_done in Hrun. destruct Hrun as [t Ht].
    destruct queues; discriminate. }
  rewrite mpi_get_local_queue_run in Hrun by easy.
  destruct (read_quasar_catalog ang2pix file is_mock false keep_surveys (Fin zmin) (Fin zmax)) as [cat|e] eqn:Er.
  2:{ injection Hrun as Hrun. destruct mpi_size as [|m]; [lia|]. destruct queues; discriminate. }
  injection Hrun as Hrun. apply map_Finished_inj in Hrun. subst queues.
  destruct (read_quasar_catalog_spec _ _ _ _ _ _ _ _ Er) as (c & _ & _ & _ & Hne & _ & Ss & _).
  destruct (make_queues_spec cat false mpi_size Hn Hne (sorted_by_group _ _ _ _ Ss)) as (assign & _ & [Hnd _] & Eq).
  rewrite Eq in Hqi, Hqj. rewrite nth_error_map in Hqi, Hqj.
  destruct (nth_error assign i) as [ai|] eqn:Ei; [|discriminate].
  destruct (nth_error assign j) as [aj|] eqn:Ej; [|discriminate].
  cbn in Hqi, Hqj. injection Hqi as <-. injection Hqj as <-.
  assert (forall a r, In r (concat (map (fun k => filter (fun r => Z.eqb (HPXPIXEL r) k) cat) a)) -> In (HPXPIXEL r) a) as Hin.
  { intros a r H. apply in_concat in H. destruct H as (g & Hg & H). apply in_map_iff in Hg.
    destruct Hg as (k & <- & Hk). apply filter_In in H. destruct H as [_ H]. apply Z.eqb_eq in H. congruence. }
  destruct (save_by_hpx_spec hpix valid argsort Ha si ri) as (fi' & Efi & _ & _ & Ni & _).
  rewrite Hfi in Efi. injection Efi as <-.
  destruct (save_by_hpx_spec hpix valid argsort Ha sj rj) as (fj' & Efj & _ & _ & Nj & _).
  rewrite Hfj in Efj. injection Efj as <-.
  apply Ni in Hni. apply Nj in Hnj. apply in_map_iff in Hni, Hnj.
  destruct Hni as (s1 & E1 & H1). destruct Hnj as (s2 & E2 & H2).
  destruct (Hsi _ H1) as (r1 & Hr1 & F1). destruct (Hsj _ H2) as (r2 & Hr2 & F2).
  apply Hin in Hr1, Hr2.
  apply (NoDup_concat_disjoint assign i j ai aj n); auto; congruence.
Qed.

Lemma tile_queues_share_healpix :
  exists file queues,
    spmd 2 (fun rank => mpi_get_local_queue pix_ex file true rank 2 false true None (Fin 0%Qc) (Fin (zq 10)))
      = Done (map Finished queues) /\
    exists queue_0 queue_1 f0 f1,
      nth_error queues 0 = Some queue_0 /\ nth_error queues 1 = Some queue_1 /\
      save_deltas HPXPIXEL (fun _ => true) argsort_ex (concat queue_0) false true None true = Ok f0 /\
      save_deltas HPXPIXEL (fun _ => true) argsort_ex (concat queue_1) false true None true = Ok f1 /\
      exists n, In n (map fst f0) /\ In n (map fst f1).
Proof.
  set (c := [mkr 1 2 1 7 10; mkr 2 2 1 7 11]).
  exists (Ok (mkcat cols_ex c)), [[[mkr 1 2 1 7 10]]; [[mkr 2 2 1 7 11]]].
  split; [vm_compute; reflexivity|].
  exists [[mkr 1 2 1 7 10]], [[mkr 2 2 1 7 11]], [(7%Z, [mkr 1 2 1 7 10])], [(7%Z, [mkr 2 2 1 7 11])].
  repeat (split; [vm_compute; reflexivity|]). exists 7%Z. cbn. auto.
Qed.

Lemma catalog_filter ang2pix file is_mock is_tile keep_surveys zmin zmax cat :
  read_quasar_catalog ang2pix file is_mock is_tile keep_surveys (Fin zmin) (Fin zmax) = Ok cat ->
  exists c, file = Ok c /\ cat <> [] /\
    (exists sel pix, Permutation cat (map (fun r => set_hpx (pix r) r) sel) /\
       (forall r, In r sel <-> In r (rows c) /\ z_selected zmin zmax r
                               /\ survey_selected (colnames c) keep_surveys r) /\
       NoDup (map (fun r => (TARGETID r, TILEID r)) sel) /\
       (forall r, pix r = if smem "HPXPIXEL" (colnames c) then HPXPIXEL r
                          else ang2pix (if is_mock then 16 else 64)%Z (row_ra r) (row_dec r))) /\
    StronglySorted (lex_lt
      (if is_tile then [TILEID; PETAL_LOC; TARGETID]
       else match keep_surveys with
            | Some (_ :: _ :: _) => if smem "SURVEY" (colnames c)
                                    then [HPXPIXEL; SURVEY; TARGETID] else [HPXPIXEL; TARGETID]
            | _ => [HPXPIXEL; TARGETID]
            end)) cat /\
    (if is_tile then NoDup (map (fun r => (TARGETID r, TILEID r)) cat) else NoDup (map TARGETID cat)).
Proof.
  intro H. destruct (read_quasar_catalog_spec _ _ _ _ _ _ _ _ H) as (c & Ec & Hc & Hu & Hne & P & Ss & U).
  exists c. split; [easy|]. split; [easy|]. split; [|split].
  - exists (filter (selected_b (colnames c) keep_surveys zmin zmax) (rows c)),
      (pixel_of ang2pix (colnames c) (if is_mock then 16 else 64)%Z).
    split; [easy|]. split; [|split; [|easy]].
    + intro r. now rewrite filter_In, selected_b_spec.
    + apply NoDup_map_filter. unfold unique_ids in Hu. destruct is_tile; [easy|].
      apply (NoDup_map_inv fst). now rewrite map_map.
  - unfold expected_order, sort_order in Ss.
    destruct is_tile; [easy|]. destruct keep_surveys as [[|k1 [|k2 ks]]|]; cbn in Ss;
      rewrite ?andb_false_r, ?andb_true_r in Ss; exact Ss.
  - exact U.
Qed.

Lemma catalog_succeeds_iff ang2pix file is_mock is_tile keep_surveys zmin zmax :
  (exists cat, read_quasar_catalog ang2pix file is_mock is_tile keep_surveys (Fin zmin) (Fin zmax) = Ok cat) <->
  exists c, file = Ok c /\
    has_columns required_columns (colnames c) /\
    (is_mock = false -> has_columns required_data_columns (colnames c)) /\
    (is_tile = true -> has_columns required_tile_columns (colnames c)) /\
    (if is_tile then NoDup (map (fun r => (TARGETID r, TILEID r)) (rows c))
     else NoDup (map TARGETID (rows c))) /\
    exists r, In r (rows c) /\ z_selected zmin zmax r /\ survey_selected (colnames c) keep_surveys r.
Proof.
  rewrite read_quasar_catalog_Ok_iff. unfold columns_ok, unique_ids.
  split; intros (c & H); exists c; tauto.
Qed.

Definition catalog_bad : catalog := mkcat cols_ex [mkr 1 2 1 7 10; mkr 2 3 2 7 11; mkr 3 2 1 7 10].
Definition cat_bad_read : list row := [mkr 1 2 1 7 10; mkr 2 3 2 7 11; mkr 3 2 1 7 10].
Lemma keep_all_surveys_wrong_file :
  exists (file : res catalog) (cat : list row) (open : Z -> res (specfile Z unit)) (pixel : Z) specs s r d,
    read_quasar_catalog pix_ex file false false None (Fin 0%Qc) (Fin (zq 10)) = Ok cat /\
    read_onehealpix_file_data_coadd argsort_ex (filter (fun r => Z.eqb (HPXPIXEL r) pixel) cat) open = Ok specs /\
    In (s, (r, d)) specs /\ s <> SURVEY r.
Proof.
  exists (Ok catalog_bad), cat_bad_read, (fun s => Ok (files_ex s)), 7%Z,
    [(1%Z, (mkr 1 2 1 7 10, 101%Z)); (2%Z, (mkr 2 3 2 7 11, 202%Z)); (2%Z, (mkr 3 2 1 7 10, 203%Z))],
    2%Z, (mkr 3 2 1 7 10), 203%Z.
  split; [vm_compute; reflexivity|]. split; [vm_compute; reflexivity|].
  split; [cbn; auto|]. cbn. discriminate.
Qed.
Lemma exposures_after_wrong_file :
  exists (file : res catalog) (cat : list row) (open : Z -> res (specfile Z unit)) group specs s r e d,
    read_quasar_catalog pix_ex file false false (Some [1; 2]%Z) (Fin 0%Qc) (Fin (zq 10)) = Ok cat /\
    In group (exposure_queue cat) /\
    read_onehealpix_file_data_uncoadd argsort_ex group open = Ok specs /\
    In (s, ((r, e), d)) specs /\ s <> SURVEY r.
Proof.
  exists (Ok catalog_bad), [mkr 1 2 1 7 10; mkr 3 2 1 7 10; mkr 2 3 2 7 11],
    (fun s => Ok (files_ex s)), cat_bad_read,
    [(1%Z, (mkr 1 2 1 7 10, tt, 101%Z)); (2%Z, (mkr 2 3 2 7 11, tt, 202%Z)); (2%Z, (mkr 3 2 1 7 10, tt, 203%Z))],
    2%Z, (mkr 3 2 1 7 10), tt, 203%Z.
  split; [vm_compute; reflexivity|]. split; [vm_compute; auto|]. split; [vm_compute; reflexivity|].
  split; [cbn; auto|]. cbn. discriminate.
Qed.
Lemma keep_all_surveys_crash :
  exists (file : res catalog) (cat : list row) (open : Z -> res (specfile Z unit)) (pixel : Z),
    read_quasar_catalog pix_ex file false false None (Fin 0%Qc) (Fin (zq 10)) = Ok cat /\
    (forall s, exists f, open s = Ok f) /\
    read_onehealpix_file_data_coadd argsort_ex (filter (fun r => Z.eqb (HPXPIXEL r) pixel) cat) open
      = Err (OtherExn "IndexError").
Proof.
  exists (Ok (mkcat cols_ex [mkr 1 2 2 7 10; mkr 2 3 1 7 11])), [mkr 1 2 2 7 10; mkr 2 3 1 7 11],
    (fun s => Ok (files_ex s)), 7%Z.
  split; [vm_compute; reflexivity|]. split; [eauto|]. vm_compute. reflexivity.
Qed.

Lemma onlyreso_missing_shifts :
  exists (f : specfile Z unit) (ids : list Z) (t : Z) (d : Z),
    StronglySorted Z.lt ids /\ NoDup (map fst (fibermap f)) /\
    In (t, Some d) (read_onehealpix_file_onlyreso ids f ids) /\
    forall i, nth_error (images f) i = Some d -> nth_error (map fst (fibermap f)) i <> Some t.
Proof.
  exists (mkfile [(1, tt); (3, tt)]%Z [201; 203]%Z), [1; 2; 3]%Z, 2%Z, 203%Z.
  split; [repeat constructor|]. split.
  - repeat constructor; cbn; intuition discriminate.
  - split; [vm_compute; auto|]. intros [|[|[|i]]]; cbn; discriminate.
Qed.

Lemma calib_files_partition {F} (files : list F) mpi_size :
  1 <= mpi_size -> length files <= mpi_size \/ (exists k, length files = k * mpi_size) ->
  concat (map (calib_files_of_rank files mpi_size) (seq 0 mpi_size)) = files.
Proof.
  intros Hn H. rewrite calib_files_prefix by easy. apply firstn_all2.
  destruct H as [H|[k H]].
  - nia.
  - rewrite H, Nat.div_mul by lia. nia.
Qed.
Lemma calib_files_lost :
  exists (files : list nat) (mpi_size : nat), 1 <= mpi_size /\ NoDup files /\
    exists f, In f files /\
      forall rank, rank < mpi_size -> ~ In f (calib_files_of_rank files mpi_size rank).
Proof.
  exists [10; 11; 12; 13; 14], 3. split; [lia|]. split.
  - repeat constructor; cbn; intuition discriminate.
  - exists 14. split; [cbn; auto 10|]. intros [|[|[|r]]] H; cbn; try lia; intuition discriminate.
Qed.

Lemma mpi_parse_all_or_none {T} n (parse : nat -> res T) (logic : T -> res bool) :
  1 <= n ->
  (forall m, parse 0 <> Err (QsonicExn m)) -> (forall a m, logic a <> Err (QsonicExn m)) ->
  (exists a, parse 0 = Ok a /\ logic a = Ok true /\
     spmd n (fun rank => mpi_parse rank (parse rank) logic) = Done (repeat (Finished a) n)) \/
  spmd n (fun rank => mpi_parse rank (parse rank) logic) = Done (repeat (Failed SysExit) n) \/
  spmd n (fun rank => mpi_parse rank (parse rank) logic) = Aborted \/
  (n = 1 /\ exists e, spmd n (fun rank => mpi_parse rank (parse rank) logic) = Done [Failed e]).
Proof.
  intros Hn H1 H2. rewrite mpi_parse_run by easy.
  assert (forall m, run (@Raise (option T) T (OtherExn m)) (repeat (Bcast None (fun r => match r with
       | None => Raise SysExit | Some v => Ret v end)) (n - 1)) = Aborted \/
       (n = 1 /\ run (@Raise (option T) T (OtherExn m)) (repeat (Bcast None (fun r => match r with
       | None => Raise SysExit | Some v => Ret v end)) (n - 1)) = Done [Failed (OtherExn m)])) as G.
  { intro m. destruct n as [|[|k]]; [lia| |].
    - right. split; [easy|]. reflexivity.
    - left. replace (S (S k) - 1) with (S k) by lia. reflexivity. }
  destruct (parse 0) as [a|[m|m|]] eqn:Ep; [|now destruct (H1 m)| |].
  - destruct (logic a) as [[|]|[m|m|]] eqn:El.
    + left. eauto.
    + right. now left.
    + now destruct (H2 a m).
    + right. right. destruct (G m) as [E|[E1 E2]]; [left; exact E|right; split; eauto].
    + right. now left.
  - right. right. destruct (G m) as [E|[E1 E2]]; [left; exact E|right; split; eauto].
  - right. now left.
Qed.

Lemma read_continua_all {S C} (sid spix : S -> Z) (argsort2 : list (Z * Z) -> list nat)
  (files : Z -> option (contfile C)) (specs : list S) :
  (forall l, Permutation (argsort2 l) (seq 0 (length l)) /\
     StronglySorted Z.le (map (fun i => fst (nth i l (0%Z, 0%Z))) (argsort2 l))) ->
  (forall p f, files p = Some f -> cf_wave1 f <> 0%Qc /\ length (cf_ids f) = length (cf_cont f)) ->
  specs <> [] ->
  exists r, read_continua sid spix argsort2 files specs = Ok r /\
    Permutation (map fst r) specs /\
    forall s a, In (s, a) r ->
      match a with
      | Some (w1, dw, c) =>
          exists f i, files (spix s) = Some f /\ w1 = cf_wave1 f /\ dw = cf_dwave f /\
            nth_error (cf_ids f) i = Some (sid s) /\ nth_error (cf_cont f) i = Some c
      | None => forall f, files (spix s) = Some f -> ~ In (sid s) (cf_ids f)
      end.
Proof.
  intros Hs Hf Hne. destruct (read_continua_spec sid spix argsort2 Hs files specs Hf Hne) as (r & E1 & E2 & E3).
  exists r. split; [easy|]. split; [easy|]. intros s a H. rewrite Forall_forall in E3.
  exact (E3 _ H).
Qed.

Lemma every_quasar_to_one_rank ang2pix (file : res catalog) mpi_size (is_mock is_tile : bool) keep_surveys zmin zmax cat :
  let key := if is_tile then TILEID else HPXPIXEL in
  1 <= mpi_size ->
  read_quasar_catalog ang2pix file is_mock is_tile keep_surveys (Fin zmin) (Fin zmax) = Ok cat ->
  exists assign queues,
    spmd mpi_size (fun rank => mpi_get_local_queue ang2pix file true rank mpi_size
                                 is_mock is_tile keep_surveys (Fin zmin) (Fin zmax))
      = Done (map Finished queues) /\
    length queues = mpi_size /\
    assigns_each_once key cat assign /\
    queues = map (map (fun k => filter (fun r => Z.eqb (key r) k) cat)) assign /\
    Permutation (concat (concat queues)) cat.
Proof.
  intros key Hn Hr.
  destruct (read_quasar_catalog_spec _ _ _ _ _ _ _ _ Hr) as (c & Ec & _ & _ & Hne & _ & Ss & _).
  destruct (make_queues_spec cat is_tile mpi_size Hn Hne (sorted_by_group _ _ _ _ Ss)) as (assign & L & As & Eq).
  exists assign, (make_queues is_tile mpi_size cat).
  split.
  - rewrite mpi_get_local_queue_run, Hr; [easy|easy|]. rewrite Ec. discriminate.
  - split; [|split; [exact As|split; [exact Eq|]]].
    + rewrite Eq, map_length. exact L.
    + rewrite Eq. exact (assigned_rows_perm _ _ _ As).
Qed.

Lemma unreadable_catalog_fails ang2pix (file : res catalog) mpi_size is_mock is_tile keep_surveys zmin zmax (e : exn) :
  1 <= mpi_size -> file <> Err SysExit ->
  read_quasar_catalog ang2pix file is_mock is_tile keep_surveys zmin zmax = Err e ->
  exists msg,
    spmd mpi_size (fun rank => mpi_get_local_queue ang2pix file true rank mpi_size
                                 is_mock is_tile keep_surveys zmin zmax)
      = Done (repeat (Failed (QsonicExn msg)) mpi_size).
Proof.
  intros Hn Hf Hr. rewrite mpi_get_local_queue_run, Hr by easy. eauto.
Qed.
