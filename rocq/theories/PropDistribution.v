(** Property theorems: distribution of quasars and files, catalog, readers,
    writer, broadcast helpers (C01 - C12, C40). *)
From Coq Require Import String ZArith List Bool Arith Lia Permutation Sorting.Sorted Qcanon.
From Verif Require Import Num Exn NpList Mpi ModelMpiUtils ModelCatalog ModelIO ModelInputCont
  ModelFitQueue SpecCatalog ProofBalance ProofCatalog ProofIO ProofIO2 ProofDistribution Examples1.
Import ListNotations.
Local Open Scope nat_scope.

(** ** C01 *)
Theorem C01_balance_load_partition (A : Type) (cats : list (list A)) (mpi_size : nat) :
  1 <= mpi_size ->
  List.length (balance_load cats mpi_size) = mpi_size /\
  Permutation (concat (balance_load cats mpi_size)) cats.
Proof. exact (balance_load_permutation cats mpi_size). Qed.
Print Assumptions C01_balance_load_partition.
Example C01_ex : 1 <= 2 /\
  balance_load [[1]; []; [2;3;4]; [5;6]; [7;8]] 2 = [[[2;3;4]; [1]; []]; [[5;6]; [7;8]]].
Proof. split; [lia|vm_compute; reflexivity]. Qed.

(** ** C02 *)
(** The loads of two ranks differ by at most the largest catalog. *)
Theorem C02_loads_differ_by_at_most_one_catalog (A : Type) (cats : list (list A)) (mpi_size M : nat) :
  1 <= mpi_size -> (forall c, In c cats -> List.length c <= M) ->
  forall q1 q2, In q1 (balance_load cats mpi_size) -> In q2 (balance_load cats mpi_size) ->
    List.length (concat q1) <= List.length (concat q2) + M.
Proof. exact (balance_load_fair cats mpi_size M). Qed.
Print Assumptions C02_loads_differ_by_at_most_one_catalog.
Theorem C02_no_idle_rank (A : Type) (cats : list (list A)) (mpi_size : nat) :
  1 <= mpi_size -> (forall c, In c cats -> c <> []) ->
  forall q1 q2, In q1 (balance_load cats mpi_size) -> In q2 (balance_load cats mpi_size) ->
    2 <= List.length q1 -> q2 <> [].
Proof. exact (balance_load_no_idle cats mpi_size). Qed.
Print Assumptions C02_no_idle_rank.
(** Hence every load is at most the average load plus one largest catalog. *)
Theorem C02_close_to_average (A : Type) (cats : list (list A)) (mpi_size M : nat) :
  1 <= mpi_size -> (forall c, In c cats -> List.length c <= M) ->
  forall q, In q (balance_load cats mpi_size) ->
    mpi_size * List.length (concat q) <= List.length (concat cats) + (mpi_size - 1) * M.
Proof. exact (balance_load_average cats mpi_size M). Qed.
Print Assumptions C02_close_to_average.
(** The largest catalogs are placed first: a rank that holds a catalog [c] has at
    most [c] more than any other rank, so moving a single catalog from one rank to
    another never lowers the larger of the two loads. *)
Theorem C02_no_move_improves (A : Type) (cats : list (list A)) (mpi_size : nat) :
  1 <= mpi_size ->
  forall q1 q2 c, In q1 (balance_load cats mpi_size) -> In q2 (balance_load cats mpi_size) ->
    In c q1 -> List.length (concat q1) <= List.length (concat q2) + List.length c.
Proof. exact (balance_load_tight cats mpi_size). Qed.
Print Assumptions C02_no_move_improves.
Example C02_ex :
  (forall c, In c [[1]; [2;3;4]; [5;6]; [7;8]] -> List.length c <= 3) /\
  (forall c, In c [[1]; [2;3;4]; [5;6]; [7;8]] -> c <> []) /\
  balance_load [[1]; [2;3;4]; [5;6]; [7;8]] 2 = [[[2;3;4]; [1]]; [[5;6]; [7;8]]].
Proof.
  split; [|split; [|vm_compute; reflexivity]];
    cbn; intros c [<-|[<-|[<-|[<-|[]]]]]; cbn; try lia; discriminate.
Qed.

(** ** C03 *)
(** Every rank gets the complete healpixels (tiles) of [assign], which lists
    every occurring healpix (tile) exactly once over all ranks. *)
Theorem C03_every_quasar_to_one_rank
  (ang2pix : Z -> num -> num -> Z) (file : res catalog) (mpi_size : nat)
  (is_mock is_tile : bool) (keep_surveys : option (list Z)) (zmin zmax : Qc) (cat : list row) :
  let key := if is_tile then TILEID else HPXPIXEL in
  1 <= mpi_size ->
  read_quasar_catalog ang2pix file is_mock is_tile keep_surveys (Fin zmin) (Fin zmax) = Ok cat ->
  exists assign queues,
    spmd mpi_size (fun rank => mpi_get_local_queue ang2pix file true rank mpi_size
                                 is_mock is_tile keep_surveys (Fin zmin) (Fin zmax))
      = Done (map Finished queues) /\
    List.length queues = mpi_size /\
    assigns_each_once key cat assign /\
    queues = map (map (fun k => filter (fun r => Z.eqb (key r) k) cat)) assign /\
    Permutation (concat (concat queues)) cat.
Proof.
  exact (every_quasar_to_one_rank ang2pix file mpi_size is_mock is_tile keep_surveys zmin zmax cat).
Qed.
Print Assumptions C03_every_quasar_to_one_rank.
(** If the catalog cannot be read all ranks fail with QsonicException. *)
Theorem C03_unreadable_catalog_fails_everywhere
  (ang2pix : Z -> num -> num -> Z) (file : res catalog) (mpi_size : nat)
  (is_mock is_tile : bool) (keep_surveys : option (list Z)) (zmin zmax : num) (e : exn) :
  1 <= mpi_size -> file <> Err SysExit ->
  read_quasar_catalog ang2pix file is_mock is_tile keep_surveys zmin zmax = Err e ->
  exists msg,
    spmd mpi_size (fun rank => mpi_get_local_queue ang2pix file true rank mpi_size
                                 is_mock is_tile keep_surveys zmin zmax)
      = Done (repeat (Failed (QsonicExn msg)) mpi_size).
Proof.
  exact (unreadable_catalog_fails ang2pix file mpi_size is_mock is_tile keep_surveys zmin zmax e).
Qed.
Print Assumptions C03_unreadable_catalog_fails_everywhere.
Example C03_ex : exists cat,
  read_quasar_catalog pix_ex (Ok catalog_ex) false false (Some [1; 2]%Z) (Fin 0%Qc) (Fin (zq 10)) = Ok cat /\
  map TARGETID cat = [1; 3; 2; 9]%Z /\
  spmd 2 (fun rank => mpi_get_local_queue pix_ex (Ok catalog_ex) true rank 2 false false
                        (Some [1; 2]%Z) (Fin 0%Qc) (Fin (zq 10)))
  = Done [Finished [filter (fun r => Z.eqb (HPXPIXEL r) 7) cat];
          Finished [filter (fun r => Z.eqb (HPXPIXEL r) 8) cat]].
Proof. eexists. split; [|split]; vm_compute; reflexivity. Qed.
Example C03_error_ex : read_quasar_catalog pix_ex (Ok (mkcat cols_ex [])) false false None (Fin 0%Qc) (Fin 1%Qc)
  = Err (OtherExn "Empty quasar catalogue.").
Proof. vm_compute. reflexivity. Qed.

(** ** C04 *)
Theorem C04_healpix_files_disjoint
  (ang2pix : Z -> num -> num -> Z) (file : res catalog) (mpi_size : nat) (is_mock : bool)
  (keep_surveys : option (list Z)) (zmin zmax : Qc) (queues : list (list (list row)))
  (S : Type) (hpix : S -> Z) (valid : S -> bool) (argsort : list Z -> list nat) :
  argsort_ok argsort -> 1 <= mpi_size ->
  spmd mpi_size (fun rank => mpi_get_local_queue ang2pix file true rank mpi_size
                               is_mock false keep_surveys (Fin zmin) (Fin zmax))
    = Done (map Finished queues) ->
  forall i j queue_i queue_j specs_i specs_j rank_i rank_j files_i files_j n,
    i <> j -> nth_error queues i = Some queue_i -> nth_error queues j = Some queue_j ->
    (* the spectra of a rank come from its queue *)
    (forall s, In s specs_i -> exists r, In r (concat queue_i) /\ hpix s = HPXPIXEL r) ->
    (forall s, In s specs_j -> exists r, In r (concat queue_j) /\ hpix s = HPXPIXEL r) ->
    save_deltas hpix valid argsort specs_i false true rank_i true = Ok files_i ->
    save_deltas hpix valid argsort specs_j false true rank_j true = Ok files_j ->
    ~ (In n (map fst files_i) /\ In n (map fst files_j)).
Proof.
  exact (healpix_files_disjoint ang2pix file mpi_size is_mock keep_surveys zmin zmax queues
           hpix valid argsort).
Qed.
Print Assumptions C04_healpix_files_disjoint.
(** With tile-grouped queues two ranks own rows of the same healpix, so that the
    files they write have the same name. *)
Theorem C04_tile_queues_refuted :
  exists file queues,
    spmd 2 (fun rank => mpi_get_local_queue pix_ex file true rank 2 false true None (Fin 0%Qc) (Fin (zq 10)))
      = Done (map Finished queues) /\
    exists queue_0 queue_1 f0 f1,
      nth_error queues 0 = Some queue_0 /\ nth_error queues 1 = Some queue_1 /\
      save_deltas HPXPIXEL (fun _ => true) argsort_ex (concat queue_0) false true None true = Ok f0 /\
      save_deltas HPXPIXEL (fun _ => true) argsort_ex (concat queue_1) false true None true = Ok f1 /\
      exists n, In n (map fst f0) /\ In n (map fst f1).
Proof. exact tile_queues_share_healpix. Qed.
Print Assumptions C04_tile_queues_refuted.

(** ** C05 *)
Theorem C05_save_by_healpix
  (S : Type) (hpix : S -> Z) (valid : S -> bool) (argsort : list Z -> list nat)
  (specs : list S) (mpi_rank : option Z) :
  argsort_ok argsort ->
  exists files, save_deltas hpix valid argsort specs false true mpi_rank true = Ok files /\
    Permutation (concat (map snd files)) (filter valid specs) /\
    NoDup (map fst files) /\
    (forall n, In n (map fst files) <-> In n (map hpix specs)) /\
    forall n ss s, In (n, ss) files -> In s ss -> hpix s = n.
Proof. exact (fun H => save_by_hpx_spec hpix valid argsort H specs mpi_rank). Qed.
Print Assumptions C05_save_by_healpix.
Theorem C05_save_by_rank
  (S : Type) (hpix : S -> Z) (valid : S -> bool) (argsort : list Z -> list nat)
  (specs : list S) (mpi_rank : Z) :
  save_deltas hpix valid argsort specs false false (Some mpi_rank) true
  = Ok [(mpi_rank, filter valid specs)].
Proof. exact (save_by_rank_spec hpix valid argsort specs mpi_rank). Qed.
Print Assumptions C05_save_by_rank.
Theorem C05_refuses_before_blinding
  (S : Type) (hpix : S -> Z) (valid : S -> bool) (argsort : list Z -> list nat)
  (specs : list S) (by_hpx : bool) (mpi_rank : option Z) :
  argsort_ok argsort ->
  exists msg, save_deltas hpix valid argsort specs false by_hpx mpi_rank false = Err (QsonicExn msg).
Proof. exact (fun H => save_unblinded_refuses hpix valid argsort H specs by_hpx mpi_rank). Qed.
Print Assumptions C05_refuses_before_blinding.
Theorem C05_no_output_directory
  (S : Type) (hpix : S -> Z) (valid : S -> bool) (argsort : list Z -> list nat)
  (specs : list S) (by_hpx : bool) (mpi_rank : option Z) (blinded : bool) :
  save_deltas hpix valid argsort specs true by_hpx mpi_rank blinded = Ok [].
Proof. exact eq_refl. Qed.
Print Assumptions C05_no_output_directory.
Example C05_ex : argsort_ok argsort_ex /\
  save_deltas (fun p => fst p) (fun p => Z.ltb 0 (snd p)) argsort_ex
    [(5, 1); (3, 2); (5, -1); (5, 4); (2, -1)]%Z false true None true
  = Ok [(2, []); (3, [(3, 2)]); (5, [(5, 1); (5, 4)])]%Z.
Proof. split; [exact argsort_ex_ok|vm_compute; reflexivity]. Qed.

(** ** C06 *)
(** Soundness, completeness, order and uniqueness of the returned rows. *)
Theorem C06_catalog_filter
  (ang2pix : Z -> num -> num -> Z) (file : res catalog) (is_mock is_tile : bool)
  (keep_surveys : option (list Z)) (zmin zmax : Qc) (cat : list row) :
  read_quasar_catalog ang2pix file is_mock is_tile keep_surveys (Fin zmin) (Fin zmax) = Ok cat ->
  exists c, file = Ok c /\ cat <> [] /\
    (* exactly the selected rows, each once *)
    (exists sel pix, Permutation cat (map (fun r => set_hpx (pix r) r) sel) /\
       (forall r, In r sel <-> In r (rows c) /\ z_selected zmin zmax r
                               /\ survey_selected (colnames c) keep_surveys r) /\
       NoDup (map (fun r => (TARGETID r, TILEID r)) sel) /\
       (forall r, pix r = if smem "HPXPIXEL" (colnames c) then HPXPIXEL r
                          else ang2pix (if is_mock then 16 else 64)%Z (row_ra r) (row_dec r))) /\
    (* in the documented order *)
    StronglySorted (lex_lt
      (if is_tile then [TILEID; PETAL_LOC; TARGETID]
       else match keep_surveys with
            | Some (_ :: _ :: _) => if smem "SURVEY" (colnames c)
                                    then [HPXPIXEL; SURVEY; TARGETID] else [HPXPIXEL; TARGETID]
            | _ => [HPXPIXEL; TARGETID]
            end)) cat /\
    (if is_tile then NoDup (map (fun r => (TARGETID r, TILEID r)) cat) else NoDup (map TARGETID cat)).
Proof. exact (catalog_filter ang2pix file is_mock is_tile keep_surveys zmin zmax cat). Qed.
Print Assumptions C06_catalog_filter.
(** It succeeds iff the file is readable, has the required columns and unique
    identifiers, and at least one row is selected. *)
Theorem C06_succeeds_iff
  (ang2pix : Z -> num -> num -> Z) (file : res catalog) (is_mock is_tile : bool)
  (keep_surveys : option (list Z)) (zmin zmax : Qc) :
  (exists cat, read_quasar_catalog ang2pix file is_mock is_tile keep_surveys (Fin zmin) (Fin zmax) = Ok cat) <->
  exists c, file = Ok c /\
    has_columns required_columns (colnames c) /\
    (is_mock = false -> has_columns required_data_columns (colnames c)) /\
    (is_tile = true -> has_columns required_tile_columns (colnames c)) /\
    (if is_tile then NoDup (map (fun r => (TARGETID r, TILEID r)) (rows c))
     else NoDup (map TARGETID (rows c))) /\
    exists r, In r (rows c) /\ z_selected zmin zmax r /\ survey_selected (colnames c) keep_surveys r.
Proof. exact (catalog_succeeds_iff ang2pix file is_mock is_tile keep_surveys zmin zmax). Qed.
Print Assumptions C06_succeeds_iff.
Example C06_ex : exists cat,
  read_quasar_catalog pix_ex (Ok catalog_ex) false false (Some [1]%Z) (Fin 0%Qc) (Fin (zq 10)) = Ok cat /\
  map TARGETID cat = [1; 3; 9]%Z.
Proof. eexists. split; vm_compute; reflexivity. Qed.

(** ** C07 *)
(** With a survey selection every quasar of a healpix is looked up in the file of
    its own survey, and found iff it is there. *)
Theorem C07_own_survey_file_partial
  (D E : Type) (argsort : list Z -> list nat)
  (ang2pix : Z -> num -> num -> Z) (file : res catalog) (is_mock : bool)
  (keep : list Z) (zmin zmax : Qc) (cat : list row) (pixel : Z)
  (open : Z -> res (specfile D E)) (content : Z -> specfile D E) :
  argsort_ok argsort ->
  (forall c, file = Ok c -> In "SURVEY"%string (colnames c)) ->
  read_quasar_catalog ang2pix file is_mock false (Some keep) (Fin zmin) (Fin zmax) = Ok cat ->
  let cat_hpx := filter (fun r => Z.eqb (HPXPIXEL r) pixel) cat in
  cat_hpx <> [] ->
  (forall r, In r cat_hpx -> open (SURVEY r) = Ok (content (SURVEY r)) /\
     NoDup (map fst (fibermap (content (SURVEY r)))) /\
     List.length (images (content (SURVEY r))) = List.length (fibermap (content (SURVEY r)))) ->
  exists specs,
    read_onehealpix_file_data_coadd argsort cat_hpx open = Ok specs /\
    map (fun x => fst (snd x)) specs
      = filter (fun r => zmem (TARGETID r) (map fst (fibermap (content (SURVEY r))))) cat_hpx /\
    forall s r d, In (s, (r, d)) specs ->
      s = SURVEY r /\
      exists i e, nth_error (fibermap (content (SURVEY r))) i = Some (TARGETID r, e) /\
                  nth_error (images (content (SURVEY r))) i = Some d.
Proof.
  exact (fun Ha Hcol Hr Hne Hf =>
    read_by_key_spec argsort Ha SURVEY _ open content Hne
      (healpix_group_survey_sorted ang2pix file is_mock keep zmin zmax cat pixel Hcol Hr) Hf).
Qed.
Print Assumptions C07_own_survey_file_partial.
Example C07_ex : exists cat,
  read_quasar_catalog pix_ex (Ok catalog_ex) false false (Some [1; 2]%Z) (Fin 0%Qc) (Fin (zq 10)) = Ok cat /\
  rmap (map (fun x => (fst x, TARGETID (fst (snd x)), snd (snd x))))
    (read_onehealpix_file_data_coadd argsort_ex (filter (fun r => Z.eqb (HPXPIXEL r) 7) cat)
       (fun s => Ok (files_ex s)))
  = Ok [(1, 1, 101); (1, 3, 103); (2, 2, 202)]%Z.
Proof. eexists. split; vm_compute; reflexivity. Qed.
(** Keeping all surveys (keep_surveys = None): the catalog is not sorted by
    survey and a quasar of survey 1 is read from the file of survey 2. *)
Theorem C07_keep_all_surveys_refuted :
  exists (file : res catalog) (cat : list row) (open : Z -> res (specfile Z unit)) (pixel : Z) specs s r d,
    read_quasar_catalog pix_ex file false false None (Fin 0%Qc) (Fin (zq 10)) = Ok cat /\
    read_onehealpix_file_data_coadd argsort_ex (filter (fun r => Z.eqb (HPXPIXEL r) pixel) cat) open = Ok specs /\
    In (s, (r, d)) specs /\ s <> SURVEY r.
Proof. exact keep_all_surveys_wrong_file. Qed.
Print Assumptions C07_keep_all_surveys_refuted.
(** Exposures "after": the re-sorted queue has the same defect for every way the
    catalog was read. *)
Theorem C07_exposures_after_refuted :
  exists (file : res catalog) (cat : list row) (open : Z -> res (specfile Z unit)) group specs s r e d,
    read_quasar_catalog pix_ex file false false (Some [1; 2]%Z) (Fin 0%Qc) (Fin (zq 10)) = Ok cat /\
    In group (exposure_queue cat) /\
    read_onehealpix_file_data_uncoadd argsort_ex group open = Ok specs /\
    In (s, ((r, e), d)) specs /\ s <> SURVEY r.
Proof. exact exposures_after_wrong_file. Qed.
Print Assumptions C07_exposures_after_refuted.
(** ... and it can also make the reader crash on an empty group. *)
Theorem C07_keep_all_surveys_crash_refuted :
  exists (file : res catalog) (cat : list row) (open : Z -> res (specfile Z unit)) (pixel : Z),
    read_quasar_catalog pix_ex file false false None (Fin 0%Qc) (Fin (zq 10)) = Ok cat /\
    (forall s, exists f, open s = Ok f) /\
    read_onehealpix_file_data_coadd argsort_ex (filter (fun r => Z.eqb (HPXPIXEL r) pixel) cat) open
      = Err (OtherExn "IndexError").
Proof. exact keep_all_surveys_crash. Qed.
Print Assumptions C07_keep_all_surveys_crash_refuted.

(** ** C08 *)
Theorem C08_coadd_reader_alignment
  (D E : Type) (argsort : list Z -> list nat) (cat : list row) (f : specfile D E) :
  argsort_ok argsort ->
  StronglySorted (fun a b => (TARGETID a < TARGETID b)%Z) cat ->
  NoDup (map fst (fibermap f)) -> List.length (images f) = List.length (fibermap f) ->
  exists specs, read_coadd_group argsort cat f = Ok specs /\
    map fst specs = filter (fun r => zmem (TARGETID r) (map fst (fibermap f))) cat /\
    forall r d, In (r, d) specs ->
      exists i e, nth_error (fibermap f) i = Some (TARGETID r, e) /\ nth_error (images f) i = Some d.
Proof. exact (fun H => read_coadd_group_spec argsort H cat f). Qed.
Print Assumptions C08_coadd_reader_alignment.
(** tiles: one file per petal, for a catalog sorted by petal and target *)
Theorem C08_tile_reader_alignment
  (D E : Type) (argsort : list Z -> list nat) (cat : list row)
  (open : Z -> res (specfile D E)) (content : Z -> specfile D E) :
  argsort_ok argsort -> cat <> [] ->
  StronglySorted (fun a b => (PETAL_LOC a < PETAL_LOC b)%Z \/
                    (PETAL_LOC a = PETAL_LOC b /\ (TARGETID a < TARGETID b)%Z)) cat ->
  (forall r, In r cat -> open (PETAL_LOC r) = Ok (content (PETAL_LOC r)) /\
     NoDup (map fst (fibermap (content (PETAL_LOC r)))) /\
     List.length (images (content (PETAL_LOC r))) = List.length (fibermap (content (PETAL_LOC r)))) ->
  exists specs,
    read_onetile_coaddfile_data argsort cat open = Ok specs /\
    map (fun x => fst (snd x)) specs
      = filter (fun r => zmem (TARGETID r) (map fst (fibermap (content (PETAL_LOC r))))) cat /\
    forall s r d, In (s, (r, d)) specs ->
      s = PETAL_LOC r /\
      exists i e, nth_error (fibermap (content (PETAL_LOC r))) i = Some (TARGETID r, e) /\
                  nth_error (images (content (PETAL_LOC r))) i = Some d.
Proof.
  exact (fun Ha Hne Hs Hf => read_by_key_spec argsort Ha PETAL_LOC cat open content Hne Hs Hf).
Qed.
Print Assumptions C08_tile_reader_alignment.
(** mocks: the true continuum belongs to the quasar, too *)
Theorem C08_mock_reader_alignment
  (D E C : Type) (argsort : list Z -> list nat) (cat : list row) (f : specfile D E)
  (truth : list (Z * C)) specs :
  argsort_ok argsort ->
  StronglySorted (fun a b => (TARGETID a < TARGETID b)%Z) cat ->
  NoDup (map fst (fibermap f)) -> List.length (images f) = List.length (fibermap f) ->
  NoDup (map fst truth) ->
  read_onehealpix_file_mock argsort cat f truth = Ok specs ->
  map fst specs = filter (fun r => zmem (TARGETID r) (map fst (fibermap f))) cat /\
  forall r d c, In (r, (d, c)) specs ->
    (exists i e, nth_error (fibermap f) i = Some (TARGETID r, e) /\ nth_error (images f) i = Some d) /\
    In (TARGETID r, c) truth.
Proof. exact (read_mock_spec argsort cat f truth specs). Qed.
Print Assumptions C08_mock_reader_alignment.
Example C08_ex :
  let cat := [mkr 1 2 1 7 0; mkr 3 2 1 7 0; mkr 4 2 1 7 0; mkr 9 2 1 7 0] in
  let f := mkfile [(4, tt); (7, tt); (1, tt); (9, tt)]%Z [204; 207; 201; 209]%Z in
  rmap (map (fun x => (TARGETID (fst x), snd x))) (read_coadd_group argsort_ex cat f)
    = Ok [(1, 201); (4, 204); (9, 209)]%Z /\
  rmap (map (fun x => (TARGETID (fst x), snd x)))
       (read_onehealpix_file_mock argsort_ex cat f [(9, 309); (1, 301); (5, 305); (4, 304)]%Z)
    = Ok [(1, (201, 301)); (4, (204, 304)); (9, (209, 309))]%Z.
Proof. split; vm_compute; reflexivity. Qed.

(** ** C09 *)
Theorem C09_exposure_reader_alignment
  (D E : Type) (argsort : list Z -> list nat) (cat : list row) (f : specfile D E) :
  argsort_ok argsort ->
  StronglySorted (fun a b => (TARGETID a < TARGETID b)%Z) cat ->
  List.length (images f) = List.length (fibermap f) ->
  exists specs, read_uncoadd_group argsort cat f = Ok specs /\
    (forall r e d, In ((r, e), d) specs -> In r cat) /\
    (* (TARGETID, exposure metadata, data) triples of the result = those of the file rows *)
    Permutation (map (fun x => ((TARGETID (fst (fst x)), snd (fst x)), snd x)) specs)
      (filter (fun x => zmem (fst (fst x)) (map TARGETID cat)) (combine (fibermap f) (images f))).
Proof. exact (fun H => read_uncoadd_group_spec argsort H cat f). Qed.
Print Assumptions C09_exposure_reader_alignment.
Example C09_ex :
  let cat := [mkr 1 2 1 7 0; mkr 3 2 1 7 0; mkr 4 2 1 7 0] in
  let f := mkfile [(4, 1); (1, 2); (4, 3); (9, 4); (1, 5)]%Z [11; 12; 13; 14; 15]%Z in
  rmap (map (fun x => (TARGETID (fst (fst x)), snd (fst x), snd x))) (read_uncoadd_group argsort_ex cat f)
    = Ok [(1, 2, 12); (1, 5, 15); (4, 1, 11); (4, 3, 13)]%Z.
Proof. vm_compute; reflexivity. Qed.

(** ** C10 *)
Theorem C10_resolution_alignment_partial
  (D E : Type) (f : specfile D E) (ids : list Z) :
  StronglySorted Z.lt ids -> (forall t, In t ids -> In t (map fst (fibermap f))) ->
  read_onehealpix_file_onlyreso ids f ids
  = map (fun t => (t, nth_error (images f) (index_of t (map fst (fibermap f))))) ids.
Proof. exact (onlyreso_all_found f ids). Qed.
Print Assumptions C10_resolution_alignment_partial.
Example C10_ex :
  read_onehealpix_file_onlyreso [1; 3; 4]%Z
    (mkfile [(4, tt); (9, tt); (1, tt); (3, tt)]%Z [204; 209; 201; 203]%Z) [1; 3; 4]%Z
  = [(1, Some 201); (3, Some 203); (4, Some 204)]%Z.
Proof. vm_compute; reflexivity. Qed.
(** A quasar missing in the file shifts the matrices of the following ones. *)
Theorem C10_missing_quasar_refuted :
  exists (f : specfile Z unit) (ids : list Z) (t : Z) (d : Z),
    StronglySorted Z.lt ids /\ NoDup (map fst (fibermap f)) /\
    In (t, Some d) (read_onehealpix_file_onlyreso ids f ids) /\
    forall i, nth_error (images f) i = Some d -> nth_error (map fst (fibermap f)) i <> Some t.
Proof. exact onlyreso_missing_shifts. Qed.
Print Assumptions C10_missing_quasar_refuted.

(** ** C11 *)
(** In rank order the ranks read, without overlap, exactly the first
    mpi_size * max(1, nfiles / mpi_size) files. *)
Theorem C11_files_read (F : Type) (files : list F) (mpi_size : nat) :
  1 <= mpi_size ->
  concat (map (calib_files_of_rank files mpi_size) (seq 0 mpi_size))
  = firstn (mpi_size * Nat.max 1 (List.length files / mpi_size)) files.
Proof. exact (calib_files_prefix files mpi_size). Qed.
Print Assumptions C11_files_read.
Theorem C11_partition_partial (F : Type) (files : list F) (mpi_size : nat) :
  1 <= mpi_size -> List.length files <= mpi_size \/ (exists k, List.length files = k * mpi_size) ->
  concat (map (calib_files_of_rank files mpi_size) (seq 0 mpi_size)) = files.
Proof. exact (calib_files_partition files mpi_size). Qed.
Print Assumptions C11_partition_partial.
Example C11_ex : map (calib_files_of_rank [1;2;3;4;5;6] 3) (seq 0 3) = [[1;2];[3;4];[5;6]] /\
  map (calib_files_of_rank [1;2] 3) (seq 0 3) = [[1];[2];[]].
Proof. split; vm_compute; reflexivity. Qed.
(** The last nfiles mod mpi_size files are never read. *)
Theorem C11_all_files_read_refuted :
  exists (files : list nat) (mpi_size : nat), 1 <= mpi_size /\ NoDup files /\
    exists f, In f files /\
      forall rank, rank < mpi_size -> ~ In f (calib_files_of_rank files mpi_size rank).
Proof. exact calib_files_lost. Qed.
Print Assumptions C11_all_files_read_refuted.

(** ** C12 *)
Theorem C12_fnc_bcast_all_or_none (T : Type) (mpi_size : nat) (msg : string) (fnc : nat -> res T) :
  1 <= mpi_size -> fnc 0 <> Err SysExit ->
  spmd mpi_size (fun rank => mpi_fnc_bcast true rank msg (fnc rank)) =
  match fnc 0 with
  | Ok v => Done (repeat (Finished v) mpi_size)
  | Err _ => Done (repeat (Failed (QsonicExn msg)) mpi_size)
  end.
Proof. exact (mpi_fnc_bcast_run mpi_size msg fnc). Qed.
Print Assumptions C12_fnc_bcast_all_or_none.
Theorem C12_parse_all_or_none (T : Type) (mpi_size : nat) (parse : nat -> res T) (logic : T -> res bool) :
  1 <= mpi_size ->
  (* argparse and the logic functions do not raise QsonicException *)
  (forall m, parse 0 <> Err (QsonicExn m)) -> (forall a m, logic a <> Err (QsonicExn m)) ->
  (exists a, parse 0 = Ok a /\ logic a = Ok true /\
     spmd mpi_size (fun rank => mpi_parse rank (parse rank) logic) = Done (repeat (Finished a) mpi_size)) \/
  spmd mpi_size (fun rank => mpi_parse rank (parse rank) logic) = Done (repeat (Failed SysExit) mpi_size) \/
  spmd mpi_size (fun rank => mpi_parse rank (parse rank) logic) = Aborted \/
  (mpi_size = 1 /\ exists e,
     spmd mpi_size (fun rank => mpi_parse rank (parse rank) logic) = Done [Failed e]).
Proof. exact (mpi_parse_all_or_none mpi_size parse logic). Qed.
Print Assumptions C12_parse_all_or_none.
(** Only the value of rank 0 matters; with SystemExit raised by the wrapped
    function the other ranks would wait forever. *)
Theorem C12_system_exit_refuted :
  spmd 2 (fun rank => mpi_fnc_bcast true rank "" (if Nat.eqb rank 0 then Err SysExit else Ok 1)) = Deadlock.
Proof. exact eq_refl. Qed.
Print Assumptions C12_system_exit_refuted.
Example C12_ex :
  spmd 3 (fun rank => mpi_fnc_bcast true rank "msg" (if Nat.eqb rank 0 then Ok 5 else Err (OtherExn "x")))
    = Done [Finished 5; Finished 5; Finished 5] /\
  spmd 2 (fun rank => mpi_fnc_bcast true rank "msg" (if Nat.eqb rank 0 then Err (OtherExn "x") else Ok 5))
    = Done [Failed (QsonicExn "msg"); Failed (QsonicExn "msg")].
Proof. split; vm_compute; reflexivity. Qed.

(** ** C40 *)
Theorem C40_input_continua_attached
  (S C : Type) (sid spix : S -> Z) (argsort2 : list (Z * Z) -> list nat)
  (files : Z -> option (contfile C)) (specs : list S) :
  (* argsort(order=['HPXPIXEL', 'TARGETID']) sorts by pixel *)
  (forall l, Permutation (argsort2 l) (seq 0 (List.length l)) /\
     StronglySorted Z.le (map (fun i => fst (nth i l (0%Z, 0%Z))) (argsort2 l))) ->
  (forall p f, files p = Some f -> cf_wave1 f <> 0%Qc /\ List.length (cf_ids f) = List.length (cf_cont f)) ->
  specs <> [] ->
  exists r, read_continua sid spix argsort2 files specs = Ok r /\
    Permutation (map fst r) specs /\
    forall s a, In (s, a) r ->
      match a with
      | Some (w1, dw, c) =>
          exists f i, files (spix s) = Some f /\ w1 = cf_wave1 f /\ dw = cf_dwave f /\
            nth_error (cf_ids f) i = Some (sid s) /\ nth_error (cf_cont f) i = Some c
      | None => forall f, files (spix s) = Some f -> ~ In (sid s) (cf_ids f)
      end.
Proof. exact (read_continua_all sid spix argsort2 files specs). Qed.
Print Assumptions C40_input_continua_attached.
Example C40_ex :
  let argsort2 := fun l => argsort_ex (map fst l) in
  let files := fun p => if Z.eqb p 7 then Some (mkcont (zq 1000) (zq 1) [4; 2; 8]%Z [104; 102; 108]%Z) else None in
  match read_continua (fun s => fst s) (fun s => snd s) argsort2 files [(8, 7); (2, 9); (2, 7); (5, 7)]%Z with
  | Ok r => map (fun x => (fst x, option_map snd (snd x))) r
            = [((8, 7), Some 108); ((2, 7), Some 102); ((5, 7), None); ((2, 9), None)]%Z
  | Err _ => False
  end.
Proof. vm_compute. reflexivity. Qed.
