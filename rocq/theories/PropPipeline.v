(** C13, C54: qsonic-fit as a whole. *)
From Coq Require Import QArith_base ZArith String List Bool Arith Lia Qcanon.
From Verif Require Import Num NpList Exn Dict Mpi ModelMpiUtils ModelSpectrum ModelMasks ModelContinuum ModelStack ModelSubsample
  ModelVarFit ModelFitter ModelCatalog ModelIO ModelPipeline SpecMpi SpecFinal SpecCatalog SpecPipeline Examples1
  ProofPipeline2 PropFitter.
Import ListNotations.
Local Open Scope nat_scope.

(** ** C13 *)
(** If the sky mask file, when given, is readable on all ranks or on none, then
    for all outcomes of all other file accesses and local computations no rank
    is left waiting: an unexpected exception ends the job by Abort, or all ranks
    raise the same QsonicException, or all ranks finish.  Missing: the sky mask
    (next theorem). *)
Theorem C13_run_all_partial ang2pix dla_flux row_of logic argsort hpix_of g ev ev_stack slope minimizer input_cont true_cont
    nsqrt uspline xs quad min_num_pix min_num_qso cholesky curve_fit vspline write_ok iter_suffix smooth junk dwave w n :
  1 <= n -> sky_alike w n ->
  together n (fun r => run_all ang2pix dla_flux row_of logic argsort hpix_of g ev ev_stack slope minimizer input_cont true_cont
      nsqrt uspline xs quad min_num_pix min_num_qso cholesky curve_fit vspline write_ok iter_suffix smooth junk dwave w r n)
    (fun _ => True).
Proof. exact (run_all_ends_together ang2pix dla_flux row_of logic argsort hpix_of g ev ev_stack slope minimizer input_cont true_cont
    nsqrt uspline xs quad min_num_pix min_num_qso cholesky curve_fit vspline write_ok iter_suffix smooth junk dwave w n). Qed.
Print Assumptions C13_run_all_partial.

(** two quasars in two healpixels, mock data, one arm of 6 pixels in the forest *)
Definition run_args (sky byhpx : bool) : runargs :=
  mkRun true true false None true byhpx (zq 3600) (zq 3640) (zq 1200) (zq 1202) 0 n0 n0 0 Disable Disable
    sky false false false false false false false.
Definition run_row (tid pix : Z) : row := mkr tid 2 1 pix 10.
Definition run_row_of (c : catrow) : row := run_row (c_targetid c) (c_hpix c).
Definition run_spec (tid pix : Z) : spec :=
  let wv := map zq [3599; 3600; 3601; 3602; 3603; 3604; 3605]%Z in
  mkSpec (mkCatrow tid pix (zq 2) None [] [] [] []) [("b"%string, wv)] [("b"%string, map (fun _ => n1) wv)] [("b"%string, map (fun _ => n1) wv)]
    [] n1 None (mkForest [] [] [] [[]; []; []] 0 1 2) 0 false [n0] n0 [].
Definition is_run_row (r : row) : bool :=
  let q := run_row (TARGETID r) (HPXPIXEL r) in
  match row_z r, row_ra r, row_dec r with
  | Fin z, Fin ra, Fin dec => Qc_eq_bool z (zq 2) && Qc_eq_bool ra (zq (HPXPIXEL r)) && Qc_eq_bool dec 0%Qc
  | _, _, _ => false end &&
  Z.eqb (SURVEY r) (SURVEY q) && Z.eqb (TILEID r) (TILEID q) && Z.eqb (PETAL_LOC r) (PETAL_LOC q) && Z.eqb (LASTNIGHT r) (LASTNIGHT q).
Definition run_reader (cat : list row) : option (list spec) :=
  Some (map (fun r => run_spec (TARGETID r) (HPXPIXEL r)) (filter is_run_row cat)).
Definition run_world (sky byhpx : bool) (skyfile : nat -> option (list skyrow)) : world :=
  mkWorld (Parsed (run_args sky byhpx)) true (Some (mkcat cols_ex [run_row 5 8; run_row 4 7])) true skyfile (fun _ => None)
    (fun _ _ _ => run_reader) (fun _ _ => None) (fun _ _ => None) None None None (fun _ => true) true (fun _ => true).
Definition run_ex (w : world) (r : nat) : prog pval (@saved spec) :=
  run_all pix_ex (fun _ _ _ => n1) run_row_of (fun _ => true) argsort_ex (fun s => c_hpix (s_cat s)) (fun _ => ex_g 2 false false false)
    ex_ev (fun _ _ => Fin (zq 2)) (fun _ => n0) (fun _ _ _ _ _ _ => Some (mkMin true [Fin (zq 2)] [[n1]])) (fun _ => None) (fun _ _ => n1)
    (fun _ => Fin (fq 1 100)) (fun _ y _ => Some y) [0; 1]%Qc ex_simpson 0 0 (fun _ => true)
    (fun _ _ _ _ => Some ([Fin (fq 1 5)], [Fin (fq 1 5)])) (fun _ y _ => Some y)
    (fun _ => true) (fun _ => ""%string) (fun a _ => a) (fun _ => n0) 1%Qc w r 2.

(** The file is readable on rank 0 only: rank 1 raises QsonicException and ends
    without Abort; rank 0 waits for it in the next collective call, forever. *)
Theorem C13_sky_mask_refuted : exists w,
  (forall r, w_sky w r = if Nat.eqb r 0 then Some [] else None) /\ spmd 2 (run_ex w) = Deadlock.
Proof. exists (run_world true false (fun r => if Nat.eqb r 0 then Some [] else None)). split; [reflexivity|]. lazy. reflexivity. Qed.
Print Assumptions C13_sky_mask_refuted.

(** names of the files, and TARGETIDs in them, of the ranks *)
Definition names (o : outcome (@saved spec)) : option (list (option (list (Z * list Z)))) :=
  match o with
  | Done l => Some (map (fun e => match e with Finished f => Some (map (fun x => (fst x, map (fun s => c_targetid (s_cat s)) (snd x))) f) | Failed _ => None end) l)
  | _ => None end.
Example C13_nonvacuous :
  let w := run_world true true (fun _ => Some []) in let u := run_world true true (fun _ => None) in
  sky_alike w 2 /\ names (spmd 2 (run_ex w)) = Some [Some [(7, [4])]; Some [(8, [5])]]%Z /\
  sky_alike u 2 /\ spmd 2 (run_ex u) = Done (repeat (Failed (QsonicExn "Error loading SkyMask from mask file")) 2).
Proof.
  cbv zeta. split; [easy|]. split; [lazy; reflexivity|]. split; [easy|lazy; reflexivity].
Qed.

(** ** C54 *)
(** Whatever a finished run has written: only valid spectra of requested quasars
    of the catalog; no quasar is written by two ranks; and no file is written by
    two ranks, unless tile-grouped data are saved by healpix (C04_tile_queues_refuted). *)
Theorem C54_files_of_a_run ang2pix dla_flux row_of logic argsort hpix_of g ev ev_stack slope minimizer input_cont true_cont
    nsqrt uspline xs quad min_num_pix min_num_qso cholesky curve_fit vspline write_ok iter_suffix smooth junk dwave w n f :
  1 <= n -> sky_alike w n -> argsort_ok argsort -> reads_requested row_of w ->
  finishes n (fun r => run_all ang2pix dla_flux row_of logic argsort hpix_of g ev ev_stack slope minimizer input_cont true_cont
      nsqrt uspline xs quad min_num_pix min_num_qso cholesky curve_fit vspline write_ok iter_suffix smooth junk dwave w r n) f ->
  exists a c, w_parse w = Parsed a /\ w_catalog w = Some c /\
    (forall r name ss s, r < n -> In (name, ss) (f r) -> In s ss -> requested a c row_of s) /\
    (forall r1 r2 name1 name2 ss1 ss2 s1 s2, r1 < n -> r2 < n -> r1 <> r2 -> In (name1, ss1) (f r1) -> In (name2, ss2) (f r2) ->
       In s1 ss1 -> In s2 ss2 -> row_id (r_tile a) (row_of (s_cat s1)) <> row_id (r_tile a) (row_of (s_cat s2))) /\
    ((forall s, hpix_of s = HPXPIXEL (row_of (s_cat s))) -> r_byhpx a = false \/ r_tile a = false ->
       forall r1 r2 name, r1 < n -> r2 < n -> r1 <> r2 -> In name (map fst (f r1)) -> ~ In name (map fst (f r2))).
Proof.
  exact (fun Hn Hs Ha Hr => run_all_files ang2pix dla_flux row_of logic argsort hpix_of g ev ev_stack slope minimizer input_cont true_cont
    nsqrt uspline xs quad min_num_pix min_num_qso cholesky curve_fit vspline write_ok iter_suffix smooth junk dwave w n Hn Hs Ha Hr f).
Qed.
Print Assumptions C54_files_of_a_run.
Definition finished2 (o : outcome (@saved spec)) : bool := match o with Done [Finished _; Finished _] => true | _ => false end.
Definition result2 (o : outcome (@saved spec)) (r : nat) : @saved spec :=
  match o with Done [Finished x; Finished y] => match r with 0 => x | _ => y end | _ => [] end.
Lemma finished2_finishes (p : nat -> prog pval (@saved spec)) : finished2 (spmd 2 p) = true -> finishes 2 p (result2 (spmd 2 p)).
Proof. unfold finishes. destruct (spmd 2 p) as [[|[x|] [|[y|] [|]]]| |]; cbn; congruence. Qed.
Lemma run_reader_rows sky byhpx f : reads_requested run_row_of (run_world sky byhpx f).
Proof.
  intros again r e cat l s E Hs. cbn [w_reader run_world] in E. unfold run_reader in E. injection E as <-.
  apply in_map_iff in Hs as (q & <- & Hq). apply filter_In in Hq as [Hq K]. cbn [run_spec s_cat]. unfold run_row_of. cbn [c_targetid c_hpix].
  destruct q as [tid z ra dec sv pix tile pet night]. unfold is_run_row in K. cbn in K.
  destruct z as [z| | |], ra as [ra| | |], dec as [dec| | |]; try discriminate.
  repeat (apply andb_prop in K; destruct K as [K ?]).
  apply Qc_eq_bool_correct in K. repeat match goal with H : Qc_eq_bool _ _ = true |- _ => apply Qc_eq_bool_correct in H end.
  repeat match goal with H : Z.eqb _ _ = true |- _ => apply Z.eqb_eq in H end. subst. exact Hq.
Qed.
Example C54_nonvacuous : let w := run_world true true (fun _ => Some []) in
  sky_alike w 2 /\ argsort_ok argsort_ex /\ reads_requested run_row_of w /\ finishes 2 (run_ex w) (result2 (spmd 2 (run_ex w))) /\
  names (spmd 2 (run_ex w)) = Some [Some [(7, [4])]; Some [(8, [5])]]%Z /\
  forall c, c_hpix c = HPXPIXEL (run_row_of c).
Proof.
  cbv zeta. split; [easy|]. split; [exact argsort_ex_ok|]. split; [apply run_reader_rows|].
  split; [apply finished2_finishes; lazy; reflexivity|]. split; [lazy; reflexivity|reflexivity].
Qed.
