(** C77: uninitialised memory and the results. *)
From Coq Require Import QArith_base ZArith String List Bool Arith Lia Qcanon.
From Verif Require Import Num NpList Exn Dict Mpi ModelMpiUtils ModelCatalog ModelSpectrum ModelDelta ModelIO ModelStack ModelVarFit ModelContinuum ModelFitter ModelChi2 ModelChi2Run ModelPipeline
  SpecMemory Examples1 PropPipeline PropComplete PropFitter PropPixels PropChi2Run ProofMemory2 ProofMemory3 ProofMemory4 ProofMemory5.
Import ListNotations.
Local Open Scope nat_scope.

(** Unless the arms are coadded after the fit, what memory from np.empty holds has no influence on the run: all
    ranks end the same way, with the same spectra in the same files. *)
Theorem C77_not_after ang2pix dla_flux row_of logic argsort hpix_of g ev ev_stack slope minimizer input_cont true_cont
    nsqrt uspline xs quad min_num_pix min_num_qso cholesky curve_fit vspline write_ok iter_suffix smooth junk junk' dwave w n :
  (forall again rank e cat l s, w_reader w again rank e cat = Some l -> In s l -> s_cont s = []) ->
  (forall a, w_parse w = Parsed a -> r_coadd a <> After) ->
  spmd n (fun r => run_all ang2pix dla_flux row_of logic argsort hpix_of g ev ev_stack slope minimizer input_cont true_cont
    nsqrt uspline xs quad min_num_pix min_num_qso cholesky curve_fit vspline write_ok iter_suffix smooth junk dwave w r n) =
  spmd n (fun r => run_all ang2pix dla_flux row_of logic argsort hpix_of g ev ev_stack slope minimizer input_cont true_cont
    nsqrt uspline xs quad min_num_pix min_num_qso cholesky curve_fit vspline write_ok iter_suffix smooth junk' dwave w r n).
Proof.
  exact (not_after_thm ang2pix dla_flux row_of logic argsort hpix_of g ev ev_stack slope minimizer input_cont true_cont
    nsqrt uspline xs quad min_num_pix min_num_qso cholesky curve_fit vspline write_ok iter_suffix smooth junk junk' dwave w n).
Qed.
Print Assumptions C77_not_after.

(** With arms coadded after the fit, finite contents have no influence but on CONT in pixels with DELTA = IVAR = 0.
    Missing: contents that are not finite (C77_nan_refuted), and exposures read after the fit. *)
Theorem C77_deltas_partial ang2pix dla_flux row_of logic argsort hpix_of g ev ev_stack slope minimizer input_cont true_cont
    nsqrt uspline xs quad min_num_pix min_num_qso cholesky curve_fit vspline write_ok iter_suffix smooth junk junk' dwave w n
    mean_resolution ra_dec st :
  (forall again rank e cat l s, w_reader w again rank e cat = Some l -> In s l -> s_cont s = []) ->
  (forall a, w_parse w = Parsed a -> r_coadd a = After -> r_exposures a <> After) ->
  keeps_masked smooth -> finite junk -> finite junk' ->
  (forall s c, hpix_of (set_cont c s) = hpix_of s) ->
  (forall s c arm, mean_resolution (set_cont c s) arm = mean_resolution s arm) ->
  same_outcome (same_files (spec_write mean_resolution ra_dec st))
    (spmd n (fun r => run_all ang2pix dla_flux row_of logic argsort hpix_of g ev ev_stack slope minimizer input_cont true_cont
      nsqrt uspline xs quad min_num_pix min_num_qso cholesky curve_fit vspline write_ok iter_suffix smooth junk dwave w r n))
    (spmd n (fun r => run_all ang2pix dla_flux row_of logic argsort hpix_of g ev ev_stack slope minimizer input_cont true_cont
      nsqrt uspline xs quad min_num_pix min_num_qso cholesky curve_fit vspline write_ok iter_suffix smooth junk' dwave w r n)).
Proof.
  exact (deltas_thm ang2pix dla_flux row_of logic argsort hpix_of g ev ev_stack slope minimizer input_cont true_cont
    nsqrt uspline xs quad min_num_pix min_num_qso cholesky curve_fit vspline write_ok iter_suffix smooth junk junk' dwave w n mean_resolution ra_dec st).
Qed.
Print Assumptions C77_deltas_partial.

(** nor on the chi2 catalog *)
Theorem C77_catalog_partial g ev ev_stack slope minimizer input_cont true_cont nsqrt uspline xs quad
    min_num_pix min_num_qso cholesky curve_fit vspline write_ok iter_suffix smooth junk junk' dwave n o (l : nat -> list specx) :
  keeps_masked smooth -> finite junk -> finite junk' ->
  same_outcome (fun x y => snd x = snd y)
    (spmd n (fun r => continuum_fitting_c g ev ev_stack slope minimizer input_cont true_cont nsqrt uspline xs quad
      min_num_pix min_num_qso cholesky curve_fit vspline write_ok iter_suffix smooth junk dwave r o (l r)))
    (spmd n (fun r => continuum_fitting_c g ev ev_stack slope minimizer input_cont true_cont nsqrt uspline xs quad
      min_num_pix min_num_qso cholesky curve_fit vspline write_ok iter_suffix smooth junk' dwave r o (l r))).
Proof.
  exact (catalog_thm g ev ev_stack slope minimizer input_cont true_cont nsqrt uspline xs quad
    min_num_pix min_num_qso cholesky curve_fit vspline write_ok iter_suffix smooth junk junk' dwave n o l).
Qed.
Print Assumptions C77_catalog_partial.

(** If the arms leave no gap, the contents have no influence on the coadd, whatever they are. *)
Theorem C77_covered nsqrt smooth junk junk' dwave varlss eta s :
  arms_cover dwave s ->
  coadd_arms_forest nsqrt smooth junk dwave varlss eta s = coadd_arms_forest nsqrt smooth junk' dwave varlss eta s.
Proof. exact (coadd_covered nsqrt smooth dwave varlss eta junk junk' s). Qed.
Print Assumptions C77_covered.

(** ** an example: the arms leave a gap at 3602 and 3603 Angstrom *)
Definition mem_args (coadd : when) : runargs :=
  mkRun true true false None true true (zq 3600) (zq 3640) (zq 1200) (zq 1202) (fq 1 10) n1 n0 0 coadd Disable
    false false false false false false false true.
Definition mem_world (coadd : when) : world :=
  mkWorld (Parsed (mem_args coadd)) true (Some (mkcat cols_ex [run_row 5 8])) true (fun _ => None) (fun _ => None)
    (fun _ _ _ cat => Some (map (fun r => co_spec (TARGETID r) (HPXPIXEL r) n1 [("b", [3600; 3601]); ("r", [3604; 3605])]%Z%string) (filter is_run_row cat)))
    (fun _ _ => None) (fun _ _ => None) None (Some ex_fid) None (fun _ => true) true (fun _ => true).
Definition mem_run (coadd : when) (junk : num) (r : nat) : prog pval (@saved spec) :=
  run_all pix_ex (fun _ _ _ => n1) run_row_of (fun _ => true) argsort_ex (fun s => c_hpix (s_cat s)) (fun _ => ex_g 2 false false false)
    ex_ev (fun _ _ => Fin (zq 2)) (fun _ => n0)
    (fun _ _ _ _ s _ => Some (mkMin true [Fin (zq 2)] [[n1]])) (fun _ => None) (fun _ _ => n1)
    (fun _ => Fin (fq 1 100)) (fun _ y _ => Some y) [0; 1]%Qc ex_simpson 0 0 (fun _ => true)
    (fun _ _ _ _ => Some ([Fin (fq 1 5)], [Fin (fq 1 5)])) (fun _ y _ => Some y)
    (fun _ => true) (fun _ => ""%string) (fun a _ => a) (fun _ => junk) 1%Qc (mem_world coadd) r 1.
Definition mem_result (coadd : when) (junk : num) : option (list (num * list (list ModelDelta.column))) :=
  match spmd 1 (mem_run coadd junk) with
  | Done [Finished l] => Some (map (fun s => (s_chi2 s, match px_write s with Ok hs => map (fun h => map snd (h_cols h)) hs | Err _ => [] end)) (concat (map snd l)))
  | _ => None
  end.
Definition mem_table (gap cont : num) : list (list ModelDelta.column) :=
  let wt := Fin (fq 20 9) in
  [[CWave (map zq [3600; 3601; 3602; 3603; 3604; 3605]%Z);
    CNum [Fin (fq (-1) 2); Fin (fq (-1) 2); gap; gap; Fin (fq (-1) 2); Fin (fq (-1) 2)];
    CNum [Fin (zq 4); Fin (zq 4); gap; gap; Fin (zq 4); Fin (zq 4)];
    CNum [wt; wt; gap; gap; wt; wt];
    CNum [Fin (zq 2); Fin (zq 2); cont; cont; Fin (zq 2); Fin (zq 2)]]].
Lemma mem_tables : mem_result After n0 = Some [(Fin (fq 20 9), mem_table n0 n0)] /\
  mem_result After (Fin (zq 7)) = Some [(Fin (fq 20 9), mem_table n0 (Fin (zq 7)))] /\
  mem_result After NaN = Some [(NaN, mem_table NaN NaN)].
Proof. split; [|split]; lazy; reflexivity. Qed.
(** CONT is 0 or 7 in the gap; with nan in the memory DELTA, IVAR, WEIGHT and chi2 are nan *)
Example C77_ex :
  (forall coadd again rank e cat l s, w_reader (mem_world coadd) again rank e cat = Some l -> In s l -> s_cont s = []) /\
  w_parse (mem_world After) = Parsed (mem_args After) /\ r_coadd (mem_args After) = After /\ r_exposures (mem_args After) = Disable /\
  keeps_masked (fun a _ => a) /\ finite (fun _ => n0) /\ finite (fun _ => Fin (zq 7)) /\
  mem_result After n0 = Some [(Fin (fq 20 9), mem_table n0 n0)] /\
  mem_result After (Fin (zq 7)) = Some [(Fin (fq 20 9), mem_table n0 (Fin (zq 7)))] /\
  mem_result After NaN = Some [(NaN, mem_table NaN NaN)].
Proof.
  split. { intros coadd again rank e cat l s E Hs. cbn [w_reader mem_world] in E. injection E as <-. apply in_map_iff in Hs as (q & <- & _). reflexivity. }
  split; [reflexivity|]. split; [reflexivity|]. split; [reflexivity|]. split; [intros a x k H; exact H|].
  split; [intro k; now exists 0%Qc|]. split; [intro k; now exists (zq 7)|]. exact mem_tables.
Qed.
(** without coadding after the fit, and with it if the arms have no gap *)
Example C77_not_after_ex : r_coadd (mem_args Disable) <> After /\ match mem_result Disable NaN with Some [(_, t)] => length t | _ => 0 end = 2.
Proof. split; [discriminate|]. lazy. reflexivity. Qed.
Definition mem_spec (b r : list Z) : spec :=
  mkSpec (mkCatrow 5 8 (zq 2) None [] [] [] []) [] [] [] [] n1 None
    (mkForest [("b"%string, map zq b); ("r"%string, map zq r)] [("b"%string, map (fun _ => n1) b); ("r"%string, map (fun _ => n1) r)] []
       [[("b"%string, map (fun _ => n1) b); ("r"%string, map (fun _ => n1) r)]] 0 0 0)
    0 true [n1] n1 [("b"%string, map (fun _ => Fin (zq 2)) b); ("r"%string, map (fun _ => Fin (zq 2)) r)].
Example C77_covered_ex : arms_cover 1 (mem_spec [3600; 3601; 3602]%Z [3602; 3603]%Z) /\
  match coadd_arms_forest (fun x => x) (fun a _ => a) (fun _ => NaN) 1 (fun _ => n1) (fun _ => n1) (mem_spec [3600; 3601; 3602]%Z [3602; 3603]%Z) with
  | Ok s => dget "brz" (s_cont s) = Some (repeat (Fin (zq 2)) 4) | Err _ => False end.
Proof.
  split; [|lazy; reflexivity]. intros firsts lasts mn mx k Ef El Emn Emx. cbn in Ef, El. injection Ef as <-. injection El as <-.
  assert (mn = zq 3600) as -> by (cbn in Emn; injection Emn as <-; apply Qc_is_canon; reflexivity).
  assert (mx = zq 3603) as -> by (cbn in Emx; injection Emx as <-; apply Qc_is_canon; reflexivity).
  cbv zeta. assert (Z.to_nat (qtrunc ((zq 3603 - zq 3600) / 1 + fq 1 10) + 1) = 4) as -> by (lazy; reflexivity). intro K.
  destruct k as [|[|[|[|k]]]]; [| | | |lia].
  - exists "b"%string, (map zq [3600; 3601; 3602]%Z), (zq 3600). split; [now left|]. split; [now left|]. lazy. reflexivity.
  - exists "b"%string, (map zq [3600; 3601; 3602]%Z), (zq 3601). split; [now left|]. split; [right; now left|]. lazy. reflexivity.
  - exists "b"%string, (map zq [3600; 3601; 3602]%Z), (zq 3602). split; [now left|]. split; [right; right; now left|]. lazy. reflexivity.
  - exists "r"%string, (map zq [3602; 3603]%Z), (zq 3603). split; [right; now left|]. split; [right; now left|]. lazy. reflexivity.
Qed.

Lemma mem_chi2 coadd junk : chi2s (spmd 1 (mem_run coadd junk)) = option_map (map fst) (mem_result coadd junk).
Proof.
  unfold mem_result, chi2s. destruct (spmd 1 (mem_run coadd junk)) as [[|[l|] [|]]| |]; try reflexivity.
  cbn [option_map]. now rewrite map_map.
Qed.
Lemma mem_differ : ~ same_outcome (same_files px_write) (spmd 1 (mem_run After n0)) (spmd 1 (mem_run After NaN)).
Proof.
  intro H. apply chi2s_same in H. destruct mem_tables as (E1 & _ & E2). rewrite !mem_chi2, E1, E2 in H. clear E1 E2.
  cbn [option_map map fst] in H. discriminate H.
Qed.
(** Contents that are not finite do have an influence on the deltas and chi2, with arms coadded after the fit. *)
Theorem C77_nan_refuted :
  ~ (forall junk junk', same_outcome (same_files px_write) (spmd 1 (mem_run After junk)) (spmd 1 (mem_run After junk'))).
Proof. exact (fun H => mem_differ (H n0 NaN)). Qed.
Print Assumptions C77_nan_refuted.

(** ** exposures read after the fit, together with coadding after it: the exposure has a pixel at 3603 Angstrom,
    where the arms of the coadd leave a gap *)
Definition gap_args : runargs :=
  mkRun true true false None true true (zq 3600) (zq 3640) (zq 1200) (zq 1202) (fq 1 10) n1 n0 0 After After
    false false false false false false false true.
Definition gap_world : world :=
  mkWorld (Parsed gap_args) true (Some (mkcat cols_ex [run_row 5 8])) true (fun _ => None) (fun _ => None)
    (fun again _ _ cat => Some (map (fun r => co_spec (TARGETID r) (HPXPIXEL r) n1
       (if again then [("b", [3600; 3601]); ("r", [3603; 3604; 3605])] else [("b", [3600; 3601]); ("r", [3604; 3605])])%Z%string) (filter is_run_row cat)))
    (fun _ _ => None) (fun _ _ => None) None (Some ex_fid) None (fun _ => true) true (fun _ => true).
Definition gap_run (junk : num) (r : nat) : prog pval (@saved spec) :=
  run_all pix_ex (fun _ _ _ => n1) run_row_of (fun _ => true) argsort_ex (fun s => c_hpix (s_cat s)) (fun _ => ex_g 2 false false false)
    ex_ev (fun _ _ => Fin (zq 2)) (fun _ => n0)
    (fun _ _ _ _ s _ => Some (mkMin true [Fin (zq 2)] [[n1]])) (fun _ => None) (fun _ _ => n1)
    (fun _ => Fin (fq 1 100)) (fun _ y _ => Some y) [0; 1]%Qc ex_simpson 0 0 (fun _ => true)
    (fun _ _ _ _ => Some ([Fin (fq 1 5)], [Fin (fq 1 5)])) (fun _ y _ => Some y)
    (fun _ => true) (fun _ => ""%string) (fun a _ => a) (fun _ => junk) 1%Qc gap_world r 1.
Definition gap_delta (d : Qc) : list (list (option (string * ModelDelta.column))) :=
  [[Some ("DELTA"%string, CNum [Fin (fq (-1) 2); Fin (fq (-1) 2); n0; Fin d; Fin (fq (-1) 2); Fin (fq (-1) 2)])]].
Lemma gap_deltas : deltas_of px_write (spmd 1 (gap_run (Fin (zq 4)))) = Some (gap_delta (fq (-3) 4)) /\
  deltas_of px_write (spmd 1 (gap_run (Fin (zq 5)))) = Some (gap_delta (fq (-4) 5)).
Proof. split; lazy; reflexivity. Qed.
Lemma gap_differ : ~ same_outcome (same_files px_write) (spmd 1 (gap_run (Fin (zq 4)))) (spmd 1 (gap_run (Fin (zq 5)))).
Proof.
  intro H. apply deltas_of_same in H. destruct gap_deltas as (E1 & E2). rewrite E1, E2 in H. clear E1 E2.
  unfold gap_delta in H. injection H as H. discriminate H.
Qed.
(** There, finite contents do have an influence on DELTA of a pixel that is not masked. *)
Theorem C77_exposures_refuted :
  ~ (forall junk junk', finite junk -> finite junk' ->
       same_outcome (same_files px_write) (spmd 1 (gap_run (junk 0))) (spmd 1 (gap_run (junk' 0)))).
Proof. exact (fun H => gap_differ (H (fun _ => Fin (zq 4)) (fun _ => Fin (zq 5)) (fun _ => ex_intro _ _ eq_refl) (fun _ => ex_intro _ _ eq_refl))). Qed.
Print Assumptions C77_exposures_refuted.
