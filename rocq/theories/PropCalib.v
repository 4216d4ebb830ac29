(** C55, C56, C57: qsonic-calib. *)
From Coq Require Import QArith_base ZArith String List Bool Arith Lia Qcanon Field.
From Verif Require Import Num NpList Exn Dict Mpi ModelMpiUtils ModelSpectrum ModelDelta ModelStack ModelSubsample ModelVarFit
  ModelCatalog ModelCalib SpecMpi SpecFinal SpecCatalog SpecVarFit SpecCalib Examples1 ProofCalib5 ProofCalib6.
Import ListNotations.
Local Open Scope nat_scope.

(** ** C55 *)
(** For all outcomes of all file accesses and fits no rank is left waiting, and
    if the run finishes, every rank had a wanted delta in its block of the files
    and only rank 0 has written. *)
Theorem C55_ends_together ang2pix np nq nsqrt cholesky curve_fit spline y n :
  1 <= n ->
  together n (fun r => calib_run ang2pix np nq nsqrt cholesky curve_fit spline y r n)
    (fun files => exists a D, calib_sample y n a D /\ (forall r, r < n -> D r <> []) /\ forall r, 0 < r < n -> files r = []).
Proof. exact (calib_ends_together ang2pix np nq nsqrt cholesky curve_fit spline y n). Qed.
Print Assumptions C55_ends_together.

(** A run with good input finishes.  Missing: see the next two theorems. *)
Theorem C55_finishes_partial ang2pix np nq nsqrt cholesky curve_fit spline y n a D step nw fit std :
  1 <= n -> calib_ok np nq nsqrt cholesky curve_fit spline y n a D step nw fit std ->
  exists files, finishes n (fun r => calib_run ang2pix np nq nsqrt cholesky curve_fit spline y r n) files.
Proof. exact (fun Hn => calib_finishes ang2pix np nq nsqrt cholesky curve_fit spline y n Hn a D step nw fit std). Qed.
Print Assumptions C55_finishes_partial.

(** A rank whose files have no wanted delta is enough to stop the run, whatever
    the sample of the other ranks. *)
Theorem C55_idle_rank_refuted ang2pix np nq nsqrt cholesky curve_fit spline y n a D r files :
  1 <= n -> calib_sample y n a D -> r < n -> D r = [] ->
  ~ finishes n (fun r => calib_run ang2pix np nq nsqrt cholesky curve_fit spline y r n) files.
Proof. exact (fun Hn => calib_idle ang2pix np nq nsqrt cholesky curve_fit spline y n Hn a D r files). Qed.
Print Assumptions C55_idle_rank_refuted.
(** So is a file with a single TARGETID, if more are to be removed by the catalog. *)
Theorem C55_single_id_refuted ang2pix np nq nsqrt cholesky curve_fit spline y n a id files :
  1 <= n -> y_parse y = CalParsed a -> k_remove a = true -> y_ids y = Some (OneId id) ->
  k_catalog a = true -> k_bal a = true \/ (exists s ss, k_surveys a = Some (s :: ss)) ->
  ~ finishes n (fun r => calib_run ang2pix np nq nsqrt cholesky curve_fit spline y r n) files.
Proof. exact (fun Hn => calib_one_id ang2pix np nq nsqrt cholesky curve_fit spline y n Hn a id files). Qed.
Print Assumptions C55_single_id_refuted.

(** Two ranks and two files.  Sight line 2 is a BAL, 3 is in the text file, 4 has
    a low SNR, 6 is of another survey. *)
Definition cal_edges : list Qc := map zq [1; 2; 4; 8; 16; 32]%Z.
Definition cal_args (w2 : Qc) : calargs :=
  mkCal true true false true (Some [1%Z]) 0 w2 (Some 1%Z) 5 cal_edges false (Fin 1) (Fin (zq 50)).
Definition cal_delta (id : Z) (snr : Z) (w x iv : list Qc) : delta :=
  mkDelta id (zq 0, zq 0) (Fin (zq snr)) w (map Fin x) (map Fin iv) (map (fun _ => Fin (zq 3)) w) (map (fun _ => n1) w) None false.
Definition cal_catalog : catalog :=
  mkcat cols_ex [mkr 1 2 1 10 0; mkr 2 2 1 10 0; mkr 3 2 1 10 0; mkr 4 2 1 10 0; mkr 6 2 0 10 0].
Definition cal_d1 := cal_delta 1 20 [zq 1; zq 2; zq 3] [fq 1 2; fq 1 4; 0%Qc] [fq 3 2; zq 3; zq 6].
Definition cal_d5 := cal_delta 5 20 [zq 1; zq 2; zq 3] [0%Qc; fq 3 4; fq 1 8] [zq 12; zq 24; zq 24].
Definition cal_files (f : string) : list delta :=
  if String.eqb f "a" then [cal_delta 2 20 [zq 1] [0%Qc] [1%Qc]; cal_d1; cal_delta 4 1 [zq 1] [0%Qc] [1%Qc]]
  else [cal_delta 3 20 [zq 1] [0%Qc] [1%Qc]; cal_d5; cal_delta 6 20 [zq 1] [0%Qc] [1%Qc]].
Definition cal_world (ids : idlist) (w2 : Qc) (read : string -> list delta) : calworld :=
  mkCalWorld (CalParsed (cal_args w2)) true (Some ids) (Some cal_catalog) true
    (fun id => if Z.eqb id 2 then [(Fin 1, Fin 1)] else []) (fun _ => []) (Some ["a"; "b"]%string)
    (fun _ f => Some (read f)) (fun _ => Some 1%Qc) (fun _ => true).
Definition cal_curve (x y : list Qc) (p0 : list num) (s : errors) : option (list num * list num) := Some ([Fin (fq 1 8); Fin 1], [Fin 1; Fin 1]).
Definition cal_spline (x : list Qc) (y w : list num) : option (list num) := Some [Fin (fq 1 4)].
Definition cal_D (r : nat) : list delta := match r with 0 => [cal_d1] | _ => [cal_d5] end.
Definition cal_run (w : calworld) (r : nat) : prog cval (list calext) :=
  calib_run (fun _ _ _ => 0%Z) 2 2 (fun x => x) (fun _ => true) cal_curve cal_spline w r 2.
Lemma cal_wanted d w2 ids read : wanted (cal_world ids w2 read) (cal_args w2) d <->
  negb (existsb (Z.eqb (d_targetid d)) (2 :: 6 :: listed ids)%Z) && nltb (Fin 1) (d_meansnr d) && nltb (d_meansnr d) (Fin (zq 50)) = true.
Proof.
  assert (removed (cal_world ids w2 read) (cal_args w2) (d_targetid d) <-> In (d_targetid d) (2 :: 6 :: listed ids)%Z) as R.
  { unfold removed. cbn [k_remove cal_args y_ids cal_world k_catalog y_catalog k_bal k_surveys y_ai y_bi]. split.
    - intros [(_ & i & E & H)|(_ & c & r & E & Hr & Et & _ & _ & H)].
      + injection E as <-. right; right; exact H.
      + injection E as <-. rewrite <- Et. cbn [rows cal_catalog] in Hr. destruct Hr as [<-|[<-|[<-|[<-|[<-|[]]]]]].
        1,3,4: exfalso; destruct H as [(_ & vmin & vmax & H & _)|(ss & Es & _ & H)]; [rewrite <- Et in H; destruct H|injection Es as <-; apply H; now left].
        * left. reflexivity.
        * right; left. reflexivity.
    - intros [E|[E|H]].
      + right. split; [reflexivity|]. exists cal_catalog, (mkr 2 2 1 10 0). split; [reflexivity|]. split; [right; now left|]. split; [exact E|].
        split; [reflexivity|]. split; [reflexivity|]. left. split; [reflexivity|]. exists (Fin 1), (Fin 1). rewrite <- E. split; [now left|]. split; reflexivity.
      + right. split; [reflexivity|]. exists cal_catalog, (mkr 6 2 0 10 0). split; [reflexivity|]. split; [do 4 right; now left|]. split; [exact E|].
        split; [reflexivity|]. split; [reflexivity|]. right. exists [1%Z]. split; [reflexivity|]. split; [discriminate|]. intros [C|[]]. discriminate C.
      + left. split; [reflexivity|]. now exists ids. }
  unfold wanted. cbn [k_minsnr k_maxsnr cal_args]. rewrite R.
  rewrite !andb_true_iff, negb_true_iff. split.
  - intros (H & H1 & H2). split; [split; [|exact H1]|exact H2]. apply not_true_iff_false. intro C. apply H.
    apply existsb_exists in C as (x & Hx & E). apply Z.eqb_eq in E. now rewrite E.
  - intros [[H H1] H2]. split; [|now split]. intro C. apply not_true_iff_false in H. apply H. apply existsb_exists.
    exists (d_targetid d). split; [exact C|apply Z.eqb_refl].
Qed.
Lemma cal_sample_ex w2 : calib_sample (cal_world (Ids [3; 9]%Z) w2 cal_files) 2 (cal_args w2) cal_D.
Proof.
  split; [reflexivity|]. intros r Hr. exists ["a"; "b"]%string, (match r with 0 => [cal_files "a"] | _ => [cal_files "b"] end),
    (fun d => negb (existsb (Z.eqb (d_targetid d)) (2 :: 6 :: listed (Ids [3; 9]%Z))%Z) && nltb (Fin 1) (d_meansnr d) && nltb (d_meansnr d) (Fin (zq 50))).
  split; [reflexivity|]. split; [|split; [intro d; symmetry; apply cal_wanted|destruct r as [|[|r]]; [reflexivity..|lia]]].
  destruct r as [|[|r]]; [| |lia]; (constructor; [reflexivity|constructor]).
Qed.
Lemma cal_on_grid r d : In d (cal_D r) -> on_grid 0 1 d.
Proof.
  assert (forall p q : Qc, (p + 1 = q -> p + 1 <= q)%Qc) as Le by (intros p q <-; apply Qcle_refl).
  assert (forall k z, zq k <> (0 + (zq z + fq 1 2) * 1)%Qc) as No.
  { intros k z E. assert (zq (2 * k) = zq (2 * z + 1)) as E2.
    { rewrite zq_plus, !zq_mult, E, zq_1. assert (zq 2 * fq 1 2 = 1)%Qc as E2 by now apply Qc_is_canon.
      transitivity (zq 2 * zq z + zq 2 * fq 1 2)%Qc; [ring|]. now rewrite E2. }
    apply zq_inj in E2. lia. }
  intro H. assert (d = cal_d1 \/ d = cal_d5) as [-> | ->].
  { destruct r; destruct H as [<-|[]]; [now left|now right]. }
  - split; [exists [fq 1 2; fq 1 4; 0%Qc], [zq 3; zq 3; zq 3]; repeat split|]. split.
    + intros i j L. cbn [cal_d1 cal_delta d_wave length] in L. destruct i as [|[|[|i]]], j as [|[|[|j]]]; try (exfalso; lia); try (apply Le; reflexivity); discriminate.
    + intros w z [<-|[<-|[<-|[]]]]; apply No.
  - split; [exists [0%Qc; fq 3 4; fq 1 8], [zq 3; zq 3; zq 3]; repeat split|]. split.
    + intros i j L. cbn [cal_d5 cal_delta d_wave length] in L. destruct i as [|[|[|i]]], j as [|[|[|j]]]; try (exfalso; lia); try (apply Le; reflexivity); discriminate.
    + intros w z [<-|[<-|[<-|[]]]]; apply No.
Qed.
Definition cal_result (w2 : Qc) : res (list (list num) * list (list num)) :=
  let a := cal_args w2 in
  let arms r := map lss_pixels (cal_D r) in
  fit_result (k_w1 a) (k_w2 a) 1 (k_nv a) (k_edges a) (k_usecov a) (k_nv a * k_nv a) eps (concat (map arms (seq 0 2)))
    (tagged_pixels 2 (k_nv a * k_nv a) arms) 2 2 (fun x => x) (fun _ => true) cal_curve cal_spline 2 (repeat [Fin (fq 1 10); n1] 1) true.
Definition cal_pair (x : res (list (list num) * list (list num))) := match x with Ok p => p | Err _ => ([], []) end.
Lemma cal_ok_ex w2 : (0 < w2)%Qc -> cal_result w2 = Ok (fst (cal_pair (cal_result w2)), snd (cal_pair (cal_result w2))) ->
  calib_ok 2 2 (fun x => x) (fun _ => true) cal_curve cal_spline (cal_world (Ids [3; 9]%Z) w2 cal_files) 2
    (cal_args w2) cal_D 1 1 (fst (cal_pair (cal_result w2))) (snd (cal_pair (cal_result w2))).
Proof.
  intros W R. constructor.
  - apply cal_sample_ex.
  - intros r _. destruct r; discriminate.
  - reflexivity.
  - reflexivity.
  - intros _. exists [3; 9]%Z. reflexivity.
  - clear R. intros _. exists cal_catalog. split; [reflexivity|]. split; [|split; [|split; [|split]]].
    + split; [|split; [intros _|discriminate]]; intros alt H; repeat (destruct H as [<-|H]; [eexists; split; [now left|cbn; tauto]||(eexists; split; [right; now left|cbn; tauto])||(eexists; split; [right; right; now left|cbn; tauto])|]); destruct H.
    + cbn. repeat constructor; cbn; intuition discriminate.
    + exists (mkr 1 2 1 10 0). split; [now left|]. exists (zq 2). split; [reflexivity|]. split; discriminate.
    + reflexivity.
    + intros. cbn. tauto.
  - reflexivity.
  - clear R. intros r d _ Hd. split; [reflexivity|]. split; [now apply (cal_on_grid r)|].
    destruct r; destruct Hd as [<-|[]]; eexists; split; reflexivity.
  - reflexivity.
  - cbn. lia.
  - exact W.
  - split; [reflexivity|]. split; [reflexivity|]. intros i j H. cbn [cal_args k_edges cal_edges map length] in H.
    destruct i as [|[|[|[|[|[|i]]]]]], j as [|[|[|[|[|[|j]]]]]]; try (exfalso; lia); reflexivity.
  - cbn. lia.
  - intros x z w r H. injection H as <-. reflexivity.
  - cbv zeta in *. unfold cal_result at 1 in R. cbv zeta in R. exact R.
Qed.
Definition cal_summary (o : outcome (list calext)) : option (list nat * list Q * list Q) :=
  match o with
  | Done [Finished [VarStats v _ _; VarFunc _ _ _; StackedFlux wave flux]; Finished []] =>
      Some (num_pixels v, map (fun x => this x) wave, map (fun x => this (nval x)) flux)
  | _ => None
  end.
Example C55_ex :
  let w := cal_world (Ids [3; 9]%Z) (zq 4) cal_files in
  calib_ok 2 2 (fun x => x) (fun _ => true) cal_curve cal_spline w 2 (cal_args (zq 4)) cal_D 1 1
    (fst (cal_pair (cal_result (zq 4)))) (snd (cal_pair (cal_result (zq 4)))) /\
  cal_summary (spmd 2 (cal_run w)) = Some ([1; 1; 1; 1; 2], [0; 1; 2; 3; 4]%Q, [0; 5 # 4; 3 # 2; 17 # 16; 0]%Q).
Proof. cbv zeta. split; [apply cal_ok_ex; [reflexivity|lazy; reflexivity]|]. lazy. reflexivity. Qed.
(** the file of rank 1 has only BALs; a file with the single number 3 *)
Definition cal_idle (f : string) : list delta :=
  if String.eqb f "a" then [cal_d1; cal_d5] else [cal_delta 2 20 [zq 1] [0%Qc] [1%Qc]].
Example C55_refuted_ex :
  let idle := cal_world (Ids [3; 9]%Z) (zq 4) cal_idle in
  let one := cal_world (OneId 3) (zq 4) cal_files in
  (exists D, calib_sample idle 2 (cal_args (zq 4)) D /\ D 0 = [cal_d1; cal_d5] /\ D 1 = []) /\
  spmd 2 (cal_run idle) = Aborted /\ (exists e, spmd 2 (cal_run one) = Done [Failed (OtherExn e); Failed (OtherExn e)]) /\
  y_ids one = Some (OneId 3) /\ k_remove (cal_args (zq 4)) = true /\ k_catalog (cal_args (zq 4)) = true /\ k_bal (cal_args (zq 4)) = true.
Proof.
  cbv zeta. split.
  - exists (fun r => match r with 0 => [cal_d1; cal_d5] | _ => [] end). split; [|now split]. split; [reflexivity|].
    intros r Hr. exists ["a"; "b"]%string, (match r with 0 => [cal_idle "a"] | _ => [cal_idle "b"] end),
      (fun d => negb (existsb (Z.eqb (d_targetid d)) (2 :: 6 :: listed (Ids [3; 9]%Z))%Z) && nltb (Fin 1) (d_meansnr d) && nltb (d_meansnr d) (Fin (zq 50))).
    split; [reflexivity|]. split; [|split; [intro d; symmetry; apply cal_wanted|destruct r as [|[|r]]; [reflexivity..|lia]]].
    destruct r as [|[|r]]; [| |lia]; (constructor; [reflexivity|constructor]).
  - split; [lazy; reflexivity|]. split; [eexists; lazy; reflexivity|]. repeat split.
Qed.

(** ** C56 *)
(** The variance statistics and the fit in the output file are those of the
    wanted deltas of all ranks together. *)
Theorem C56_variance_of_sample ang2pix np nq nsqrt cholesky curve_fit spline y n a D files :
  1 <= n -> calib_sample y n a D ->
  finishes n (fun r => calib_run ang2pix np nq nsqrt cholesky curve_fit spline y r n) files ->
  exists v fit std wave flux,
    files 0 = [VarStats v (k_minsnr a) (k_maxsnr a); VarFunc (v_wave v) fit std; StackedFlux wave flux] /\
    forall nw, calib_bins a = Z.of_nat nw -> 1 <= nw -> (k_w1 a < k_w2 a)%Qc -> good_edges (k_nv a) (k_edges a) -> 1 <= k_nv a ->
    (forall x z w r, spline x z w = Some r -> length r = nw) ->
    let arms r := map lss_pixels (D r) in
    let all := concat (map arms (seq 0 n)) in
    let nsub := k_nv a * k_nv a in
    v_wave v = map (bin_center (k_w1 a) (k_w2 a) nw) (seq 0 nw) /\
    shows (k_w1 a) (k_w2 a) nw (k_nv a) (k_edges a) (k_usecov a) nsub eps all (tagged_pixels n nsub arms) v /\
    fit_result (k_w1 a) (k_w2 a) nw (k_nv a) (k_edges a) (k_usecov a) nsub eps all (tagged_pixels n nsub arms)
      np nq nsqrt cholesky curve_fit spline 2 (repeat [Fin (fq 1 10); n1] nw) true = Ok (fit, std).
Proof. exact (fun Hn Hs Hf => calib_variance ang2pix np nq nsqrt cholesky curve_fit spline y n Hn a D files Hs Hf). Qed.
Print Assumptions C56_variance_of_sample.
Example C56_ex :
  let y := cal_world (Ids [3; 9]%Z) (zq 4) cal_files in
  calib_sample y 2 (cal_args (zq 4)) cal_D /\ (exists files, finishes 2 (cal_run y) files) /\
  calib_bins (cal_args (zq 4)) = 1%Z /\ (k_w1 (cal_args (zq 4)) < k_w2 (cal_args (zq 4)))%Qc.
Proof.
  cbv zeta. split; [apply cal_sample_ex|]. split; [|now split].
  refine (C55_finishes_partial _ _ _ _ _ _ _ _ _ _ _ _ _ _ _ _ (proj1 C55_ex)). lia.
Qed.

(** ** C57 *)
(** The stacked flux of the output file at the points w1, w1 + step, ... is the
    weighted mean of 1 + delta over the pixels of the sample less than half a step
    away, provided that no pixel is halfway between two points.  The wavelengths
    written are these points if the range is a multiple of the step.  Missing:
    see the next two theorems. *)
Theorem C57_stacked_flux_partial ang2pix np nq nsqrt cholesky curve_fit spline y n a D files step :
  1 <= n -> calib_sample y n a D ->
  finishes n (fun r => calib_run ang2pix np nq nsqrt cholesky curve_fit spline y r n) files ->
  (0 < step)%Qc -> (k_w1 a <= k_w2 a)%Qc ->
  (forall r d, r < n -> In d (D r) -> y_dlambda y d = Some step /\ on_grid (k_w1 a) step d) ->
  let m := Z.to_nat (qtrunc ((k_w2 a - k_w1 a) / step)%Qc) in
  let point (j : nat) := (k_w1 a + zq (Z.of_nat j) * step)%Qc in
  let sample := flat_map flux_pixels (concat (map D (seq 0 n))) in
  exists v fit std wave,
    files 0 = [VarStats v (k_minsnr a) (k_maxsnr a); VarFunc (v_wave v) fit std;
               StackedFlux wave (map (fun j => Fin (mean_flux (filter (around step (point j)) sample))) (seq 0 (S m)))] /\
    ((k_w2 a - k_w1 a = zq (Z.of_nat m) * step)%Qc -> wave = map point (seq 0 (S m))).
Proof. exact (fun Hn Hs Hf => calib_stack ang2pix np nq nsqrt cholesky curve_fit spline y n Hn a D files step Hs Hf). Qed.
Print Assumptions C57_stacked_flux_partial.

(** If the range is not a multiple of the step, the last flux is written beside
    the wavelength w2, but it is that of pixels around another wavelength. *)
Theorem C57_wavelengths_refuted ang2pix np nq nsqrt cholesky curve_fit spline y n a D files step :
  1 <= n -> calib_sample y n a D ->
  finishes n (fun r => calib_run ang2pix np nq nsqrt cholesky curve_fit spline y r n) files ->
  (0 < step)%Qc -> (k_w1 a + step <= k_w2 a)%Qc ->
  (forall r d, r < n -> In d (D r) -> y_dlambda y d = Some step /\ on_grid (k_w1 a) step d) ->
  let m := Z.to_nat (qtrunc ((k_w2 a - k_w1 a) / step)%Qc) in
  let w := (k_w1 a + zq (Z.of_nat m) * step)%Qc in
  (w <> k_w2 a) ->
  exists v fit std wave flux,
    files 0 = [VarStats v (k_minsnr a) (k_maxsnr a); VarFunc (v_wave v) fit std; StackedFlux wave flux] /\
    length wave = S m /\ length flux = S m /\
    last wave 0%Qc = k_w2 a /\ (w < k_w2 a)%Qc /\
    last flux NaN = Fin (mean_flux (filter (around step w) (flat_map flux_pixels (concat (map D (seq 0 n)))))).
Proof. exact (fun Hn Hs Hf => calib_labels ang2pix np nq nsqrt cholesky curve_fit spline y n Hn a D files step Hs Hf). Qed.
Print Assumptions C57_wavelengths_refuted.
(** the pixel at 3 is written beside 7/2 *)
Example C57_ex :
  let w := cal_world (Ids [3; 9]%Z) (fq 7 2) cal_files in
  calib_ok 2 2 (fun x => x) (fun _ => true) cal_curve cal_spline w 2 (cal_args (fq 7 2)) cal_D 1 1
    (fst (cal_pair (cal_result (fq 7 2)))) (snd (cal_pair (cal_result (fq 7 2)))) /\
  cal_summary (spmd 2 (cal_run w)) = Some ([1; 1; 1; 1; 2], [0; 7 # 6; 7 # 3; 7 # 2]%Q, [0; 5 # 4; 3 # 2; 17 # 16]%Q).
Proof. cbv zeta. split; [apply cal_ok_ex; [reflexivity|lazy; reflexivity]|]. lazy. reflexivity. Qed.

(** Two pixels halfway between the points 1, 2 and 2, 3 are both assigned to 2,
    and the first of them is lost.  (One rank, one delta.) *)
Theorem C57_halfway_refuted (x1 x2 wt1 wt2 : Qc) (y : calworld) (a : calargs) (d : delta) :
  k_w1 a = 0%Qc -> k_w2 a = zq 4 -> y_dlambda y d = Some 1%Qc ->
  d_wave d = [fq 3 2; fq 5 2] -> d_delta d = [Fin x1; Fin x2] -> d_weight d = [Fin wt1; Fin wt2] -> (0 < wt2)%Qc ->
  exists wave flux, spmd 1 (fun _ => stack_fluxes y a [d]) = Done [Finished (wave, flux)] /\
    nth 2 wave 0%Qc = zq 2 /\ map (fun x => this (nval x)) flux = [0; 0; this (1 + x2); 0; 0]%Q.
Proof. exact (calib_halfway x1 x2 wt1 wt2 y a d). Qed.
Print Assumptions C57_halfway_refuted.
Example C57_halfway_ex :
  let y := cal_world (Ids []) (zq 4) cal_files in let d := cal_delta 1 20 [fq 3 2; fq 5 2] [fq 1 2; fq 1 4] [1%Qc; 1%Qc] in
  y_dlambda y d = Some 1%Qc /\ k_w1 (cal_args (zq 4)) = 0%Qc /\ k_w2 (cal_args (zq 4)) = zq 4.
Proof. repeat split. Qed.
