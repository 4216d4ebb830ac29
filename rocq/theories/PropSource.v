(** C72: the values in the delta files are those of the pixels that were read. *)
From Coq Require Import QArith_base ZArith String List Bool Arith Lia Qcanon.
From Verif Require Import Num NpList Exn Dict Mpi ModelMpiUtils ModelSpectrum ModelMasks ModelContinuum ModelStack ModelSubsample
  ModelBlinding ModelVarFit ModelFitter ModelCatalog ModelFitArgs ModelIO ModelDelta ModelPipeline SpecMpi SpecFinal SpecCatalog SpecPipeline SpecSpectrum SpecMasks SpecWeights SpecCoadd SpecSelect
  SpecPixels SpecSource Examples1 PropFitter PropPipeline PropRanks PropComplete PropPixels ProofPixels6 ProofSource2 ProofSource5.
Import ListNotations.
Local Open Scope nat_scope.

(** A run that neither coadds arms nor reads exposures after the fit: every HDU of its
    delta files belongs to one spectrum that the rank has read, of the same catalog
    entry.  Its rows are the pixels of that arm in the requested window, all of them
    and in their order.  An unmasked row has DELTA = F / CONT - 1, where F is the flux
    that was read, divided by the flux calibration and the transmission of the DLAs of
    the quasar; IVAR = I CONT^2 for the inverse variance I that was read, with the
    noise calibration and the same factors, unless the run is told to change the
    inverse variance after the fit (the eta calibration of the fit, or the additive
    noise calibration). *)
Theorem C72_values profile ang2pix row_of logic argsort hpix_of g ev ev_stack slope minimizer input_cont true_cont
    nsqrt uspline xs quad min_num_pix min_num_qso cholesky curve_fit vspline write_ok iter_suffix smooth junk dwave w n f a
    mean_resolution ra_dec st r s hdus h :
  1 <= n -> sky_alike w n -> argsort_ok argsort ->
  (forall c, TARGETID (row_of c) = c_targetid c) -> reads_requested row_of w ->
  finishes n (fun r => run_all ang2pix (fun x z nhi => Fin (profile x z nhi)) row_of logic argsort hpix_of g ev ev_stack slope minimizer input_cont true_cont
      nsqrt uspline xs quad min_num_pix min_num_qso cholesky curve_fit vspline write_ok iter_suffix smooth junk dwave w r n) f ->
  w_parse w = Parsed a -> r_coadd a = Disable -> r_exposures a <> After ->
  (forall r b cat m s, w_reader w false r b cat = Some m -> In s m -> fresh s /\ unread s) ->
  r < n -> In s (concat (map snd (f r))) -> spec_write mean_resolution ra_dec st s = Ok hdus -> In h hdus ->
  h_targetid h = c_targetid (s_cat s) /\
  exists b cat m s0 px, w_reader w false r b cat = Some m /\ In s0 m /\ s_cat s0 = s_cat s /\ forest_pixels a s0 (h_arm h) = Some px /\
    table_of profile ev w a (masked_in_run profile w a r) (g_etacal (g a) = false /\ r_noise a && r_additive a = false) (s_cat s) px h.
Proof.
  exact (fun Hn Hs Ha Hi Hq Hf Ea Hc He R => values_thm profile ang2pix row_of logic argsort hpix_of g ev ev_stack slope minimizer input_cont true_cont
    nsqrt uspline xs quad min_num_pix min_num_qso cholesky curve_fit vspline write_ok iter_suffix smooth junk dwave w n Hn Hs Ha a mean_resolution ra_dec st f Hi Hq R Hc He Hf Ea r s hdus h).
Qed.
Print Assumptions C72_values.

(** A run that coadds the arms before the fit: the same, with the inverse variance
    weighted average of the forest pixels of all arms in place of the pixels of one. *)
Theorem C72_coadded profile ang2pix row_of logic argsort hpix_of g ev ev_stack slope minimizer input_cont true_cont
    nsqrt uspline xs quad min_num_pix min_num_qso cholesky curve_fit vspline write_ok iter_suffix smooth junk dwave w n f a
    mean_resolution ra_dec st r s hdus h :
  1 <= n -> sky_alike w n -> argsort_ok argsort ->
  (forall c, TARGETID (row_of c) = c_targetid c) -> reads_requested row_of w ->
  finishes n (fun r => run_all ang2pix (fun x z nhi => Fin (profile x z nhi)) row_of logic argsort hpix_of g ev ev_stack slope minimizer input_cont true_cont
      nsqrt uspline xs quad min_num_pix min_num_qso cholesky curve_fit vspline write_ok iter_suffix smooth junk dwave w r n) f ->
  w_parse w = Parsed a -> r_coadd a = Before -> r_exposures a <> After ->
  (0 < dwave)%Qc -> (forall iv sig, length (smooth iv sig) = length iv) ->
  (forall r b cat m s, w_reader w false r b cat = Some m -> In s m -> fresh s /\ unread s /\ clean dwave s) ->
  r < n -> In s (concat (map snd (f r))) -> spec_write mean_resolution ra_dec st s = Ok hdus -> In h hdus ->
  h_targetid h = c_targetid (s_cat s) /\
  exists b cat m s0 px, w_reader w false r b cat = Some m /\ In s0 m /\ s_cat s0 = s_cat s /\
    (h_arm h = "brz"%string /\ coadded dwave (forest_all a s0) px) /\
    table_of profile ev w a (masked_in_run profile w a r) (g_etacal (g a) = false /\ r_noise a && r_additive a = false) (s_cat s) px h.
Proof.
  exact (fun Hn Hs Ha Hi Hq Hf Ea Hc He Hd Hl R => coadded_thm profile ang2pix row_of logic argsort hpix_of g ev ev_stack slope minimizer input_cont true_cont
    nsqrt uspline xs quad min_num_pix min_num_qso cholesky curve_fit vspline write_ok iter_suffix smooth junk dwave w n Hn Hs Ha a mean_resolution ra_dec st f Hi Hq Hl Hd R Hc He Hf Ea r s hdus h).
Qed.
Print Assumptions C72_coadded.

(** A run on two ranks with a sky mask at 3601 Angstrom, an absorber that takes a tenth
    of the light at 3602 and all of it at 3604, eta = 2 and flux factor 4: quasar 5 has
    flux 1, 2, ..., 7 and inverse variance 8 at 3599, ..., 3605. *)
Definition src_args : runargs :=
  mkRun true true false None true true (zq 3600) (zq 3640) (zq 1200) (zq 1202) (fq 1 2) n1 n0 0 Disable Disable
    true false true true true false false true.
Definition src_profile (x z nhi : Qc) : Qc := if qeqb x (zq 3602) then fq 9 10 else if qeqb x (zq 3604) then 0%Qc else 1%Qc.
Definition src_spec (tid pix : Z) : spec :=
  let s := co_spec tid pix n1 one_arm in
  mkSpec (s_cat s) (s_wave s) (dmap (map (fun x => Fin (x - zq 3598))) (s_wave s)) (dmap (map (fun _ => Fin (zq 8))) (s_wave s))
    [] n1 None empty_forest 0 false [n0] n0 [].
Definition src_world : world :=
  mkWorld (Parsed src_args) true (Some (mkcat cols_ex [run_row 5 8; run_row 4 7; run_row 3 8])) true
    (fun _ => Some [mkSky (zq 3601) (fq 7203 2) OBS]) (fun _ => Some [mkDla 5 (zq 2) (zq 21)])
    (fun _ _ _ cat => Some (map (fun r => src_spec (TARGETID r) (HPXPIXEL r)) (filter is_run_row cat)))
    (fun _ _ => Some (mkInt true (zq 3600) 1 [Fin (zq 2)] [n0], ex_fid)) (fun _ _ => Some (mkInt true (zq 3600) 1 [Fin (zq 4)] [n0]))
    None (Some ex_fid) None (fun _ => true) true (fun _ => true).
Definition src_run (w : world) (r : nat) : prog pval (@saved spec) :=
  run_all pix_ex (fun x z nhi => Fin (src_profile x z nhi)) run_row_of (fun _ => true) argsort_ex (fun s => c_hpix (s_cat s)) (fun _ => ex_g 2 false false false)
    ex_ev (fun _ _ => Fin (zq 2)) (fun _ => n0)
    (fun _ _ _ _ s _ => Some (mkMin (negb (Z.eqb (c_targetid (s_cat s)) 3)) [Fin (zq 2)] [[n1]])) (fun _ => None) (fun _ _ => n1)
    (fun _ => Fin (fq 1 100)) (fun _ y _ => Some y) [0; 1]%Qc ex_simpson 0 0 (fun _ => true)
    (fun _ _ _ _ => Some ([Fin (fq 1 5)], [Fin (fq 1 5)])) (fun _ y _ => Some y)
    (fun _ => true) (fun _ => ""%string) (fun a _ => a) (fun _ => n0) 1%Qc w r 2.
Definition src_table (l : list (Z * list spec)) : option (list (list column)) :=
  match concat (map snd l) with
  | s :: _ => match px_write s with Ok hs => Some (map (fun h => map snd (h_cols h)) hs) | _ => None end
  | [] => None end.
Definition src_rows : list (list column) :=
  let wt := Fin (fq 1280 133) in
  [[CWave (map zq [3600; 3601; 3602; 3603; 3604; 3605]%Z);
    CNum [Fin (fq (-3) 4); n0; Fin (fq (-4) 9); Fin (fq (-3) 8); n0; Fin (fq (-1) 8)];
    CNum [Fin (zq 256); n0; Fin (fq 5184 25); Fin (zq 256); n0; Fin (zq 256)];
    CNum [wt; n0; Fin (fq 25920 2717); wt; n0; wt];
    CNum (repeat (Fin (zq 2)) 6)]].
Lemma src_finishes : finished2 (spmd 2 (src_run src_world)) = true /\
  names (spmd 2 (src_run src_world)) = Some [Some [(8, [5])]; Some [(7, [4])]]%Z /\
  src_table (result2 (spmd 2 (src_run src_world)) 0) = Some src_rows.
Proof. split; [|split]; lazy; reflexivity. Qed.
Lemma src_fresh r b cat m s : w_reader src_world false r b cat = Some m -> In s m -> fresh s /\ unread s.
Proof.
  intros E Hs. cbn [w_reader src_world] in E. injection E as <-. apply in_map_iff in Hs as (q & <- & _). split; [|now repeat split].
  split; [reflexivity|]. split; [repeat constructor; cbn; intuition discriminate|]. split.
  - intro arm. unfold len_at. cbn. destruct (String.eqb arm "b"); easy.
  - intros arm wv. cbn. destruct (String.eqb arm "b"); [|discriminate]. intro H. injection H as <-. repeat constructor.
Qed.
Lemma src_requested : reads_requested run_row_of src_world.
Proof.
  intros again r e cat l s E Hs. refine (run_reader_rows false true (fun _ => None) again r e cat (map (fun r => run_spec (TARGETID r) (HPXPIXEL r)) (filter is_run_row cat)) (run_spec (c_targetid (s_cat s)) (c_hpix (s_cat s))) eq_refl _).
  cbn [w_reader src_world] in E. injection E as <-. apply in_map_iff in Hs as (q & <- & Hq). cbn [src_spec co_spec s_cat c_targetid c_hpix]. apply in_map_iff. exists q. now split.
Qed.
Example C72_ex :
  sky_alike src_world 2 /\ argsort_ok argsort_ex /\ (forall c, TARGETID (run_row_of c) = c_targetid c) /\ reads_requested run_row_of src_world /\
  finishes 2 (src_run src_world) (result2 (spmd 2 (src_run src_world))) /\
  w_parse src_world = Parsed src_args /\ r_coadd src_args = Disable /\ r_exposures src_args <> After /\
  (forall r b cat m s, w_reader src_world false r b cat = Some m -> In s m -> fresh s /\ unread s) /\
  names (spmd 2 (src_run src_world)) = Some [Some [(8, [5])]; Some [(7, [4])]]%Z /\
  src_table (result2 (spmd 2 (src_run src_world)) 0) = Some src_rows.
Proof.
  destruct src_finishes as (F & N & T). split; [intros a Ea _ r Hr; split; discriminate|]. split; [exact argsort_ex_ok|]. split; [reflexivity|].
  split; [exact src_requested|]. split; [exact (finished2_finishes _ F)|]. split; [reflexivity|]. split; [reflexivity|]. split; [discriminate|].
  split; [exact src_fresh|]. split; [exact N|exact T].
Qed.
(** what the specification says about quasar 5 at 3602 Angstrom: flux 4 and inverse
    variance 8 become 4 / 4 / 0.9 and 8 / 2 * 16 * 0.81, and 3601 is masked *)
Example C72_values_ex : let c := mkCatrow 5 8 (zq 2) None [] [] [] [] in
  option_map (map p_flux) (forest_pixels src_args (src_spec 5 8) "b") = Some (map (fun k => Fin (zq k)) [2; 3; 4; 5; 6; 7]%Z) /\
  run_flux src_profile ex_ev src_world src_args c (zq 3602) (Fin (zq 4)) = Fin (fq 10 9) /\
  run_ivar src_profile ex_ev src_world src_args c (zq 3602) (Fin (zq 8)) = Fin (fq 1296 25) /\
  nsub (ndiv (Fin (fq 10 9)) (Fin (zq 2))) n1 = Fin (fq (-4) 9) /\ nmul (Fin (fq 1296 25)) (nsq (Fin (zq 2))) = Fin (fq 5184 25) /\
  masked_in_run src_profile src_world src_args 0 c (zq 3601) /\ ~ masked_in_run src_profile src_world src_args 0 c (zq 3602).
Proof.
  cbv zeta. split; [lazy; reflexivity|]. do 4 (split; [lazy; first [reflexivity | apply f_equal, Qc_is_canon; reflexivity]|]). split.
  - left. split; [reflexivity|]. eexists. split; [reflexivity|]. eexists. split; [now left|]. left. split; [reflexivity|]. now split.
  - intros [(_ & rows & E & q & Hq & C)|[(C & _)|(_ & d & E & C & _)]].
    + cbn [w_sky src_world] in E. injection E as <-. destruct Hq as [<-|[]]. cbn [sk_frame sk_min sk_max] in C. destruct C as [(_ & _ & C)|(C & _)]; discriminate C.
    + discriminate C.
    + cbn [w_dla src_world] in E. injection E as <-. discriminate C.
Qed.

(** The same run with two arms that share 3602 and 3603 Angstrom: b as above, but
    up to 3603, and r from 3602 on, with twice the flux and inverse variance 24.  Where
    both have a pixel the coadd has 7/4 of the flux of b and inverse variance 32. *)
Definition arm2_args : runargs :=
  mkRun true true false None true true (zq 3600) (zq 3640) (zq 1200) (zq 1202) (fq 1 2) n1 n0 0 Before Disable
    true false true true true false false true.
Definition arm2_spec (tid pix : Z) : spec :=
  let b := [3599; 3600; 3601; 3602; 3603]%Z in let r := [3602; 3603; 3604; 3605]%Z in
  mkSpec (mkCatrow tid pix (zq 2) None [] [] [] []) [("b"%string, map zq b); ("r"%string, map zq r)]
    [("b"%string, map (fun x => Fin (zq (x - 3598))) b); ("r"%string, map (fun x => Fin (zq (2 * (x - 3598)))) r)]
    [("b"%string, map (fun _ => Fin (zq 8)) b); ("r"%string, map (fun _ => Fin (zq 24)) r)]
    [] n1 None empty_forest 0 false [n0] n0 [].
Definition arm2_world : world :=
  mkWorld (Parsed arm2_args) true (w_catalog src_world) true (w_sky src_world) (w_dla src_world)
    (fun _ _ _ cat => Some (map (fun r => arm2_spec (TARGETID r) (HPXPIXEL r)) (filter is_run_row cat)))
    (w_noise src_world) (w_flux src_world) None (Some ex_fid) None (fun _ => true) true (fun _ => true).
Definition arm2_rows : list (list column) :=
  [[CWave (map zq [3600; 3601; 3602; 3603; 3604; 3605]%Z);
    CNum [Fin (fq (-3) 4); n0; Fin (fq (-1) 36); Fin (fq 3 32); n0; Fin (fq 3 4)];
    CNum [Fin (zq 256); n0; Fin (fq 20736 25); Fin (zq 1024); n0; Fin (zq 768)];
    CNum [Fin (fq 1280 133); n0; Fin (fq 103680 10493); Fin (fq 5120 517); n0; Fin (fq 3840 389)];
    CNum (repeat (Fin (zq 2)) 6)]].
Lemma arm2_finishes : finished2 (spmd 2 (src_run arm2_world)) = true /\
  names (spmd 2 (src_run arm2_world)) = Some [Some [(8, [5])]; Some [(7, [4])]]%Z /\
  src_table (result2 (spmd 2 (src_run arm2_world)) 0) = Some arm2_rows.
Proof. split; [|split]; lazy; reflexivity. Qed.
Lemma arm2_fresh r b cat m s : w_reader arm2_world false r b cat = Some m -> In s m -> fresh s /\ unread s /\ clean 1 s.
Proof.
  intros E Hs. cbn [w_reader arm2_world] in E. injection E as <-. apply in_map_iff in Hs as (q & <- & _). split; [|split; [now repeat split|]].
  - split; [reflexivity|]. split; [repeat constructor; cbn; intuition discriminate|]. split.
    + intro arm. unfold len_at. cbn. destruct (String.eqb arm "b"); [easy|]. destruct (String.eqb arm "r"); easy.
    + intros arm wv. cbn. destruct (String.eqb arm "b"); [intro H; injection H as <-; repeat constructor|].
      destruct (String.eqb arm "r"); [|discriminate]. intro H. injection H as <-. repeat constructor.
  - intro arm. cbn [arm2_spec s_wave s_flux s_ivar dget]. destruct (String.eqb arm "b"); [|destruct (String.eqb arm "r"); [|now repeat split]].
    all: split; [|split]; intros l H; injection H as <-; [intros k x y|repeat constructor|repeat (constructor; [eexists; split; [reflexivity|discriminate]|]); constructor].
    all: do 6 (destruct k as [|k]; [intros E1 E2; try discriminate E2; injection E1 as <-; injection E2 as <-; apply Qc_is_canon; reflexivity|]).
    all: intros E1; destruct k; discriminate E1.
Qed.
Lemma arm2_requested : reads_requested run_row_of arm2_world.
Proof.
  intros again r e cat l s E Hs. refine (run_reader_rows false true (fun _ => None) again r e cat (map (fun r => run_spec (TARGETID r) (HPXPIXEL r)) (filter is_run_row cat)) (run_spec (c_targetid (s_cat s)) (c_hpix (s_cat s))) eq_refl _).
  cbn [w_reader arm2_world] in E. injection E as <-. apply in_map_iff in Hs as (q & <- & Hq). cbn [arm2_spec s_cat c_targetid c_hpix]. apply in_map_iff. exists q. now split.
Qed.
Example C72_coadded_ex :
  sky_alike arm2_world 2 /\ argsort_ok argsort_ex /\ (forall c, TARGETID (run_row_of c) = c_targetid c) /\ reads_requested run_row_of arm2_world /\
  finishes 2 (src_run arm2_world) (result2 (spmd 2 (src_run arm2_world))) /\
  w_parse arm2_world = Parsed arm2_args /\ r_coadd arm2_args = Before /\ r_exposures arm2_args <> After /\
  (forall r b cat m s, w_reader arm2_world false r b cat = Some m -> In s m -> fresh s /\ unread s /\ clean 1 s) /\
  names (spmd 2 (src_run arm2_world)) = Some [Some [(8, [5])]; Some [(7, [4])]]%Z /\
  src_table (result2 (spmd 2 (src_run arm2_world)) 0) = Some arm2_rows.
Proof.
  destruct arm2_finishes as (F & N & T). split; [intros a Ea _ r Hr; split; discriminate|]. split; [exact argsort_ex_ok|]. split; [reflexivity|].
  split; [exact arm2_requested|]. split; [exact (finished2_finishes _ F)|]. split; [reflexivity|]. split; [reflexivity|]. split; [discriminate|].
  split; [exact arm2_fresh|]. split; [exact N|exact T].
Qed.
(** the eight forest pixels of the two arms, and the coadd at 3602 Angstrom *)
Example C72_coadd_values_ex :
  map (fun p => (p_wave p, p_flux p)) (forest_all arm2_args (arm2_spec 5 8)) =
    map (fun q => (zq (fst q), Fin (zq (snd q)))) [(3600, 2); (3601, 3); (3602, 4); (3603, 5); (3602, 8); (3603, 10); (3604, 12); (3605, 14)]%Z /\
  (let here := filter (fun q => on_pixel (zq 3600) 1 2 (p_wave q)) (forest_all arm2_args (arm2_spec 5 8)) in
   qsum (map (fun q => nval (p_ivar q)) here) = zq 32 /\
   (qsum (map (fun q => nval (p_ivar q) * nval (p_flux q)) here) / zq 32 = zq 7)%Qc).
Proof. split; [lazy; reflexivity|]. split; apply Qc_is_canon; reflexivity. Qed.
