(** C71: only requested and unmasked pixels carry weight in the delta files. *)
From Coq Require Import QArith_base ZArith String List Bool Arith Lia Qcanon.
From Verif Require Import Num NpList Exn Dict Mpi ModelMpiUtils ModelSpectrum ModelMasks ModelContinuum ModelStack ModelSubsample
  ModelBlinding ModelVarFit ModelFitter ModelCatalog ModelFitArgs ModelIO ModelDelta ModelPipeline SpecMpi SpecFinal SpecCatalog SpecPipeline SpecSpectrum SpecMasks SpecSelect
  SpecPixels Examples1 PropFitter PropPipeline PropRanks PropComplete ProofPixels6 ProofPixels9.
Import ListNotations.
Local Open Scope nat_scope.

(** Every row of every table of the delta files of a finished run is at a wavelength
    in the requested observed range and in the requested forest of its quasar, for
    any options: also after coadding the arms and with exposures. *)
Theorem C71_window ang2pix dla_flux row_of logic argsort hpix_of g ev ev_stack slope minimizer input_cont true_cont
    nsqrt uspline xs quad min_num_pix min_num_qso cholesky curve_fit vspline write_ok iter_suffix smooth junk dwave w n f a
    mean_resolution ra_dec st r s hdus h k x delta ivar weight :
  1 <= n -> sky_alike w n -> argsort_ok argsort ->
  finishes n (fun r => run_all ang2pix dla_flux row_of logic argsort hpix_of g ev ev_stack slope minimizer input_cont true_cont
      nsqrt uspline xs quad min_num_pix min_num_qso cholesky curve_fit vspline write_ok iter_suffix smooth junk dwave w r n) f ->
  w_parse w = Parsed a ->
  (forall again r b cat m s, w_reader w again r b cat = Some m -> In s m -> fresh s) ->
  r < n -> In s (concat (map snd (f r))) -> spec_write mean_resolution ra_dec st s = Ok hdus -> In h hdus ->
  hdu_row h k x delta ivar weight -> in_window a (s_cat s) x.
Proof.
  exact (fun Hn Hs Ha Hf Ea R Hr Hin Ew Hh Hp => window_hdu a mean_resolution ra_dec st s hdus h k x delta ivar weight
    (run_window ang2pix dla_flux row_of logic argsort hpix_of g ev ev_stack slope minimizer input_cont true_cont
    nsqrt uspline xs quad min_num_pix min_num_qso cholesky curve_fit vspline write_ok iter_suffix smooth junk dwave w n Hn Hs Ha f a r s Hf Ea R Hr Hin) Ew Hh Hp).
Qed.
Print Assumptions C71_window.

(** A row at a wavelength that the sky mask, the BAL troughs or the DLAs of the quasar
    take out has no IVAR and no WEIGHT, and DELTA 0.  (0 divided by a calibration
    factor 0 is nan.)  The smoothing of the inverse variance keeps the length and
    leaves masked pixels masked (C46).  If the arms are coadded after the fit they have
    to be on one grid: else a cell at a masked wavelength gets the weight of a pixel
    beside it (C71_off_grid_refuted).  Exposures that are read again after the fit are
    the subject of the next theorem. *)
Theorem C71_masked_partial profile ang2pix row_of logic argsort hpix_of g ev ev_stack slope minimizer input_cont true_cont
    nsqrt uspline xs quad min_num_pix min_num_qso cholesky curve_fit vspline write_ok iter_suffix smooth junk dwave w n f a
    mean_resolution ra_dec st r s hdus h k x delta ivar weight :
  1 <= n -> sky_alike w n -> argsort_ok argsort ->
  (forall iv sig, length (smooth iv sig) = length iv) ->
  (forall iv sig k u v, nth_error iv k = Some u -> spent u -> nth_error (smooth iv sig) k = Some v -> spent v) ->
  (0 < dwave)%Qc -> (forall c, TARGETID (row_of c) = c_targetid c) -> reads_requested row_of w ->
  finishes n (fun r => run_all ang2pix (fun x z nhi => Fin (profile x z nhi)) row_of logic argsort hpix_of g ev ev_stack slope minimizer input_cont true_cont
      nsqrt uspline xs quad min_num_pix min_num_qso cholesky curve_fit vspline write_ok iter_suffix smooth junk dwave w r n) f ->
  w_parse w = Parsed a -> r_exposures a <> After ->
  (forall r b cat m s, w_reader w false r b cat = Some m -> In s m -> fresh s /\ unread s /\ (r_coadd a = After -> one_grid dwave s)) ->
  r < n -> In s (concat (map snd (f r))) -> spec_write mean_resolution ra_dec st s = Ok hdus -> In h hdus ->
  hdu_row h k x delta ivar weight -> masked_in_run profile w a r (s_cat s) x ->
  spent ivar /\ spent weight /\ (ivar = n0 -> delta = n0).
Proof.
  exact (fun Hn Hs Ha Hl Hz Hd Hi Hq Hf Ea He R Hr Hin Ew Hh Hp => masked_hdu2 a dwave (masked_in_run profile w a r) mean_resolution ra_dec st s hdus h k x delta ivar weight
    (run_masked profile ang2pix row_of logic argsort hpix_of g ev ev_stack slope minimizer input_cont true_cont
    nsqrt uspline xs quad min_num_pix min_num_qso cholesky curve_fit vspline write_ok iter_suffix smooth junk dwave w n f a r s Hn Hs Ha Hl Hz Hd Hi Hq Hf Ea He R Hr Hin) Ew Hh Hp).
Qed.
Print Assumptions C71_masked_partial.

(** The same for exposures that are read again after the fit and get the continuum of
    their quasar; their arms, if coadded, are coadded before they are masked, so that
    any grids will do.  An exposure whose inverse variance is cut more than once (C49)
    does not fit its continuum any more and is not written.  (numpy repeats an array of
    length one: that an inverse variance cut to a single value is then written for all
    pixels is not modelled.) *)
Theorem C71_masked_exposures_partial profile ang2pix row_of logic argsort hpix_of g ev ev_stack slope minimizer input_cont true_cont
    nsqrt uspline xs quad min_num_pix min_num_qso cholesky curve_fit vspline write_ok iter_suffix smooth junk dwave w n f a
    mean_resolution ra_dec st r s hdus h k x delta ivar weight :
  1 <= n -> sky_alike w n -> argsort_ok argsort ->
  (forall iv sig, length (smooth iv sig) = length iv) ->
  (0 < dwave)%Qc -> (forall c, TARGETID (row_of c) = c_targetid c) -> reads_requested row_of w ->
  finishes n (fun r => run_all ang2pix (fun x z nhi => Fin (profile x z nhi)) row_of logic argsort hpix_of g ev ev_stack slope minimizer input_cont true_cont
      nsqrt uspline xs quad min_num_pix min_num_qso cholesky curve_fit vspline write_ok iter_suffix smooth junk dwave w r n) f ->
  w_parse w = Parsed a -> r_exposures a = After ->
  (forall r b cat m s, w_reader w true r b cat = Some m -> In s m -> fresh s /\ unread s) ->
  r < n -> In s (concat (map snd (f r))) -> spec_write mean_resolution ra_dec st s = Ok hdus -> In h hdus ->
  hdu_row h k x delta ivar weight -> masked_in_run profile w a r (s_cat s) x ->
  spent ivar /\ spent weight /\ (ivar = n0 -> delta = n0).
Proof.
  exact (fun Hn Hs Ha Hl Hd Hi Hq Hf Ea He R Hr Hin Ew Hh Hp => exposures_hdu (masked_in_run profile w a r) mean_resolution ra_dec st s hdus h k x delta ivar weight
    (run_exposures profile ang2pix row_of logic argsort hpix_of g ev ev_stack slope minimizer input_cont true_cont
    nsqrt uspline xs quad min_num_pix min_num_qso cholesky curve_fit vspline write_ok iter_suffix smooth junk dwave w n f a r s Hn Hs Ha Hl Hd Hi Hq Hf Ea He R Hr Hin) Ew Hh Hp).
Qed.
Print Assumptions C71_masked_exposures_partial.

(** A run with a sky mask at 3601 Angstrom and an absorber that takes all light at 3604. *)
Definition px_args (coadd : when) : runargs :=
  mkRun true true false None true true (zq 3600) (zq 3640) (zq 1200) (zq 1202) (fq 1 2) n1 n0 0 coadd Disable
    true false true false false false false true.
Definition px_profile (x z nhi : Qc) : Qc := if qeqb x (zq 3604) then 0%Qc else 1%Qc.
Definition px_world (coadd : when) : world :=
  mkWorld (Parsed (px_args coadd)) true (Some (mkcat cols_ex [run_row 5 8; run_row 4 7; run_row 3 8])) true
    (fun _ => Some [mkSky (zq 3601) (fq 7203 2) OBS]) (fun _ => Some [mkDla 5 (zq 2) (zq 21)])
    (fun _ _ _ cat => Some (map (fun r => co_spec (TARGETID r) (HPXPIXEL r) (if Z.eqb (TARGETID r) 4 then n0 else n1) one_arm) (filter is_run_row cat))) (fun _ _ => None) (fun _ _ => None)
    None (Some ex_fid) None (fun _ => true) true (fun _ => true).
Definition px_run (w : world) (r : nat) : prog pval (@saved spec) :=
  run_all pix_ex (fun x z nhi => Fin (px_profile x z nhi)) run_row_of (fun _ => true) argsort_ex (fun s => c_hpix (s_cat s)) (fun _ => ex_g 2 false false false)
    ex_ev (fun _ _ => Fin (zq 2)) (fun _ => n0)
    (fun _ _ _ _ s _ => Some (mkMin (negb (Z.eqb (c_targetid (s_cat s)) 3)) [Fin (zq 2)] [[n1]])) (fun _ => None) (fun _ _ => n1)
    (fun _ => Fin (fq 1 100)) (fun _ y _ => Some y) [0; 1]%Qc ex_simpson 0 0 (fun _ => true)
    (fun _ _ _ _ => Some ([Fin (fq 1 5)], [Fin (fq 1 5)])) (fun _ y _ => Some y)
    (fun _ => true) (fun _ => ""%string) (fun a _ => a) (fun _ => n0) 1%Qc w r 2.
Definition px_table (l : list (Z * list spec)) : option (list (list column)) :=
  match concat (map snd l) with
  | s :: _ => match spec_write (fun _ _ => Ok n1) (fun _ => (0%Qc, 0%Qc)) (mkStatics [] [] 0 (Some "none"%string) ["LAMBDA"; "DELTA"; "IVAR"; "WEIGHT"; "CONT"]%string) s with
             | Ok hs => Some (map (fun h => firstn 4 (map snd (h_cols h))) hs) | _ => None end
  | [] => None end.
Lemma px_fresh coadd again r b cat m s : w_reader (px_world coadd) again r b cat = Some m -> In s m -> fresh s /\ unread s /\ one_grid 1%Qc s.
Proof.
  intros E Hs. split; [refine (co_fresh (fq 1 2) one_arm r b (filter is_run_row cat) m s (or_introl eq_refl) _ Hs); exact E|].
  cbn [w_reader px_world] in E. injection E as <-. apply in_map_iff in Hs as (q & <- & _). split; [now repeat split|]. exists 0%Qc. intros arm wv x Ea Hx. cbn [co_spec s_wave one_arm map fst snd dget] in Ea.
  destruct (String.eqb arm "b"); [|discriminate]. injection Ea as <-. apply (in_map_iff zq [3599; 3600; 3601; 3602; 3603; 3604; 3605]%Z) in Hx as (k & <- & _). exists k. ring.
Qed.
Lemma px_requested coadd : reads_requested run_row_of (px_world coadd).
Proof.
  intros again r e cat l s E Hs. refine (run_reader_rows false true (fun _ => None) again r e cat (map (fun r => run_spec (TARGETID r) (HPXPIXEL r)) (filter is_run_row cat)) (run_spec (c_targetid (s_cat s)) (c_hpix (s_cat s))) eq_refl _).
  cbn [w_reader px_world] in E. injection E as <-. apply in_map_iff in Hs as (q & <- & Hq). cbn [co_spec s_cat c_targetid c_hpix]. apply in_map_iff. exists q. now split.
Qed.
Definition px_rows (coadd : when) : list (list column) :=
  let wt := Fin (match coadd with After => fq 20 9 | _ => fq 20 7 end) in
  [[CWave (map zq [3600; 3601; 3602; 3603; 3604; 3605]%Z);
    CNum [Fin (fq (-1) 2); n0; Fin (fq (-1) 2); Fin (fq (-1) 2); n0; Fin (fq (-1) 2)];
    CNum [Fin (zq 4); n0; Fin (zq 4); Fin (zq 4); n0; Fin (zq 4)];
    CNum [wt; n0; wt; wt; n0; wt]]].
Lemma px_finishes coadd : coadd = Disable \/ coadd = After ->
  finished2 (spmd 2 (px_run (px_world coadd))) = true /\ names (spmd 2 (px_run (px_world coadd))) = Some [Some [(8, [5])]; Some []]%Z /\
  px_table (result2 (spmd 2 (px_run (px_world coadd))) 0) = Some (px_rows coadd).
Proof. intros [-> | ->]; (split; [|split]); lazy; reflexivity. Qed.
Example C71_ex coadd : coadd = Disable \/ coadd = After -> let w := px_world coadd in
  sky_alike w 2 /\ argsort_ok argsort_ex /\ finishes 2 (px_run w) (result2 (spmd 2 (px_run w))) /\
  (forall again r b cat m s, w_reader w again r b cat = Some m -> In s m -> fresh s /\ unread s /\ one_grid 1%Qc s) /\
  (forall c, TARGETID (run_row_of c) = c_targetid c) /\ reads_requested run_row_of w /\
  names (spmd 2 (px_run w)) = Some [Some [(8, [5])]; Some []]%Z /\
  px_table (result2 (spmd 2 (px_run w)) 0) = Some (px_rows coadd).
Proof.
  cbv zeta. intro Hc. destruct (px_finishes coadd Hc) as (F & N & T). split; [intros a Ea _ r Hr; split; discriminate|]. split; [exact argsort_ex_ok|].
  split; [exact (finished2_finishes _ F)|]. split; [exact (px_fresh coadd)|]. split; [reflexivity|]. split; [exact (px_requested coadd)|]. split; [exact N|exact T].
Qed.
Example C71_masked_ex : let c := mkCatrow 5 8 (zq 2) None [] [] [] [] in
  masked_in_run px_profile (px_world Disable) (px_args Disable) 0 c (zq 3601) /\ masked_in_run px_profile (px_world Disable) (px_args Disable) 0 c (zq 3604).
Proof.
  cbv zeta. split.
  - left. split; [reflexivity|]. eexists. split; [reflexivity|]. eexists. split; [now left|]. left. split; [reflexivity|]. now split.
  - right. right. split; [reflexivity|]. eexists. split; [reflexivity|]. now split.
Qed.

(** The same run with the exposures read again, here on the grid 3601, ..., 3605 *)
Definition ex_args : runargs :=
  mkRun true true false None true true (zq 3600) (zq 3640) (zq 1200) (zq 1202) (fq 1 4) n1 n0 0 Disable After
    true false true false false false false true.
Definition ex_arms : list (string * list Z) := [("b"%string, [3601; 3602; 3603; 3604; 3605])]%Z.
Definition ex_world : world :=
  mkWorld (Parsed ex_args) true (Some (mkcat cols_ex [run_row 5 8; run_row 4 7; run_row 3 8])) true
    (fun _ => Some [mkSky (zq 3601) (fq 7203 2) OBS]) (fun _ => Some [mkDla 5 (zq 2) (zq 21)])
    (fun again _ _ cat => Some (map (fun r => co_spec (TARGETID r) (HPXPIXEL r) n1 (if again then ex_arms else one_arm)) (filter is_run_row cat))) (fun _ _ => None) (fun _ _ => None)
    None (Some ex_fid) None (fun _ => true) true (fun _ => true).
Definition ex_rows : list (list column) :=
  [[CWave (map zq [3601; 3602; 3603; 3604; 3605]%Z);
    CNum [n0; Fin (fq (-1) 2); Fin (fq (-1) 2); n0; Fin (fq (-1) 2)];
    CNum [n0; Fin (zq 4); Fin (zq 4); n0; Fin (zq 4)]; CNum [n0; Fin (zq 4); Fin (zq 4); n0; Fin (zq 4)]]].
Lemma ex_finishes : finished2 (spmd 2 (px_run ex_world)) = true /\ names (spmd 2 (px_run ex_world)) = Some [Some [(8, [5])]; Some [(7, [4])]]%Z /\
  px_table (result2 (spmd 2 (px_run ex_world)) 0) = Some ex_rows.
Proof. split; [|split]; lazy; reflexivity. Qed.
Lemma ex_fresh r b cat m s : w_reader ex_world true r b cat = Some m -> In s m -> fresh s /\ unread s.
Proof.
  intros E Hs. cbn [w_reader ex_world] in E. injection E as <-. apply in_map_iff in Hs as (q & <- & _). split; [|now repeat split].
  split; [reflexivity|]. split; [repeat constructor; intros []|]. split.
  - intro arm. unfold len_at. cbn. destruct (String.eqb arm "b"); easy.
  - intros arm wv. cbn. destruct (String.eqb arm "b"); [|discriminate]. intro H. injection H as <-. repeat constructor.
Qed.
Lemma ex_requested : reads_requested run_row_of ex_world.
Proof.
  intros again r e cat l s E Hs. refine (run_reader_rows false true (fun _ => None) again r e cat (map (fun r => run_spec (TARGETID r) (HPXPIXEL r)) (filter is_run_row cat)) (run_spec (c_targetid (s_cat s)) (c_hpix (s_cat s))) eq_refl _).
  cbn [w_reader ex_world] in E. injection E as <-. apply in_map_iff in Hs as (q & <- & Hq). cbn [co_spec s_cat c_targetid c_hpix]. apply in_map_iff. exists q. now split.
Qed.
Example C71_exposures_ex : sky_alike ex_world 2 /\ finishes 2 (px_run ex_world) (result2 (spmd 2 (px_run ex_world))) /\
  w_parse ex_world = Parsed ex_args /\ r_exposures ex_args = After /\
  (forall r b cat m s, w_reader ex_world true r b cat = Some m -> In s m -> fresh s /\ unread s) /\ reads_requested run_row_of ex_world /\
  px_table (result2 (spmd 2 (px_run ex_world)) 0) = Some ex_rows.
Proof.
  destruct ex_finishes as (F & _ & T). split; [intros a Ea _ r Hr; split; discriminate|]. split; [exact (finished2_finishes _ F)|].
  split; [reflexivity|]. split; [reflexivity|]. split; [exact ex_fresh|]. split; [exact ex_requested|exact T].
Qed.

(** C48: an exposure that is read again after the fit never gets a weight: the WEIGHT
    column is the IVAR column, whatever the variance functions are. *)
Theorem C48_exposures profile ang2pix row_of logic argsort hpix_of g ev ev_stack slope minimizer input_cont true_cont
    nsqrt uspline xs quad min_num_pix min_num_qso cholesky curve_fit vspline write_ok iter_suffix smooth junk dwave w n f a
    mean_resolution ra_dec st r s hdus h k x delta ivar weight :
  1 <= n -> sky_alike w n -> argsort_ok argsort ->
  (forall iv sig, length (smooth iv sig) = length iv) ->
  (0 < dwave)%Qc -> (forall c, TARGETID (row_of c) = c_targetid c) -> reads_requested row_of w ->
  finishes n (fun r => run_all ang2pix (fun x z nhi => Fin (profile x z nhi)) row_of logic argsort hpix_of g ev ev_stack slope minimizer input_cont true_cont
      nsqrt uspline xs quad min_num_pix min_num_qso cholesky curve_fit vspline write_ok iter_suffix smooth junk dwave w r n) f ->
  w_parse w = Parsed a -> r_exposures a = After ->
  (forall r b cat m s, w_reader w true r b cat = Some m -> In s m -> fresh s /\ unread s) ->
  r < n -> In s (concat (map snd (f r))) -> spec_write mean_resolution ra_dec st s = Ok hdus -> In h hdus ->
  hdu_row h k x delta ivar weight -> weight = ivar.
Proof.
  exact (fun Hn Hs Ha Hl Hd Hi Hq Hf Ea He R Hr Hin Ew Hh Hp => exposures_weight (masked_in_run profile w a r) mean_resolution ra_dec st s hdus h k x delta ivar weight
    (run_exposures profile ang2pix row_of logic argsort hpix_of g ev ev_stack slope minimizer input_cont true_cont
    nsqrt uspline xs quad min_num_pix min_num_qso cholesky curve_fit vspline write_ok iter_suffix smooth junk dwave w n f a r s Hn Hs Ha Hl Hd Hi Hq Hf Ea He R Hr Hin) Ew Hh Hp).
Qed.
Print Assumptions C48_exposures.

Definition px_write := spec_write (fun _ _ => Ok n1) (fun _ => (0%Qc, 0%Qc)) (mkStatics [] [] 0 (Some "none"%string) ["LAMBDA"; "DELTA"; "IVAR"; "WEIGHT"; "CONT"]%string).
Lemma px_table_row l ws ds ivs wts more k x d i wt : px_table l = Some ([CWave ws; CNum ds; CNum ivs; CNum wts] :: more) ->
  nth_error ws k = Some x -> nth_error ds k = Some d -> nth_error ivs k = Some i -> nth_error wts k = Some wt ->
  exists s hs h, In s (concat (map snd l)) /\ px_write s = Ok hs /\ In h hs /\ hdu_row h k x d i wt.
Proof.
  unfold px_table. destruct (concat (map snd l)) as [|s rest]; [discriminate|]. fold px_write. destruct (px_write s) as [hs|] eqn:E; [|discriminate].
  destruct hs as [|h hs]; [discriminate|]. intros T N1 N2 N3 N4. injection T as T _. exists s, (h :: hs), h. split; [now left|]. split; [exact E|]. split; [now left|].
  destruct (map snd (h_cols h)) as [|c1 [|c2 [|c3 [|c4 cs]]]] eqn:Em; try discriminate T. cbn [firstn] in T. injection T as -> -> -> ->.
  exists ws, ds, ivs, wts, cs. rewrite Em. now repeat split.
Qed.
(** a run with var_lss 0.1 and eta 1: the weight of IVAR 4 should be 1 / (1/4 + 0.1) *)
Theorem C48_exposures_refuted : exists f s hdus h,
  finishes 2 (px_run ex_world) f /\ w_parse ex_world = Parsed ex_args /\ r_exposures ex_args = After /\ r_varlss ex_args = true /\
  w_varlss ex_world = Some ex_fid /\ (forall x, ex_ev ex_fid x = Fin (fq 1 10)) /\
  In s (concat (map snd (f 0))) /\ px_write s = Ok hdus /\ In h hdus /\
  hdu_row h 1 (zq 3602) (Fin (fq (-1) 2)) (Fin (zq 4)) (Fin (zq 4)) /\ zq 4 <> (/ (/ zq 4 + fq 1 10))%Qc.
Proof.
  destruct ex_finishes as (F & _ & T).
  destruct (px_table_row _ _ _ _ _ _ 1 (zq 3602) (Fin (fq (-1) 2)) (Fin (zq 4)) (Fin (zq 4)) T eq_refl eq_refl eq_refl eq_refl) as (s & hs & h & A1 & A2 & A3 & A4).
  exists (result2 (spmd 2 (px_run ex_world))), s, hs, h. split; [exact (finished2_finishes _ F)|].
  do 4 (split; [reflexivity|]). split; [intro x; reflexivity|]. do 4 (split; [assumption|]). intro C. apply (f_equal this) in C. vm_compute in C. discriminate C.
Qed.
Print Assumptions C48_exposures_refuted.

(** Without a common grid a cell at a masked wavelength has weight after coadding: arm b
    is at 3600, 3601, ..., arm r at 3601.5, 3602.5, ...; the mask from 3601 to 3601.5 takes
    the second pixel of b, but the cell at 3601.125 gets the first pixel of r. *)Definition off_args : runargs := px_args After.
Definition off_spec (r : ModelCatalog.row) : spec :=
  let wv := [("b"%string, map zq [3600; 3601; 3602; 3603; 3604]%Z); ("r"%string, map (fun k => (zq k + fq 1 2)%Qc) [3601; 3602; 3603; 3604]%Z)] in
  mkSpec (mkCatrow (TARGETID r) (HPXPIXEL r) (zq 2) None [] [] [] []) wv (dmap (map (fun _ => n1)) wv) (dmap (map (fun _ => n1)) wv)
    [] n1 None empty_forest 0 false [n0] n0 [].
Definition off_world : world :=
  mkWorld (Parsed off_args) true (Some (mkcat cols_ex [run_row 5 8; run_row 4 7; run_row 3 8])) true
    (fun _ => Some [mkSky (zq 3601) (fq 7203 2) OBS]) (fun _ => Some [])
    (fun _ _ _ cat => Some (map off_spec (filter is_run_row cat))) (fun _ _ => None) (fun _ _ => None)
    None (Some ex_fid) None (fun _ => true) true (fun _ => true).
Lemma off_finishes : finished2 (spmd 2 (px_run off_world)) = true /\
  px_table (result2 (spmd 2 (px_run off_world)) 0) = Some [[CWave [zq 3600; fq 28809 8; fq 14409 4; fq 28827 8; fq 7209 2];
    CNum (repeat (Fin (fq (-1) 2)) 5); CNum (map (fun k => Fin (zq k)) [4; 4; 8; 8; 8]%Z); CNum (map Fin [fq 20 9; fq 20 9; fq 40 13; fq 40 13; fq 40 13])]].
Proof. split; lazy; reflexivity. Qed.
Lemma off_fresh again r b cat m s : w_reader off_world again r b cat = Some m -> In s m -> fresh s /\ unread s.
Proof.
  intros E Hs. cbn [w_reader off_world] in E. injection E as <-. apply in_map_iff in Hs as (q & <- & _). split; [|now repeat split].
  split; [reflexivity|]. split; [repeat constructor; cbn; intuition discriminate|]. split.
  - intro arm. unfold len_at. cbn. destruct (String.eqb arm "b"); [easy|]. destruct (String.eqb arm "r"); easy.
  - intros arm wv. cbn. destruct (String.eqb arm "b"); [intro H; injection H as <-; repeat constructor|].
    destruct (String.eqb arm "r"); [|discriminate]. intro H. injection H as <-. repeat constructor.
Qed.
Lemma off_masked c : masked_in_run px_profile off_world off_args 0 c (fq 28809 8).
Proof. left. split; [reflexivity|]. eexists. split; [reflexivity|]. eexists. split; [now left|]. left. split; [reflexivity|]. now split. Qed.
Theorem C71_off_grid_refuted : exists f s hdus h,
  finishes 2 (px_run off_world) f /\ w_parse off_world = Parsed off_args /\ r_coadd off_args = After /\ r_exposures off_args = Disable /\
  (forall again r b cat m s, w_reader off_world again r b cat = Some m -> In s m -> fresh s /\ unread s) /\
  In s (concat (map snd (f 0))) /\ px_write s = Ok hdus /\ In h hdus /\
  hdu_row h 1 (fq 28809 8) (Fin (fq (-1) 2)) (Fin (zq 4)) (Fin (fq 20 9)) /\
  forall c, masked_in_run px_profile off_world off_args 0 c (fq 28809 8).
Proof.
  destruct off_finishes as (F & T).
  destruct (px_table_row _ _ _ _ _ _ 1 (fq 28809 8) (Fin (fq (-1) 2)) (Fin (zq 4)) (Fin (fq 20 9)) T eq_refl eq_refl eq_refl eq_refl) as (s & hs & h & A1 & A2 & A3 & A4).
  exists (result2 (spmd 2 (px_run off_world))), s, hs, h. split; [exact (finished2_finishes _ F)|].
  do 3 (split; [reflexivity|]).
  split; [exact off_fresh|].
  split; [exact A1|].
  split; [exact A2|]. split; [exact A3|]. split; [exact A4|].
  exact off_masked.
Qed.
Print Assumptions C71_off_grid_refuted.
