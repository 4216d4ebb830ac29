(** C24-C26: construction of a spectrum, forest region, alignment of the arrays.
    Vocabulary: SpecSpectrum.v.  [nsqrt] (np.sqrt), [smooth] (get_smooth_ivar)
    and [dla_flux] are arbitrary functions. *)
From Coq Require Import ZArith String List Bool Arith Sorted QArith Qcanon.
From Verif Require Import Num NpList Exn Dict ModelSpectrum ModelMasks SpecSpectrum
  ProofSpectrum1 ProofSpectrum2.
Import ListNotations.
Local Open Scope nat_scope.

(** ** C24 *)
Theorem C24_bad_pixels_neutralised nsqrt st cat wave flux ivar mask reso idx st' s :
  spec_init nsqrt st cat wave flux ivar mask reso idx = Ok (st', s) ->
  NoDup (dkeys (st_wave st')) ->
  forall arm, In arm (dkeys (st_wave st')) ->
    exists F I M F' I',
      raw_row arm flux idx F /\ raw_row arm ivar idx I /\ raw_row arm mask idx M /\
      dget arm (s_flux s) = Some F' /\ dget arm (s_ivar s) = Some I' /\
      cleaned F I M F' I' /\
      Forall (fun f => f <> NaN) F' /\ Forall (fun i => i <> NaN /\ nltb i n0 = false) I'.
Proof. exact (C24_lemma nsqrt st cat wave flux ivar mask reso idx st' s). Qed.
Print Assumptions C24_bad_pixels_neutralised.

(** construction succeeds whenever the arrays of every arm have equal lengths *)
Theorem C24_construction_succeeds nsqrt st cat wave flux ivar mask reso idx st1 :
  set_wave wave false st = Ok st1 ->
  NoDup (dkeys (st_wave st1)) ->
  (forall arm, In arm (dkeys (st_wave st1)) ->
     exists F I M, raw_row arm flux idx F /\ raw_row arm ivar idx I /\ raw_row arm mask idx M /\
       length M = length F /\ length F = length I /\ reso_ok reso idx arm) ->
  exists s, spec_init nsqrt st cat wave flux ivar mask reso idx = Ok (st1, s).
Proof. exact (spec_init_total nsqrt st cat wave flux ivar mask reso idx st1). Qed.
Print Assumptions C24_construction_succeeds.

(** Example: two arms, second quasar of the file; one NaN, one masked, one
    negative and one infinite pixel. *)
Definition ex_cat : catrow := mkCatrow 39 7 (zq 2) None [] [] [] [].
Definition ex_wave : dict (list Qc) :=
  [("b"%string, [zq 3600; zq 3601; zq 3602; zq 3603; zq 3604]); ("r"%string, [zq 3603; zq 3604])].
Definition ex_flux : dict (list (list num)) :=
  [("b"%string, [[]; [Fin (zq 1); NaN; Fin (zq 3); Fin (zq 4); PInf]]);
   ("r"%string, [[]; [Fin (zq 5); Fin (zq 6)]])].
Definition ex_ivar : dict (list (list num)) :=
  [("b"%string, [[]; [Fin (zq 1); Fin (zq 2); Fin (- zq 3)%Qc; Fin (zq 4); Fin (zq 5)]]);
   ("r"%string, [[]; [Fin (zq 1); Fin (zq 1)]])].
Definition ex_mask : dict (list (list Z)) :=
  [("b"%string, [[]; [0; 0; 0; 0; 0]%Z]); ("r"%string, [[]; [4; 0]%Z])].
Example C24_ex :
  exists st' s, spec_init (fun x => x) statics0 ex_cat ex_wave ex_flux ex_ivar ex_mask [] 1 = Ok (st', s) /\
    dkeys (st_wave st') = ["b"%string; "r"%string] /\
    dget "b" (s_flux s) = Some [Fin (zq 1); n0; n0; Fin (zq 4); PInf] /\
    dget "b" (s_ivar s) = Some [Fin (zq 1); n0; n0; Fin (zq 4); Fin (zq 5)] /\
    dget "r" (s_ivar s) = Some [n0; Fin (zq 1)].
Proof. eexists. eexists. split; [vm_compute; reflexivity|]. vm_compute. auto. Qed.

(** ** C25: the forest of a newly constructed spectrum *)
Theorem C25_forest_region nsqrt w1 w2 lya1 lya2 s s' :
  s_f s = empty_forest -> NoDup (dkeys (s_wave s)) -> data_matches_grid s ->
  set_forest_region nsqrt w1 w2 lya1 lya2 s = Ok s' ->
  forall arm,
    match dget arm (s_wave s), dget arm (s_flux s), dget arm (s_ivar s) with
    | Some wave, Some fl, Some iv =>
        ascending wave ->
        let px := filter (fun p => in_forestb (s_z s) w1 w2 lya1 lya2 (p_wave p)) (pixels wave fl iv) in
        ((exists p, In p px /\ good (p_ivar p)) ->
           dget arm (fw (s_f s')) = Some (map p_wave px) /\
           dget arm (ff (s_f s')) = Some (map p_flux px) /\
           dget arm (fivar (s_f s')) = Some (map p_ivar px)) /\
        ((forall p, In p px -> ~ good (p_ivar p)) ->
           dget arm (fw (s_f s')) = None /\ dget arm (ff (s_f s')) = None /\
           dget arm (fivar (s_f s')) = None)
    | _, _, _ => dget arm (fw (s_f s')) = None /\ dget arm (ff (s_f s')) = None /\
                 dget arm (fivar (s_f s')) = None
    end /\
    fivar_sm (s_f s') = fivar (s_f s') /\ fweight (s_f s') = fivar (s_f s').
Proof. exact (set_forest_region_spec nsqrt w1 w2 lya1 lya2 s s'). Qed.
Print Assumptions C25_forest_region.

(** After any earlier history: arms with good pixels in the region are replaced
    by these pixels, the others keep what an earlier call left in them. *)
Theorem C25_any_history_partial nsqrt w1 w2 lya1 lya2 s s' :
  ri (s_f s) < length (hp (s_f s)) -> NoDup (dkeys (s_wave s)) -> data_matches_grid s ->
  set_forest_region nsqrt w1 w2 lya1 lya2 s = Ok s' ->
  forall arm wave fl iv,
    dget arm (s_wave s) = Some wave -> dget arm (s_flux s) = Some fl ->
    dget arm (s_ivar s) = Some iv -> ascending wave ->
    let px := filter (fun p => in_forestb (s_z s) w1 w2 lya1 lya2 (p_wave p)) (pixels wave fl iv) in
    ((exists p, In p px /\ good (p_ivar p)) ->
       dget arm (fw (s_f s')) = Some (map p_wave px) /\
       dget arm (ff (s_f s')) = Some (map p_flux px) /\
       dget arm (fivar (s_f s')) = Some (map p_ivar px)) /\
    ((forall p, In p px -> ~ good (p_ivar p)) ->
       dget arm (fw (s_f s')) = dget arm (fw (s_f s)) /\
       dget arm (ff (s_f s')) = dget arm (ff (s_f s)) /\
       dget arm (fivar (s_f s')) = dget arm (fivar (s_f s))).
Proof. exact (C25_history nsqrt w1 w2 lya1 lya2 s s'). Qed.
Print Assumptions C25_any_history_partial.

(** The call succeeds for data of the right shape. *)
Theorem C25_region_succeeds nsqrt w1 w2 lya1 lya2 s :
  s_f s = empty_forest -> NoDup (dkeys (s_wave s)) -> data_matches_grid s ->
  s_reso s = [] \/ (forall arm, In arm (dkeys (s_wave s)) -> In arm (dkeys (s_reso s))) ->
  exists s', set_forest_region nsqrt w1 w2 lya1 lya2 s = Ok s'.
Proof. exact (set_forest_region_total nsqrt w1 w2 lya1 lya2 s). Qed.
Print Assumptions C25_region_succeeds.

Definition ex_num (l : list Z) : list num := map (fun z => Fin (zq z)) l.
Definition ex_spec : spec :=
  mkSpec ex_cat [("b"%string, map zq [3600; 3601; 3602; 3603]%Z)]
    [("b"%string, ex_num [1; 2; 3; 4]%Z)] [("b"%string, ex_num [5; 6; 7; 8]%Z)] []
    n0 None empty_forest 0 false [n1; n0] n0 [].
Definition ids (x : num) : num := x.
Example C25_ex :
  s_f ex_spec = empty_forest /\ NoDup (dkeys (s_wave ex_spec)) /\ data_matches_grid ex_spec /\
  exists s', set_forest_region ids (zq 0) (zq 10000) (fq 3601 3) (fq 3603 3) ex_spec = Ok s' /\
    dget "b" (fw (s_f s')) = Some (map zq [3601; 3602]%Z) /\
    dget "b" (fivar (s_f s')) = Some (ex_num [6; 7]%Z).
Proof.
  split; [easy|]. split; [repeat constructor; intros []|]. split.
  - intro arm. unfold len_at. cbn. destruct (String.eqb arm "b"); easy.
  - eexists. split; [vm_compute; reflexivity|]. vm_compute. auto.
Qed.

(** Calling set_forest_region a second time leaves arms that have no good pixel
    in the new region: the full statement (any history) does not hold. *)
Theorem C25_second_call_refuted :
  exists s s1 s2, s_f s = empty_forest /\ data_matches_grid s /\
    set_forest_region (fun x => x) (zq 3600) (zq 3604) (zq 100) (zq 2000) s = Ok s1 /\
    set_forest_region (fun x => x) (zq 5000) (zq 6000) (zq 100) (zq 2000) s1 = Ok s2 /\
    dget "b" (s_wave s) = Some (map zq [3600; 3601; 3602; 3603]%Z) /\
    dget "b" (fw (s_f s2)) = Some (map zq [3600; 3601; 3602; 3603]%Z).
Proof. exact second_region_witness. Qed.
Print Assumptions C25_second_call_refuted.

(** ** C26 *)
Theorem C26_arrays_aligned nsqrt smooth dla_flux dwave ops s s' :
  (forall iv x, length (smooth iv x) = length iv) ->
  s_f s = empty_forest -> NoDup (dkeys (s_wave s)) -> data_matches_grid s ->
  forallb (fun o => negb (head_slice o)) ops = true ->
  run_ops nsqrt smooth dla_flux dwave ops s = Ok s' -> aligned s'.
Proof. exact (C26_lemma nsqrt smooth dla_flux dwave ops s s'). Qed.
Print Assumptions C26_arrays_aligned.

(** A slice that removes pixels at the start of an arm keeps the arrays aligned
    if ivar, ivar_sm and weight are three different dictionary objects ... *)
Theorem C26_slice_partial arm i1 i2 s s' :
  proper s ->
  ri (s_f s) <> rs (s_f s) /\ ri (s_f s) <> rw (s_f s) /\ rs (s_f s) <> rw (s_f s) ->
  spec_slice arm i1 i2 s = Ok s' -> aligned s'.
Proof. exact (C26_slice_lemma arm i1 i2 s s'). Qed.
Print Assumptions C26_slice_partial.

(** ... and misaligns them otherwise, for instance directly after set_forest_region. *)
Theorem C26_slice_refuted nsqrt smooth dla_flux dwave :
  exists s s', s_f s = empty_forest /\ NoDup (dkeys (s_wave s)) /\ data_matches_grid s /\
    run_ops nsqrt smooth dla_flux dwave
      [ORegion (zq 3600) (zq 3604) (zq 100) (zq 2000); OSlice "b" 1 3] s = Ok s' /\ ~ aligned s'.
Proof. exact (slice_witness nsqrt smooth dla_flux dwave). Qed.
Print Assumptions C26_slice_refuted.

Definition ex_ops : list op :=
  [ORegion (zq 3600) (zq 3604) (zq 100) (zq 2000);
   OMask (MSky (skymask_init [mkSky (zq 3602) (zq 3603) OBS]));
   OSmooth (zq 2); OWeight (fun _ => n1) (fun _ => n1);
   OSetCont true [("b"%string, ex_num [1; 1; 1; 1]%Z)];
   OWeight (fun _ => n1) (fun _ => n1);
   OCoadd (fun _ => NaN) (fun _ => n1) (fun _ => n1); OSlice "brz" 0 3].
Example C26_ex :
  exists s', run_ops ids (fun iv _ => iv) (fun _ _ _ => n1) (zq 1) ex_ops ex_spec = Ok s' /\
    forallb (fun o => negb (head_slice o)) ex_ops = true /\
    option_map (map (fun x => this (nval x))) (dget "brz" (fivar (s_f s'))) = Some (map inject_Z [5; 6; 0]%Z).
Proof. eexists. split; [vm_compute; reflexivity|]. vm_compute. auto. Qed.
