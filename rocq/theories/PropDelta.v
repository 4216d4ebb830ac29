(** C35, C36, C37: delta files and their coaddition. *)
From Coq Require Import QArith ZArith String List Bool Arith Lia Permutation Sorted Qcanon.
From Verif Require Import Num NpList Exn Dict ModelSpectrum ModelDelta SpecSpectrum SpecMasks SpecWeights SpecCoadd SpecDelta
  ProofDelta1 ProofDelta2 ProofDelta3 ProofDelta4.
Import ListNotations.
Local Open Scope nat_scope.

(** ** C35 *)
(** One HDU per arm with nonzero mean S/N, in order; every written pixel follows [file_pixel] (in
    particular it is finite, even where the continuum is 0), and reading the HDU gives
    the written columns. *)
Theorem C35_write mean_resolution ra_dec set_pop pow10 st s blind m :
  (forall l, l <> [] -> In (set_pop l) l) ->
  proper s -> cont_matches s ->
  all_finite (ff (s_f s)) -> all_finite (fivar (s_f s)) -> all_finite (fweight (s_f s)) -> all_finite (s_cont s) ->
  st_colnames st = names_of blind (dtrue (fr (s_f s))) ->
  (fr (s_f s) <> [] -> forall arm, dget arm (fw (s_f s)) <> None ->
     dget arm (fr (s_f s)) <> None /\ exists r, mean_resolution s arm = Ok r) ->
  s_msnr s = Some m -> (forall arm, dget arm (fw (s_f s)) <> None -> dget arm m <> None) ->
  exists hs, spec_write mean_resolution ra_dec st s = Ok hs /\
    map h_arm hs = filter (arm_written m) (dkeys (fw (s_f s))) /\
    (forall h, In h hs -> Some (h_meansnr h) = dget (h_arm h) m /\ exists d, arm_file set_pop pow10 st s blind h d).
Proof. exact (fun pop => spec_write_spec mean_resolution ra_dec set_pop pow10 pop st s blind m). Qed.
Print Assumptions C35_write.

(** flux is recovered wherever the written ivar is not 0 *)
Theorem C35_flux_recovered f i w c d i' w' :
  file_pixel f i w c d i' w' -> i' <> 0%Qc -> f = ((d + 1) * c)%Qc.
Proof. exact (file_flux f i w c d i' w'). Qed.
Print Assumptions C35_flux_recovered.

(** Delta.write followed by Delta(hdu) gives the delta back *)
Theorem C35_delta_round_trip set_pop pow10 d :
  (forall l, l <> [] -> In (set_pop l) l) ->
  length (d_ivar d) = length (d_delta d) ->
  (forall k, nth_error (d_ivar d) k = Some n0 -> nth_error (d_delta d) k = Some n0) ->
  delta_read set_pop pow10 (delta_hdu d) = Ok d.
Proof. exact (fun pop => delta_round_trip set_pop pow10 pop d). Qed.
Print Assumptions C35_delta_round_trip.

Definition ex_written : spec :=
  mkSpec (mkCatrow 39 7 (zq 2) None [] [] [] []) [] [] [] [] n0
    (Some [("b"%string, Fin (zq 2)); ("r"%string, n0)])
    (mkForest [("b"%string, map zq [3600; 3601; 3602; 3603; 3604]%Z); ("r"%string, map zq [3604; 3605]%Z)]
       [("b"%string, map (fun x => Fin (zq x)) [1; 2; 3; 4; 5]%Z); ("r"%string, map (fun x => Fin (zq x)) [6; 7]%Z)] []
       [[("b"%string, map (fun x => Fin (zq x)) [1; 0; 3; 1; 1]%Z); ("r"%string, map (fun x => Fin (zq x)) [1; 2]%Z)]] 0 0 0)
    0 true [] n0
    [("b"%string, map (fun x => Fin (zq x)) [2; 1; 2; 0; 1]%Z); ("r"%string, map (fun x => Fin (zq x)) [1; 2]%Z)].
Definition ex_statics : statics := mkStatics [] [] 1 None (names_of false false).
Definition shown_arr (a : list num) : list Q := map (fun x => this (nval x)) a.
Example C35_ex :
  proper ex_written /\ cont_matches ex_written /\
  all_finite (ff (s_f ex_written)) /\ all_finite (fivar (s_f ex_written)) /\ all_finite (s_cont ex_written) /\
  exists h d, spec_write (fun _ _ => Ok n0) (fun _ => (0, 0)%Qc) ex_statics ex_written = Ok [h] /\
    h_arm h = "b"%string /\ delta_read (fun l => hd ""%string l) (fun x => x) h = Ok d /\
    shown_arr (d_delta d) = [-1 # 2; 0; 1 # 2; 0; 4]%Q /\ shown_arr (d_ivar d) = [4; 0; 12; 0; 1]%Q.
Proof.
  split; [|split; [|split; [|split; [|split]]]].
  - split; [|split; [|split; [|repeat split; cbn; lia]]].
    + intro arm. unfold len_at, fivar, fivar_sm, fweight. cbn.
      destruct (String.eqb arm "b"); [easy|]. now destruct (String.eqb arm "r").
    + cbn. repeat constructor; cbn; intuition discriminate.
    + intros arm w. cbn [dget fw s_f ex_written]. destruct (String.eqb arm "b").
      { intro H. injection H as <-. repeat constructor. }
      destruct (String.eqb arm "r"); [|discriminate]. intro H. injection H as <-. repeat constructor.
  - intro arm. unfold len_at. cbn. destruct (String.eqb arm "b"); [easy|]. now destruct (String.eqb arm "r").
  - intros arm l. cbn. destruct (String.eqb arm "b"); [intro H; injection H as <-; repeat constructor|].
    destruct (String.eqb arm "r"); [|discriminate]. intro H; injection H as <-; repeat constructor.
  - intros arm l. cbn. destruct (String.eqb arm "b"); [intro H; injection H as <-; repeat constructor|].
    destruct (String.eqb arm "r"); [|discriminate]. intro H; injection H as <-; repeat constructor.
  - intros arm l. cbn. destruct (String.eqb arm "b"); [intro H; injection H as <-; repeat constructor|].
    destruct (String.eqb arm "r"); [|discriminate]. intro H; injection H as <-; repeat constructor.
  - eexists _, _. split; [vm_compute; reflexivity|]. split; [reflexivity|]. split; [vm_compute; reflexivity|].
    split; vm_compute; reflexivity.
Qed.

(** ** C36 *)
(** Result on the grid from the smallest to the largest wavelength: delta and continuum are weighted
    averages of the pixels that land on the pixel, ivar is the propagated one, and the weight satisfies
    [coadded_weight].  Masked pixels enter [coadded_weight] (see the refutation below), hence _partial. *)
Theorem C36_coadd_partial nsqrt dw d1 d2 :
  (0 < dw)%Qc -> pair_ok dw d1 d2 -> d_reso d1 = None ->
  exists mn mx d, let n := grid_n mn mx dw in
    delta_coadd nsqrt dw d1 d2 = Ok d /\
    (In mn (d_wave d1 ++ d_wave d2) /\ forall x, In x (d_wave d1 ++ d_wave d2) -> (mn <= x)%Qc) /\
    (In mx (d_wave d1 ++ d_wave d2) /\ forall x, In x (d_wave d1 ++ d_wave d2) -> (x <= mx)%Qc) /\
    d_wave d = linspace mn mx n /\ d_targetid d = d_targetid d1 /\ d_blinded d = d_blinded d1 /\ d_reso d = None /\
    length (d_delta d) = n /\ length (d_ivar d) = n /\ length (d_weight d) = n /\ length (d_cont d) = n /\
    forall j, j < n -> exists dl iv w c,
      nth_error (d_delta d) j = Some (Fin dl) /\ nth_error (d_ivar d) j = Some (Fin iv) /\
      nth_error (d_weight d) j = Some (Fin w) /\ nth_error (d_cont d) j = Some (Fin c) /\
      weighted_average (both delta_entries mn dw j d1 d2) dl iv /\
      weighted_average (both cont_entries mn dw j d1 d2) c iv /\
      coadded_weight (both delta_entries mn dw j d1 d2) iv w.
Proof. exact (delta_coadd_spec nsqrt dw d1 d2). Qed.
Print Assumptions C36_coadd_partial.

(** Two deltas can be coadded in either order. *)
Theorem C36_commutes_partial nsqrt dw d1 d2 :
  (0 < dw)%Qc -> pair_ok dw d1 d2 -> d_reso d1 = None -> d_reso d2 = None ->
  exists d d', delta_coadd nsqrt dw d1 d2 = Ok d /\ delta_coadd nsqrt dw d2 d1 = Ok d' /\ same_arrays d d'.
Proof. exact (coadd_commutes nsqrt dw d1 d2). Qed.
Print Assumptions C36_commutes_partial.

(** Any number of deltas on one grid with weight = ivar > 0 can be coadded in any order. *)
Theorem C36_order_partial nsqrt dw w d0 ds d0' ds' :
  (0 < dw)%Qc -> uniform dw w -> Forall (plain w) (d0 :: ds) -> Permutation (d0 :: ds) (d0' :: ds') ->
  exists d d', coadd_all (delta_coadd nsqrt dw) d0 ds = Ok d /\ coadd_all (delta_coadd nsqrt dw) d0' ds' = Ok d' /\ same_arrays d d'.
Proof. exact (plain_order nsqrt dw w d0 ds d0' ds'). Qed.
Print Assumptions C36_order_partial.
Theorem C36_many_partial nsqrt dw w ds d0 :
  (0 < dw)%Qc -> uniform dw w -> plain w d0 -> (forall x, In x ds -> plain w x) ->
  exists d, coadd_all (delta_coadd nsqrt dw) d0 ds = Ok d /\ plain w d /\
    forall j, j < length w ->
      (qv (d_ivar d) j = qsum (map (fun x => qv (d_ivar x) j) (d0 :: ds)))%Qc /\
      (qv (d_ivar d) j * qv (d_delta d) j = qsum (map (fun x => qv (d_ivar x) j * qv (d_delta x) j) (d0 :: ds)))%Qc /\
      (qv (d_ivar d) j * qv (d_cont d) j = qsum (map (fun x => qv (d_ivar x) j * qv (d_cont x) j) (d0 :: ds)))%Qc.
Proof. exact (fun H U => plain_all nsqrt dw w H U ds d0). Qed.
Print Assumptions C36_many_partial.

(** A masked pixel leaves delta and ivar of the other delta alone but halves its weight. *)
Theorem C36_masked_weight_refuted nsqrt dw d1 d2 d mn mx j e m :
  (0 < dw)%Qc -> pair_ok dw d1 d2 -> d_reso d1 = None -> spans d1 d2 mn mx -> j < grid_n mn mx dw ->
  delta_coadd nsqrt dw d1 d2 = Ok d ->
  lands mn dw j (delta_entries d1) = [e] -> lands mn dw j (delta_entries d2) = [m] ->
  (0 < e_weight e)%Qc -> e_ivar m = 0%Qc ->
  nth_error (d_delta d) j = Some (Fin (e_flux e)) /\ nth_error (d_ivar d) j = Some (Fin (e_ivar e)) /\
  nth_error (d_weight d) j = Some (Fin (e_weight e / (1 + 1))).
Proof. exact (coadd_masked nsqrt dw d1 d2 d mn mx j e m). Qed.
Print Assumptions C36_masked_weight_refuted.

(** The resolution matrix: an AttributeError if only the first delta has one. *)
Theorem C36_resolution_refuted nsqrt dw d1 d2 m :
  (0 < dw)%Qc -> pair_ok dw d1 d2 -> d_reso d1 = Some m -> d_reso d2 = None ->
  delta_coadd nsqrt dw d1 d2 = Err (OtherExn "AttributeError").
Proof. exact (coadd_no_reso nsqrt dw d1 d2 m). Qed.
Print Assumptions C36_resolution_refuted.

Definition ex_delta (t : Z) (w : list Z) (dl iv wt : list Qc) : delta :=
  mkDelta t (0, 0)%Qc n0 (map zq w) (map Fin dl) (map Fin iv) (map Fin wt) (map (fun _ => Fin 1) w) None false.
Definition ex_a := ex_delta 5 [3600; 3601]%Z [0; 0]%Qc [1; 1]%Qc [fq 1 2; fq 1 2].
Definition ex_b := ex_delta 5 [3600; 3601]%Z [0; 1]%Qc [1; 0]%Qc [fq 1 2; 0%Qc].
Definition ex_c := ex_delta 5 [3600; 3601]%Z [1; 1]%Qc [1; 1]%Qc [fq 1 2; fq 1 2].
Definition ex_shift := ex_delta 5 [3601; 3602]%Z [1; 1]%Qc [1%Qc; (1 + 1)%Qc] [1%Qc; fq 1 2].
Lemma ex_uniform a : uniform 1 (map zq [a; (a + 1)%Z]).
Proof.
  intros [|k] x y; cbn; [|destruct k; discriminate]. intros E1 E2. injection E1 as <-. injection E2 as <-.
  now rewrite zq_plus.
Qed.
Lemma ex_ok t a d1 d2 i1 i2 w1 w2 :
  delta_ok (ex_delta t [a; (a + 1)%Z] [d1; d2] [i1; i2] [w1; w2]).
Proof.
  unfold delta_ok, ex_delta. cbn [d_wave d_delta d_ivar d_weight d_cont]. split; [discriminate|]. split.
  { repeat constructor. apply zq_lt. lia. }
  repeat split; repeat constructor.
Qed.
Definition weights_fine (w i : Qc) : Prop := (0 <= w)%Qc /\ (0 <= i)%Qc /\ (i = 0%Qc -> w = 0%Qc) /\ (w <= i)%Qc.
Lemma ex_weights t a d1 d2 i1 i2 w1 w2 : weights_fine w1 i1 -> weights_fine w2 i2 ->
  weights_ok (delta_entries (ex_delta t [a; (a + 1)%Z] [d1; d2] [i1; i2] [w1; w2])) /\
  weight_le_ivar (delta_entries (ex_delta t [a; (a + 1)%Z] [d1; d2] [i1; i2] [w1; w2])).
Proof.
  intros (A1 & A2 & A3 & A4) (B1 & B2 & B3 & B4). split; intros e [<-|[<-|[]]]; cbn; auto.
Qed.
Lemma ex_pairs : pair_ok 1 ex_a ex_a /\ pair_ok 1 ex_a ex_b /\ pair_ok 1 ex_a ex_c /\ pair_ok 1 ex_a ex_shift.
Proof.
  assert (weights_fine (fq 1 2) 1 /\ weights_fine 0 0 /\ weights_fine 1 1 /\ weights_fine (fq 1 2) (1 + 1)) as (F1 & F2 & F3 & F4).
  { repeat split; (discriminate || easy). }
  assert (forall t a d1 d2 i1 i2 w1 w2 t' a' d1' d2' i1' i2' w1' w2',
    weights_fine w1 i1 -> weights_fine w2 i2 -> weights_fine w1' i1' -> weights_fine w2' i2' ->
    pair_ok 1 (ex_delta t [a; (a + 1)%Z] [d1; d2] [i1; i2] [w1; w2]) (ex_delta t' [a'; (a' + 1)%Z] [d1'; d2'] [i1'; i2'] [w1'; w2'])) as G.
  { intros. unfold pair_ok. pose proof (ex_weights t a d1 d2 i1 i2 w1 w2 H H0) as (X1 & X2).
    pose proof (ex_weights t' a' d1' d2' i1' i2' w1' w2' H1 H2) as (Y1 & Y2).
    pose proof (ex_ok t a d1 d2 i1 i2 w1 w2). pose proof (ex_ok t' a' d1' d2' i1' i2' w1' w2').
    pose proof (ex_uniform a). pose proof (ex_uniform a'). tauto. }
  split; [|split; [|split]].
  - apply (G _ 3600%Z _ _ _ _ _ _ _ 3600%Z); assumption.
  - apply (G _ 3600%Z _ _ _ _ _ _ _ 3600%Z); assumption.
  - apply (G _ 3600%Z _ _ _ _ _ _ _ 3600%Z); assumption.
  - apply (G _ 3600%Z _ _ _ _ _ _ _ 3601%Z); assumption.
Qed.

Definition nid (x : num) : num := x.
(** the union grid; pixel 3601 is averaged *)
Example C36_ex_coadd :
  exists d, delta_coadd nid 1 ex_a ex_shift = Ok d /\ map this (d_wave d) = map inject_Z [3600; 3601; 3602]%Z /\
    shown_arr (d_delta d) = [0; 2 # 3; 1]%Q /\ shown_arr (d_ivar d) = [1; 9 # 5; 2]%Q /\ shown_arr (d_weight d) = [1 # 2; 9 # 8; 1 # 2]%Q.
Proof. eexists. split; [vm_compute; reflexivity|]. repeat split; vm_compute; reflexivity. Qed.
(** the second pixel of ex_b is masked: the weight 1/2 becomes 1/4 *)
Example C36_ex_masked :
  pair_ok 1 ex_a ex_b /\
  exists d, delta_coadd nid 1 ex_a ex_b = Ok d /\ shown_arr (d_delta d) = [0; 0]%Q /\ shown_arr (d_ivar d) = [2; 1]%Q /\
    shown_arr (d_weight d) = [2 # 3; 1 # 4]%Q.
Proof. split; [apply ex_pairs|]. eexists. split; [vm_compute; reflexivity|]. repeat split; vm_compute; reflexivity. Qed.

(** Three deltas: the result depends on the order. *)
Theorem C36_order_refuted : exists dw d1 d2 d3 r r',
  (0 < dw)%Qc /\ pair_ok dw d1 d2 /\ pair_ok dw d1 d3 /\ d_reso d1 = None /\ d_reso d2 = None /\ d_reso d3 = None /\
  coadd_all (delta_coadd nid dw) d1 [d2; d3] = Ok r /\ coadd_all (delta_coadd nid dw) d3 [d1; d2] = Ok r' /\
  shown_arr (d_delta r) = [3 # 7; 3 # 7]%Q /\ shown_arr (d_delta r') = [2 # 7; 2 # 7]%Q.
Proof.
  exists 1%Qc, ex_a, ex_a, ex_c. eexists _, _. destruct ex_pairs as (P1 & _ & P2 & _).
  do 6 (split; [easy|]). split; [vm_compute; reflexivity|]. split; [vm_compute; reflexivity|].
  split; vm_compute; reflexivity.
Qed.
Print Assumptions C36_order_refuted.

Definition ex_plain (t : Z) (dl iv : list Qc) : delta := ex_delta t [3600; 3601]%Z dl iv iv.
Example C36_ex_order :
  Forall (plain (map zq [3600; 3601]%Z)) [ex_plain 5 [0; 1]%Qc [1; 1]%Qc; ex_plain 5 [1; 1]%Qc [fq 1 2; 1%Qc]] /\
  uniform 1 (map zq [3600; 3601]%Z) /\
  exists d, coadd_all (delta_coadd nid 1) (ex_plain 5 [0; 1]%Qc [1; 1]%Qc) [ex_plain 5 [1; 1]%Qc [fq 1 2; 1%Qc]; ex_plain 5 [1; 1]%Qc [fq 1 2; 1%Qc]] = Ok d /\
    shown_arr (d_delta d) = [1 # 2; 1]%Q.
Proof.
  split; [|split; [apply (ex_uniform 3600)|eexists; split; vm_compute; reflexivity]].
  constructor; [|constructor; [|constructor]]; (split; [apply (ex_ok 5 3600)|]); repeat split; repeat constructor.
Qed.

(** ** C37 *)
(** Each TARGETID of the input is written exactly once, in the file of its healpix; what is written is
    the coaddition of all deltas with this TARGETID in order of reading. *)
Theorem C37_written_once coadd hpx files out :
  (forall a b c, coadd a b = Ok c -> d_targetid c = d_targetid a) ->
  coadd_main coadd hpx files = Ok out ->
  NoDup (map fst out) /\ NoDup (map h_targetid (concat (map snd out))) /\
  (forall t, In t (map d_targetid (concat files)) <-> In t (map h_targetid (concat (map snd out)))) /\
  (forall p hs h, In (p, hs) out -> In h hs -> exists d d0 r,
     h = delta_hdu d /\ hpx d = p /\ of_target (h_targetid h) (concat files) = d0 :: r /\ coadd_all coadd d0 r = Ok d).
Proof. exact (fun k => coadd_main_spec coadd hpx k files out). Qed.
Print Assumptions C37_written_once.

(** The files in which targets are found depend only on the deltas, not on files or their order. *)
Theorem C37_file_order coadd hpx files out files' out' :
  (forall a b c, coadd a b = Ok c -> d_targetid c = d_targetid a) ->
  (forall a b c, coadd a b = Ok c -> hpx c = hpx a) ->
  coadd_main coadd hpx files = Ok out -> coadd_main coadd hpx files' = Ok out' ->
  Permutation (concat files) (concat files') -> one_place hpx (concat files) ->
  forall t p, written_in t p out <-> written_in t p out'.
Proof. exact (fun k1 k2 => file_order coadd hpx k1 k2 files out files' out'). Qed.
Print Assumptions C37_file_order.

(** With weight = ivar > 0 the contents do not depend on the order either. *)
Theorem C37_contents_partial nsqrt dw w hpx files out files' out' :
  (0 < dw)%Qc -> uniform dw w -> Forall (plain w) (concat files) ->
  coadd_main (delta_coadd nsqrt dw) hpx files = Ok out -> coadd_main (delta_coadd nsqrt dw) hpx files' = Ok out' ->
  Permutation (concat files) (concat files') ->
  forall d d', In (delta_hdu d) (concat (map snd out)) -> In (delta_hdu d') (concat (map snd out')) ->
    d_targetid d = d_targetid d' -> d_reso d = None -> d_reso d' = None -> same_arrays d d'.
Proof. exact (contents_order nsqrt dw w hpx files out files' out'). Qed.
Print Assumptions C37_contents_partial.

(** The only failures are an empty list of files and those of coadd. *)
Theorem C37_total coadd hpx files :
  files <> [] -> (forall a b, In b (concat files) -> exists c, coadd a b = Ok c) ->
  exists out, coadd_main coadd hpx files = Ok out.
Proof. exact (coadd_main_total coadd hpx files). Qed.
Print Assumptions C37_total.
Theorem C37_no_files coadd hpx : coadd_main coadd hpx [] = Err (OtherExn "No delta files are found!").
Proof. exact eq_refl. Qed.
Print Assumptions C37_no_files.
(** coadd keeps TARGETID and coordinates *)
Theorem C37_coadd_keeps nsqrt dw a b c : delta_coadd nsqrt dw a b = Ok c ->
  d_targetid c = d_targetid a /\ d_radec c = d_radec a.
Proof. exact (coadd_keeps nsqrt dw a b c). Qed.
Print Assumptions C37_coadd_keeps.

Definition ex_other := ex_delta 6 [3600; 3601]%Z [0; 1]%Qc [1; 1]%Qc [fq 1 2; fq 1 2].
Definition ex_third := ex_delta 8 [3600; 3601]%Z [0; 1]%Qc [1; 1]%Qc [fq 1 2; fq 1 2].
Example C37_ex :
  exists out, coadd_main (delta_coadd nid 1) (fun d => Z.modulo (d_targetid d) 2) [[ex_a; ex_other]; [ex_c]; [ex_third]] = Ok out /\
    map (fun p => (fst p, map h_targetid (snd p))) out = [(1, [5]); (0, [6; 8])]%Z.
Proof. eexists. split; vm_compute; reflexivity. Qed.
