(** C63: signal-to-noise ratios.  Vocabulary: SpecSnr.v, SpecSpectrum.v. *)
From Coq Require Import ZArith String List Bool Arith QArith Qcanon Lia.
From Verif Require Import Num NpList Exn Dict ModelSpectrum SpecSpectrum SpecMasks SpecWeights SpecCoadd SpecSnr
  ProofCoadd3 ProofSnr PropSpectrum PropMasks PropWeights.
Import ListNotations.
Local Open Scope nat_scope.

(** RSNR *)
Theorem C63_rsnr nsqrt sq st cat wave flux ivar mask reso idx st' s : square_root nsqrt sq ->
  spec_init nsqrt st cat wave flux ivar mask reso idx = Ok (st', s) ->
  NoDup (dkeys (s_wave s)) -> data_matches_grid s -> (forall arm w, dget arm (s_wave s) = Some w -> ascending w) ->
  usable (spectrum_pixels s) ->
  let l := filter (redside (c_z cat)) (spectrum_pixels s) in
  s_rsnr s = Fin (snr_sum sq l / (snr_count l + fq 1 1000000))%Qc.
Proof. exact (rsnr_thm nsqrt sq st cat wave flux ivar mask reso idx st' s). Qed.
Print Assumptions C63_rsnr.

(** MEANSNR of the arms of a forest, and the first guess of the amplitude *)
Theorem C63_forest nsqrt sq w1 w2 lya1 lya2 s s' : square_root nsqrt sq ->
  s_f s = empty_forest -> NoDup (dkeys (s_wave s)) -> data_matches_grid s -> (forall arm w, dget arm (s_wave s) = Some w -> ascending w) ->
  usable (spectrum_pixels s) -> set_forest_region nsqrt w1 w2 lya1 lya2 s = Ok s' ->
  (exists m, s_msnr s' = Some m /\ dkeys m = dkeys (fivar (s_f s')) /\
    forall arm, In arm (dkeys m) -> (0 < snr_count (forest_arm s' arm))%Qc /\
      dget arm m = Some (Fin (snr_sum sq (forest_arm s' arm) / snr_count (forest_arm s' arm))%Qc)) /\
  s_x s' = upd 0 (fun _ => Fin (ivar_flux_sum (forest_pixels s') / (ivar_sum (forest_pixels s') + fq 1 1000000))%Qc) (s_x s).
Proof. exact (forest_snr_thm nsqrt sq w1 w2 lya1 lya2 s s'). Qed.
Print Assumptions C63_forest.

(** MEANSNR after coadding the arms *)
Theorem C63_coadd nsqrt sq smooth junk dw varlss eta s : square_root nsqrt sq ->
  (forall l q, length (smooth l q) = length l) -> (0 < dw)%Qc -> coaddable dw s ->
  exists s', coadd_arms_forest nsqrt smooth junk dw varlss eta s = Ok s' /\
    ((0 < snr_count (forest_arm s' "brz"))%Qc ->
       s_msnr s' = Some [("brz"%string, Fin (snr_sum sq (forest_arm s' "brz") / snr_count (forest_arm s' "brz"))%Qc)]).
Proof. exact (coadd_snr_thm nsqrt sq smooth junk dw varlss eta s). Qed.
Print Assumptions C63_coadd.

(** Example: one arm; two pixels redwards of the line at 3601.4 A, one of them masked; the
    identity stands for the square root *)
Lemma ids_root : square_root ids (fun q => q).
Proof. repeat split; auto. Qed.
Example C63_ex :
  square_root ids (fun q => q) /\
  (exists st' s, spec_init ids statics0 (mkCatrow 39 7 (fq 19625 10000) None [] [] [] [])
      [("b"%string, map zq [3600; 3601; 3602; 3603; 3604]%Z)] [("b"%string, [ex_num [1; 2; 3; 4; 5]%Z])] [("b"%string, [ex_num [1; 1; 2; 2; 2]%Z])]
      [("b"%string, [[0; 0; 0; 1; 0]%Z])] [] 0 = Ok (st', s) /\
    NoDup (dkeys (s_wave s)) /\ data_matches_grid s /\ (forall arm w, dget arm (s_wave s) = Some w -> ascending w) /\ usable (spectrum_pixels s) /\
    this (nval (s_rsnr s)) = (16000000 # 2000001)%Q) /\
  (usable (spectrum_pixels ex_spec) /\ exists s', set_forest_region ids (zq 0) (zq 10000) (fq 3601 3) (fq 3603 3) ex_spec = Ok s' /\
     option_map (map (fun x => (fst x, this (nval (snd x))))) (s_msnr s') = Some [("b"%string, (33 # 2)%Q)]).
Proof.
  split; [apply ids_root|]. split.
  - eexists _, _. split; [lazy; reflexivity|]. cbn [s_wave]. split; [repeat constructor; intros []|]. split; [|split; [|split]].
    + intro arm. unfold len_at. cbn. destruct (String.eqb arm "b"); easy.
    + intros arm w. cbn. destruct (String.eqb arm "b"); [|discriminate]. intro H. injection H as <-.
      repeat constructor.
    + intros p Hp. vm_compute in Hp.
      repeat (destruct Hp as [<-|Hp]; [cbn; split; [eexists; reflexivity|eexists; split; [reflexivity|intro C; vm_compute in C; discriminate C]]|]). destruct Hp.
    + vm_compute. reflexivity.
  - split.
    + intros p Hp. vm_compute in Hp.
      repeat (destruct Hp as [<-|Hp]; [cbn; split; [eexists; reflexivity|eexists; split; [reflexivity|intro C; vm_compute in C; discriminate C]]|]). destruct Hp.
    + eexists. split; [vm_compute; reflexivity|]. vm_compute. reflexivity.
Qed.
