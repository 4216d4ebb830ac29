(** C39: what fit_continuum leaves in a spectrum. *)
From Coq Require Import ZArith QArith String List Bool Arith Lia Qcanon.
From Verif Require Import Num NpList Exn Dict ModelSpectrum ModelContinuum SpecSpectrum SpecWeights SpecStack SpecContinuum
  ProofContinuum PropMasks.
Import ListNotations.
Local Open Scope nat_scope.
Notation F f := (fun x : Qc => Fin (f x)).

(** Fitted continuum, for every outcome of the minimizer with finite parameters: valid with a non-negative continuum in every
    arm, its weights and its chi2, if the minimizer succeeded and no pixel is negative; otherwise no continuum, chi2 = -1 and
    the parameters of before. *)
Theorem C39_picca : forall meanflux varlss eta : Qc -> Qc,
  (forall x, (0 < eta x)%Qc) -> (forall x, (0 <= varlss x)%Qc) ->
  forall meancont slope minimizer s xcov, fit_ready s -> (forall x, (0 <= meanflux x)%Qc) ->
  let fit := picca_fit (F meanflux) (F varlss) (F eta) (F meancont) (F slope) minimizer s xcov in
  exists a0,
  match minimizer s a0 with
  | Err e => fit = Err e
  | Ok r =>
      forall a, (m_valid r = true -> m_x r = map Fin a) ->
      let shape x := model_at meancont slope a (x / (1 + s_z s))%Qc in
      exists s' xcov', fit = Ok (s', xcov') /\
      if m_valid r && negb (negative_pixel shape s)
      then fitted_with varlss eta (fun x => shape x * meanflux x)%Qc s s' /\ s_x s' = map Fin a /\ xcov' = m_xcov r /\
           forall x, forest_pixel s x -> (0 <= shape x * meanflux x)%Qc
      else rejected s s' /\ xcov' = xcov
  end.
Proof. exact picca_thm. Qed.
Print Assumptions C39_picca.

(** Input continuum: valid with a positive continuum if one was found and is positive at every pixel. *)
Theorem C39_input : forall meanflux varlss eta : Qc -> Qc,
  (forall x, (0 < eta x)%Qc) -> (forall x, (0 <= varlss x)%Qc) ->
  forall (cubic : Qc -> option Qc) s, fit_ready s -> (forall x, (0 < meanflux x)%Qc) ->
  exists s', input_fit (F meanflux) (F varlss) (F eta) (fun w => opt_num (cubic w)) s = Ok s' /\ s_x s' = s_x s /\
    if s_valid s && negb (bad_pixel cubic s)
    then let c x := (opt_val (cubic (x / (1 + s_z s))) * meanflux x)%Qc in
         fitted_with varlss eta c s s' /\ forall x, forest_pixel s x -> (0 < c x)%Qc
    else rejected s s'.
Proof. exact input_thm. Qed.
Print Assumptions C39_input.

(** True continuum of mocks: always valid, weights with eta = 1. *)
Theorem C39_true : forall meanflux varlss : Qc -> Qc, (forall x, (0 <= varlss x)%Qc) ->
  forall (cubic : Qc -> Qc) s, fit_ready s -> s_valid s = true ->
  exists s', true_fit (F meanflux) (F varlss) (F cubic) s = Ok s' /\ s_x s' = s_x s /\
    fitted_with varlss (fun _ => 1%Qc) (fun x => cubic x * meanflux x)%Qc s s'.
Proof. exact true_fit_spec. Qed.
Print Assumptions C39_true.

Lemma ex_ready : fit_ready (ex_forest (zq 2) 0 0).
Proof.
  split; [apply ex_proper|]. split; [discriminate|]. split; [cbn; repeat constructor; cbn; intuition discriminate|]. split.
  - intros arm l x. cbn [dget ff s_f ex_forest]. destruct (String.eqb arm "b"); [|destruct (String.eqb arm "r"); [|discriminate]];
      intro H; injection H as <-; cbn; intros K; repeat (destruct K as [<-|K]; [eauto|]); destruct K.
  - intros arm l x. unfold fivar_sm. cbn [dget hp rs nth s_f ex_forest].
    destruct (String.eqb arm "b"); [|destruct (String.eqb arm "r"); [|discriminate]];
      intro H; injection H as <-; cbn; intros K;
      repeat (destruct K as [<-|K]; [eexists; split; [reflexivity|discriminate]|]); destruct K.
Qed.
Definition ex_min (v : bool) (x : list num) (s : spec) (a0 : num) : res minres := Ok (mkMin v x [[n1]]).
Definition show (d : dict arr) (arm : string) : option (list Q) :=
  option_map (map (fun x => this (nval x))) (dget arm d).
(** A constant continuum of 2 with transmission 1/2, var_lss = 1/2 and eta = 2; the same minimizer result with an amplitude
    of -2 is rejected. *)
Example C39_ex :
  match picca_fit (fun _ => Fin (fq 1 2)) (fun _ => Fin (fq 1 2)) (fun _ => Fin (zq 2)) (fun _ => n1) (fun _ => n0)
        (ex_min true [Fin (zq 2)]) (ex_forest (zq 2) 0 0) [] with
  | Ok (s', c) => s_valid s' = true /\ show (s_cont s') "r" = Some [1; 1]%Q /\ show (fweight (s_f s')) "r" = Some [2 # 5; 2 # 3]%Q /\
      this (nval (s_chi2 s')) = (332 # 7)%Q /\ c = [[n1]]
  | Err _ => False
  end /\
  match picca_fit (fun _ => Fin (fq 1 2)) (fun _ => Fin (fq 1 2)) (fun _ => Fin (zq 2)) (fun _ => n1) (fun _ => n0)
        (ex_min true [Fin (zq (-2))]) (ex_forest (zq 2) 0 0) [] with
  | Ok (s', c) => s_valid s' = false /\ s_cont s' = [] /\ c = []
  | Err _ => False
  end.
Proof. split; vm_compute; repeat split. Qed.

(** Not rejected: a "successful" minimizer with a nan parameter makes a valid spectrum whose continuum is nan everywhere
    (only values < 0 are tested). *)
Theorem C39_nan_refuted : exists meanflux varlss eta meancont slope minimizer s s' xcov',
  fit_ready s /\ (forall x, 0 < eta x)%Qc /\ (forall x, 0 <= varlss x)%Qc /\ (forall x, 0 < meanflux x)%Qc /\
  picca_fit (F meanflux) (F varlss) (F eta) (F meancont) (F slope) minimizer s [] = Ok (s', xcov') /\
  s_valid s' = true /\ forall arm l x, dget arm (s_cont s') = Some l -> In x l -> x = NaN.
Proof.
  exists (fun _ => 1%Qc), (fun _ => 1%Qc), (fun _ => 1%Qc), (fun _ => 1%Qc), (fun _ => 1%Qc), (ex_min true [NaN]), (ex_forest (zq 2) 0 0).
  eexists. eexists. split; [apply ex_ready|]. split; [intro; reflexivity|]. split; [intro; discriminate|]. split; [intro; reflexivity|].
  split; [vm_compute; reflexivity|]. split; [reflexivity|]. intros arm l x. cbn [s_cont dget].
  destruct (String.eqb arm "b"); [|destruct (String.eqb arm "r"); [|discriminate]];
    intro H; injection H as <-; cbn; intros K; repeat (destruct K as [<-|K]; [reflexivity|]); destruct K.
Qed.
Print Assumptions C39_nan_refuted.

(** Not rejected: a negative true continuum. *)
Theorem C39_true_refuted : exists meanflux varlss cubic s s',
  fit_ready s /\ s_valid s = true /\ (forall x, 0 <= varlss x)%Qc /\ (forall x, 0 < meanflux x)%Qc /\
  true_fit (F meanflux) (F varlss) (F cubic) s = Ok s' /\ s_valid s' = true /\
  forall arm l x, dget arm (s_cont s') = Some l -> In x l -> x = Fin (- (1)).
Proof.
  exists (fun _ => 1%Qc), (fun _ => 1%Qc), (fun _ => (- (1))%Qc), (ex_forest (zq 2) 0 0).
  eexists. split; [apply ex_ready|]. split; [reflexivity|]. split; [intro; discriminate|]. split; [intro; reflexivity|].
  split; [vm_compute; reflexivity|]. split; [reflexivity|]. intros arm l x. cbn [s_cont dget].
  destruct (String.eqb arm "b"); [|destruct (String.eqb arm "r"); [|discriminate]];
    intro H; injection H as <-; cbn; intros K; repeat (destruct K as [<-|K]; [f_equal; apply Qc_is_canon; reflexivity|]); destruct K.
Qed.
Print Assumptions C39_true_refuted.
