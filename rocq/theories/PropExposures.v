(** C49: exposures inherit the continuum of their quasar. *)
From Coq Require Import ZArith String QArith List Bool Arith Lia Qcanon.
From Verif Require Import Num NpList Exn Dict ModelSpectrum ModelExposures SpecSpectrum SpecWeights SpecExposures
  ProofExposures ProofExposures2 ProofExposures3.
Import ListNotations.
Local Open Scope nat_scope.

(** Every exposure has the continuum parameters and chi2 of the coadd of its quasar. Every exposure that is still valid (only these are written) has at every pixel the continuum that the coadd of
    its quasar has at a wavelength at most half a pixel away, for all grids of spacing dwave; and at the same
    wavelength if the grids are shifted by a whole number of pixels. *)
Theorem C49_continuum : forall dwave coadds exposures out,
  (0 < dwave)%Qc -> (forall c, In c coadds -> on_grid dwave c /\ has_continuum c) ->
  (forall s, In s exposures -> NoDup (dkeys (fw (s_f s))) /\ on_grid dwave s) ->
  match_exposures dwave coadds exposures = Ok out ->
  Forall2 (fun s s' => exists c, In c coadds /\ c_targetid (s_cat c) = c_targetid (s_cat s) /\ s_cat s' = s_cat s /\
    s_x s' = s_x c /\ s_chi2 s' = s_chi2 c /\
    (s_valid s' = true -> s_valid c = true /\ inherits (fq 1 2 * dwave) c s' /\
      ((forall arm w wc, dget arm (fw (s_f s)) = Some w -> dget arm (fw (s_f c)) = Some wc -> exists d, shifted dwave d wc w) ->
       inherits 0 c s'))) exposures out.
Proof. exact expos_inherit. Qed.
Print Assumptions C49_continuum.

(** If every arm of the exposure shares a pixel with the coadd, the exposure stays valid, its wavelengths are exactly
    those inside the range of the coadd, and all arrays are cut with them if the exposure does not start blueward of
    the coadd or if ivar, ivar_sm and weight are different objects.
    Missing: exposures that start blueward, and arms that the coadd does not have (refuted below). *)
Theorem C49_trim_partial : forall dwave coadd s,
  (0 < dwave)%Qc -> proper s -> on_grid dwave s -> on_grid dwave coadd -> has_continuum coadd -> overlaps dwave coadd s ->
  exists s', match_exposure dwave coadd s = Ok s' /\ s_valid s' = s_valid coadd /\
    (forall arm w wc, dget arm (fw (s_f s)) = Some w -> dget arm (fw (s_f coadd)) = Some wc ->
      exists w', dget arm (fw (s_f s')) = Some w' /\ inside wc w w') /\
    (unaliased (s_f s) \/
     (forall arm w wc d, dget arm (fw (s_f s)) = Some w -> dget arm (fw (s_f coadd)) = Some wc -> shifted dwave d wc w -> (0 <= d)%Z) ->
     aligned s' /\ forall arm, exists i j, cut_to arm i j s s').
Proof. exact expo_trim. Qed.
Print Assumptions C49_trim_partial.

(** An exposure with an arm that the coadd does not have: the loop over the arms fails. *)
Theorem C49_missing_arm_refuted : forall dwave coadd s arm w,
  dget arm (fw (s_f s)) = Some w -> dget arm (fw (s_f coadd)) = None ->
  exists e, match_exposure dwave coadd s = Err e.
Proof. exact expo_missing_arm. Qed.
Print Assumptions C49_missing_arm_refuted.

(** A spectrum with one arm; the three dictionaries are one object, as after set_forest_region. *)
Definition ex_num (l : list Z) : list num := map (fun z => Fin (zq z)) l.
Definition ex_one (waves flux ivar cont : list Z) : spec :=
  mkSpec (mkCatrow 7 0 (zq 2) None [] [] [] []) [] [] [] [] n0 None
    (mkForest [("b"%string, map zq waves)] [("b"%string, ex_num flux)] [] [[("b"%string, ex_num ivar)]] 0 0 0)
    0 true [] n0 [("b"%string, ex_num cont)].
Definition ex_coadd : spec := (ex_one [3602; 3603; 3604; 3605; 3606] [1; 1; 1; 1; 1] [2; 2; 2; 2; 2] [10; 20; 30; 40; 50])%Z.
Definition ex_exp : spec := (ex_one [3604; 3605; 3606; 3607] [1; 2; 3; 4] [5; 6; 7; 8] [])%Z.
Definition ex_blue : spec := (ex_one [3601; 3602; 3603; 3604] [1; 2; 3; 4] [5; 6; 7; 8] [])%Z.

(** The exposure starts one pixel before the coadd: the result is valid but its ivar has lost two pixels more than
    its wavelength array. *)
Theorem C49_trim_refuted : exists dwave coadd s s',
  (0 < dwave)%Qc /\ proper s /\ on_grid dwave s /\ on_grid dwave coadd /\ has_continuum coadd /\ overlaps dwave coadd s /\
  match_exposure dwave coadd s = Ok s' /\ s_valid s' = true /\
  len_at (fw (s_f s')) "b" = Some 3 /\ len_at (fivar (s_f s')) "b" = Some 1 /\ ~ aligned s'.
Proof.
  exists (zq 1), ex_coadd, ex_blue. eexists.
  split; [reflexivity|]. split.
  { split; [intro arm; unfold len_at; cbn; destruct (String.eqb arm "b"); cbn; now repeat split|].
    split; [repeat constructor; intros []|]. split; [|cbn; lia].
    intros arm w. cbn. destruct (String.eqb arm "b"); [|easy]. intro E. injection E as <-. repeat constructor. }
  split.
  { intros arm w. cbn. destruct (String.eqb arm "b"); [|easy]. intro E. injection E as <-.
    intros [|[|[|[|k]]]] a b; cbn; intros Ea Eb; try discriminate; try (destruct k; discriminate);
      injection Ea as <-; injection Eb as <-; apply Qc_is_canon; reflexivity. }
  split.
  { intros arm w. cbn. destruct (String.eqb arm "b"); [|easy]. intro E. injection E as <-.
    intros [|[|[|[|[|k]]]]] a b; cbn; intros Ea Eb; try discriminate; try (destruct k; discriminate);
      injection Ea as <-; injection Eb as <-; apply Qc_is_canon; reflexivity. }
  split.
  { intros arm w. cbn. destruct (String.eqb arm "b"); [|easy]. intro E. injection E as <-. eexists. split; reflexivity. }
  split.
  { intros arm w. cbn. destruct (String.eqb arm "b"); [|easy]. intro E. injection E as <-.
    eexists _, (-1)%Z, (zq 3602). split; [reflexivity|]. split.
    - exists (zq 3601), (zq 3602). now repeat split.
    - cbn. tauto. }
  split; [vm_compute; reflexivity|]. split; [reflexivity|]. split; [reflexivity|]. split; [reflexivity|].
  intro A. destruct (A "b"%string) as (_ & A2 & _). vm_compute in A2. discriminate.
Qed.
Print Assumptions C49_trim_refuted.

(** An exposure two pixels redward of the start of the coadd, ending one pixel later. *)
Example C49_ex : exists s', match_exposures (zq 1) [ex_coadd] [ex_exp] = Ok [s'] /\ s_valid s' = true /\
  option_map (map this) (dget "b" (fw (s_f s'))) = Some (map inject_Z [3604; 3605; 3606]%Z) /\
  option_map (map (fun x => this (nval x))) (dget "b" (s_cont s')) = Some (map inject_Z [30; 40; 50]%Z) /\
  option_map (map (fun x => this (nval x))) (dget "b" (fivar (s_f s'))) = Some (map inject_Z [5; 6; 7]%Z).
Proof. eexists. split; [vm_compute; reflexivity|]. vm_compute. repeat split. Qed.
