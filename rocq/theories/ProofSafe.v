(** The parts of the program without MPI never raise QsonicException or SystemExit. *)
From Coq Require Import ZArith String List Bool Arith Lia Qcanon.
From Verif Require Import Num NpList Exn Dict Mpi ModelSpectrum ModelMasks ModelContinuum ModelStack ModelSubsample
  ModelVarFit ModelFitter ModelBlinding SpecMpi ProofLock.
Import ListNotations.
Local Open Scope nat_scope.

Lemma safe_ok {A} (a : A) : safe (Ok a). Proof. exact I. Qed.
Lemma safe_other {A} m : safe (@Err A (OtherExn m)). Proof. exact I. Qed.
Lemma safe_bind {A B} (x : res A) (f : A -> res B) : safe x -> (forall a, safe (f a)) -> safe (rbind x f).
Proof. intros Hx Hf. destruct x; [apply Hf|exact Hx]. Qed.
Lemma safe_bind_ok {A B} (x : res A) (f : A -> res B) : safe x -> (forall a, x = Ok a -> safe (f a)) -> safe (rbind x f).
Proof. intros Hx Hf. destruct x; [now apply Hf|exact Hx]. Qed.
Lemma safe_rmap {A B} (f : A -> B) x : safe x -> safe (rmap f x).
Proof. now destruct x. Qed.
Lemma safe_of_option {A} m (o : option A) : safe (of_option m o).
Proof. now destruct o. Qed.
Lemma safe_rget {A} k (d : dict A) : safe (rget k d).
Proof. apply safe_of_option. Qed.
Lemma safe_rseq {A} (l : list (res A)) : (forall x, In x l -> safe x) -> safe (rseq l).
Proof.
  induction l as [|x l IH]; intro H; [exact I|]. cbn. apply safe_bind; [apply H; now left|]. intro a. apply safe_rmap. apply IH.
  intros y Hy. apply H. now right.
Qed.
Lemma safe_rseq_map {A B} (f : A -> res B) l : (forall x, safe (f x)) -> safe (rseq (map f l)).
Proof. intro H. apply safe_rseq. intros x Hx. apply in_map_iff in Hx as (y & <- & _). apply H. Qed.
Lemma safe_for_each {X S} (l : list X) (f : X -> S -> res S) s : (forall x s, safe (f x s)) -> safe (for_each l f s).
Proof. intro H. revert s. induction l as [|x l IH]; intro s; [exact I|]. cbn. apply safe_bind; [apply H|apply IH]. Qed.
Lemma safe_zip2 {A B C} (f : A -> B -> C) a b : safe (zip2 f a b).
Proof. unfold zip2. now destruct (_ =? _). Qed.
Lemma safe_zip3 {A B C D} (f : A -> B -> C -> D) a b c : safe (zip3 f a b c).
Proof. unfold zip3. now destruct (_ && _). Qed.
Lemma safe_rfirst {A} (l : list A) : safe (rfirst l). Proof. now destruct l. Qed.
Lemma safe_rlast {A} (l : list A) : safe (rlast l). Proof. apply safe_rfirst. Qed.
Lemma safe_rmin l : safe (rmin l). Proof. now destruct l. Qed.
Lemma safe_rmax l : safe (rmax l). Proof. now destruct l. Qed.
Lemma safe_norm_idx n i : safe (norm_idx n i).
Proof. unfold norm_idx. destruct (_ && _); [exact I|]. now destruct (_ && _). Qed.
Lemma safe_ndot a b : safe (ndot a b). Proof. apply safe_rmap, safe_zip2. Qed.
Lemma safe_mask_set {A} (v : A) w a : safe (mask_set v w a). Proof. apply safe_zip2. Qed.
Lemma safe_mask_get {A} w (a : list A) : safe (mask_get w a). Proof. apply safe_rmap, safe_zip2. Qed.
Lemma safe_fancy_add a i v : safe (fancy_add a i v).
Proof. unfold fancy_add. apply safe_bind; [apply safe_rseq_map, safe_norm_idx|]. intro. now destruct (_ =? _). Qed.
Lemma safe_fancy_set a i v : safe (fancy_set a i v).
Proof. unfold fancy_set. apply safe_bind; [apply safe_rseq_map, safe_norm_idx|]. intro. now destruct (_ =? _). Qed.
Lemma safe_finite a : safe (finite_arr a). Proof. unfold finite_arr. now destruct (forallb _ _). Qed.

Create HintDb safe.
#[global] Hint Resolve safe_ok safe_other safe_of_option safe_rget safe_zip2 safe_zip3 safe_rfirst safe_rlast safe_rmin safe_rmax
  safe_norm_idx safe_ndot safe_mask_set safe_mask_get safe_fancy_add safe_fancy_set safe_finite : safe.
Ltac safe_step :=
  match goal with
  | |- forall _, _ => intro
  | |- safe _ => solve [auto with safe nocore]
  | |- safe (let _ := _ in _) => cbv zeta
  | |- safe (rbind _ _) => apply safe_bind
  | |- safe (rmap _ _) => apply safe_rmap
  | |- safe (rseq (map _ _)) => apply safe_rseq_map
  | |- safe (for_each _ _ _) => apply safe_for_each
  | |- safe (if ?b then _ else _) => destruct b
  | |- safe (match ?x with _ => _ end) => destruct x
  end.
Ltac safe := repeat safe_step.

Lemma safe_weight_arm a b c d e : safe (weight_arm a b c d e). Proof. unfold weight_arm. safe. Qed.
#[global] Hint Resolve safe_weight_arm : safe.
Lemma safe_set_forest_weight a b s : safe (set_forest_weight a b s). Proof. unfold set_forest_weight. safe. Qed.
Lemma safe_chi2 s : safe (calc_continuum_chi2 s). Proof. unfold calc_continuum_chi2. safe. Qed.
Lemma safe_get_a0 s : safe (get_a0 s). Proof. unfold get_a0. safe. Qed.
#[global] Hint Resolve safe_set_forest_weight safe_chi2 safe_get_a0 : safe.
Lemma safe_picca_fit a b c d e f s x : (forall s a0, safe (f s a0)) -> safe (picca_fit a b c d e f s x).
Proof. intro H. unfold picca_fit. safe; apply H. Qed.
Lemma safe_picca_init o s : safe (picca_init o s). Proof. unfold picca_init. safe. Qed.
Lemma safe_input_fit a b c d s : safe (input_fit a b c d s). Proof. unfold input_fit. safe. Qed.
Lemma safe_true_fit a b c s : safe (true_fit a b c s). Proof. unfold true_fit. safe. Qed.
#[global] Hint Resolve safe_picca_init safe_input_fit safe_true_fit : safe.
Lemma safe_bincount i w n : safe (np_bincount i w n). Proof. unfold np_bincount. safe. Qed.
Lemma safe_iadd a b : safe (arr_iadd a b). Proof. apply safe_zip2. Qed.
#[global] Hint Resolve safe_bincount safe_iadd : safe.
Lemma safe_stacker_add a b c d e k : safe (stacker_add a b c d e k). Proof. unfold stacker_add. safe. Qed.
#[global] Hint Resolve safe_stacker_add : safe.
Lemma safe_stack_arm r z w c f fl k : safe (stack_arm r z w c f fl k). Proof. unfold stack_arm. safe. Qed.
#[global] Hint Resolve safe_stack_arm : safe.
Lemma safe_stack_spec r s k : safe (stack_spec r s k). Proof. unfold stack_spec. safe. Qed.
#[global] Hint Resolve safe_stack_spec : safe.
Lemma safe_stack_spectra r l k : safe (stack_spectra r l k). Proof. unfold stack_spectra. safe. Qed.
#[global] Hint Resolve safe_stack_spectra : safe.
Lemma safe_lss_items l : safe (lss_items l). Proof. unfold lss_items. safe. Qed.
#[global] Hint Resolve safe_lss_items : safe.
Lemma safe_add_measurement x w s : safe (snd (add_measurement x w s)).
Proof. unfold add_measurement. now destruct (normalized s). Qed.
Lemma safe_vfit_add w d i v : safe (snd (vfit_add w d i v)).
Proof.
  unfold vfit_add. destruct (v_wave v); [exact I|]. destruct (_ || _); [exact I|]. cbv zeta. destruct (negb _); [exact I|].
  match goal with |- context [add_measurement ?x ?y ?z] => pose proof (safe_add_measurement x y z) as K; destruct (add_measurement x y z) as [s r] end.
  cbn [snd] in K. destruct r; [exact I|exact K].
Qed.
Lemma safe_vfit_add_all l : forall v, safe (vfit_add_all l v).
Proof.
  induction l as [|[[w d] i] l IH]; intro v; [exact I|]. cbn. pose proof (safe_vfit_add w d i v) as K. destruct (vfit_add w d i v) as [v' r].
  apply safe_bind; [exact K|]. intros _. apply IH.
Qed.
#[global] Hint Resolve safe_vfit_add_all : safe.
Lemma safe_with_ivar a f k : (forall x, safe (k x)) -> safe (with_ivar a f k).
Proof. intro H. unfold with_ivar. safe; apply H. Qed.
Lemma safe_with_arm a f k : (forall x y, safe (k x y)) -> safe (with_arm a f k).
Proof. intro H. unfold with_arm. safe; apply H. Qed.
Lemma safe_noise_eta e s : safe (noise_eta e s).
Proof. unfold noise_eta. safe. apply safe_with_ivar. safe. Qed.
Lemma safe_noise_additive e v s : safe (noise_additive e v s).
Proof. unfold noise_additive. safe. apply safe_with_ivar. intro. unfold noise_additive_arm. safe. Qed.
#[global] Hint Resolve safe_noise_eta safe_noise_additive : safe.
Lemma safe_noise_calibrate e v l : safe (noise_calibrate e v l). Proof. unfold noise_calibrate. safe. Qed.
Lemma safe_flux_calibrate f s : safe (flux_calibrate1 f s).
Proof. unfold flux_calibrate1. safe. apply safe_with_arm. intros. unfold flux_cal_arm. safe. Qed.
Lemma safe_scale_cont e k s : safe (scale_cont e k s). Proof. unfold scale_cont. safe. Qed.
#[global] Hint Resolve safe_noise_calibrate safe_flux_calibrate safe_scale_cont : safe.
Lemma safe_write_ext g w r n : safe (write_ext g w r n). Proof. unfold write_ext. safe. Qed.
#[global] Hint Resolve safe_write_ext : safe.
Lemma safe_save g w r s t : safe (save g w r s t). Proof. unfold save. safe. Qed.
Lemma safe_write_vfit g w r t : safe (write_vfit g w r t). Proof. unfold write_vfit. safe. Qed.
#[global] Hint Resolve safe_save safe_write_vfit : safe.
Lemma safe_fit_one g ev mf sl mi ic tc t sx : safe (fit_one g ev mf sl mi ic tc t sx).
Proof. unfold fit_one. safe. apply safe_picca_fit. safe. Qed.
Lemma safe_init_one g ic sx : safe (init_one g ic sx). Proof. unfold init_one. safe. Qed.
#[global] Hint Resolve safe_fit_one safe_init_one : safe.
Lemma safe_normalize_flux g es t l : safe (normalize_flux g es t l).
Proof. unfold normalize_flux. safe. unfold on_valid, on_spec. safe. Qed.
Lemma safe_eta_calibrate g ev t l : safe (eta_calibrate g ev t l).
Proof. unfold eta_calibrate. safe. unfold on_spec. safe. Qed.
Lemma safe_add_noise ev sm dw vl t l : safe (add_noise ev sm dw vl t l). Proof. unfold add_noise. safe. Qed.
Lemma safe_coadd_one i w f v a : safe (coadd_one i w f v a). Proof. unfold coadd_one. safe. Qed.
#[global] Hint Resolve safe_normalize_flux safe_eta_calibrate safe_add_noise safe_coadd_one : safe.
Lemma map2_In {A B C} (f : A -> B -> C) l m x : In x (map2 f l m) -> exists a b, x = f a b.
Proof. revert m. induction l as [|a l IH]; intros [|b m] H; try destruct H; [eauto|]. now apply IH in H. Qed.
Lemma safe_coadd_reso n i w r : safe (coadd_reso n i w r).
Proof.
  unfold coadd_reso. safe. apply safe_rseq. intros y Hy. apply map2_In in Hy as (c & d & ->). safe.
Qed.
#[global] Hint Resolve safe_coadd_reso : safe.
Lemma safe_coadd_arms a b c d e f s : safe (coadd_arms_forest a b c d e f s).
Proof. unfold coadd_arms_forest. safe. Qed.
#[global] Hint Resolve safe_coadd_arms : safe.
Lemma safe_coadd_after a b c d e f s : safe (coadd_after a b c d e f s).
Proof. unfold coadd_after. safe. Qed.
#[global] Hint Resolve safe_coadd_after : safe.
