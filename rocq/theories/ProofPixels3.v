(** A masked pixel stays without weight (C71). *)
From Coq Require Import ZArith String List Bool Arith Lia Qcanon.
From Verif Require Import Num NpList NpListFacts Exn Dict Mpi ModelSpectrum ModelMasks ModelContinuum ModelStack ModelSubsample
  ModelVarFit ModelFitter ModelPipeline SpecSpectrum SpecPixels ProofCat ProofPixels1 ProofPixels2.
Import ListNotations.
Local Open Scope nat_scope.

Lemma spent_div v x : spent v -> spent (ndiv v x).
Proof.
  intros [-> | ->]; [|right; now destruct x]. destruct x as [q| | |]; [|right; reflexivity|left; reflexivity|left; reflexivity].
  cbn. destruct (qeqb q 0); [right; reflexivity|left]. unfold n0. f_equal. unfold Qcdiv. ring.
Qed.
Lemma spent_mul v x : spent v -> spent (nmul v x).
Proof.
  intros [-> | ->]; [|right; now destruct x]. destruct x as [q| | |]; [left|right|right|right]; try reflexivity. cbn. unfold n0. f_equal. ring.
Qed.
Lemma spent_clip v : spent v -> spent (if nltb v n0 then n0 else v).
Proof. intro H. destruct (nltb v n0); [now left|exact H]. Qed.

Lemma zip2_nth {A B C} (f : A -> B -> C) a b k v : okall (fun c => nth_error c k = Some v -> exists x y, nth_error a k = Some x /\ nth_error b k = Some y /\ v = f x y) (zip2 f a b).
Proof.
  unfold zip2. destruct (_ =? _); [|exact I]. cbn [okall]. rewrite nth_error_map2. destruct (nth_error a k), (nth_error b k); try discriminate.
  intro H. injection H as <-. eauto.
Qed.
Lemma nth_upd_or {A} r (g : A -> A) l i d : nth i (upd r g l) d = nth i l d \/ nth i (upd r g l) d = g (nth i l d).
Proof.
  revert r i. induction l as [|x l IH]; intros [|r] [|i]; cbn; auto.
Qed.
Lemma nth_app_or {A} (l : list A) x i d : nth i (l ++ [x]) d = nth i l d \/ nth i (l ++ [x]) d = x.
Proof.
  revert i. induction l as [|y l IH]; intros [|i]; cbn; auto. destruct i; auto.
Qed.

Section Okd.
Variable D : Qc -> Prop.
(** the values of the dictionary d are spent at the masked wavelengths *)
Definition okd (wv : dict (list Qc)) (d : dict (list num)) : Prop :=
  forall arm k x v, at_pix wv arm k = Some x -> D x -> at_pix d arm k = Some v -> spent v.
(** ... all dictionaries of the heap that the spectrum refers to *)
Definition okf (f : forest) : Prop := okd (fw f) (fivar f) /\ okd (fw f) (fivar_sm f) /\ okd (fw f) (fweight f).

Lemma okd_dset wv d arm iv : okd wv d -> (forall k x v, at_pix wv arm k = Some x -> D x -> nth_error iv k = Some v -> spent v) -> okd wv (dset arm iv d).
Proof.
  intros H Hi arm' k x v Ex Dx Ev. unfold at_pix at 1 in Ev. rewrite dget_dset in Ev.
  destruct (String.eqb_spec arm' arm) as [->|N]; [exact (Hi k x v Ex Dx Ev)|]. exact (H arm' k x v Ex Dx Ev).
Qed.
Lemma okd_nil wv : okd wv []. Proof. intros arm k x v _ _ H. discriminate H. Qed.
Lemma okf_mut r g f : okf f -> (forall d, okd (fw f) d -> okd (fw f) (g d)) -> okf (mut_ref r g f).
Proof.
  intros (H1 & H2 & H3) Hg. unfold okf, fivar, fivar_sm, fweight in *. cbn [mut_ref fw hp ri rs rw].
  split; [|split]; match goal with |- okd _ (nth ?i (upd r g ?l) []) => destruct (nth_upd_or r g l i []) as [-> | ->] end; auto.
Qed.
Lemma okf_new d f (c : dict (list num) -> forest -> forest) : (c = new_sm \/ c = new_weight) -> okf f -> okd (fw f) d -> okf (c d f).
Proof.
  intros Hc (H1 & H2 & H3) Hd. unfold okf, fivar, fivar_sm, fweight in *.
  destruct Hc as [-> | ->]; cbn [new_sm new_weight fw hp ri rs rw]; (split; [|split]);
    match goal with |- okd _ (nth ?i (hp f ++ [d]) []) => destruct (nth_app_or (hp f) d i []) as [-> | ->] end; auto.
  all: rewrite nth_overflow by lia; apply okd_nil.
Qed.
Lemma okf_with_ivar arm f k : okf f ->
  (forall iv, okall (fun iv' => forall j v', nth_error iv' j = Some v' -> exists v, nth_error iv j = Some v /\ (spent v -> spent v')) (k iv)) ->
  okall okf (with_ivar arm f k).
Proof.
  intros H Hk. unfold with_ivar, rget. destruct (dget arm (fivar f)) as [iv|] eqn:E; [|exact I]. cbn [of_option rbind].
  eapply okall_bind2; [apply Hk|]. intros iv' Hi. cbn [okall]. apply okf_mut; [exact H|]. intros d Hd. apply okd_dset; [exact Hd|].
  intros j x v' Ex Dx Ev. destruct (Hi j v' Ev) as (v & Iv & Hv). apply Hv. apply (proj1 H arm j x v Ex Dx). unfold at_pix. now rewrite E.
Qed.
End Okd.

Lemma weight_arm_spent vl e wv iv c : okall (fun w => forall j v', nth_error w j = Some v' -> exists v, nth_error iv j = Some v /\ (spent v -> spent v')) (weight_arm vl e wv iv c).
Proof.
  unfold weight_arm. do 3 (apply okall_bind; intro). unfold zip2. destruct (_ =? _); [|exact I]. cbn [okall]. intros j v'. rewrite nth_error_map2.
  destruct (nth_error iv j) as [v|]; [|discriminate]. destruct (nth_error _ j); [|discriminate]. intro E. injection E as <-.
  exists v. split; [reflexivity|]. apply spent_div.
Qed.
Section Masked.
Variable D : catrow -> Qc -> Prop.
Definition M (s : spec) : Prop := okf (D (s_cat s)) (s_f s).
Lemma M_set s s' : ckey s' = ckey s -> M s -> M s'.
Proof. unfold ckey, M. intros [= -> -> _]. easy. Qed.
Lemma M_loop {X} (l : list X) (body : X -> forest -> res forest) s :
  (forall x f, okf (D (s_cat s)) f -> okall (okf (D (s_cat s))) (body x f)) -> M s -> okall M (rmap (fun f => set_f f s) (for_each l body (s_f s))).
Proof.
  intros H Hs. eapply okall_rmap2; [apply (okall_for_each (okf (D (s_cat s)))); [exact H|exact Hs]|]. intros f Hf. exact Hf.
Qed.
Lemma M_eta e s : M s -> okall M (noise_eta e s).
Proof.
  apply M_loop. intros x f H. apply okf_with_ivar; [exact H|]. intro iv.
  unfold zip2. destruct (_ =? _); [|exact I]. cbn [okall]. intros j v'. rewrite nth_error_map2. destruct (nth_error iv j) as [v|]; [|discriminate].
  destruct (nth_error (map e (snd x)) j); [|discriminate]. intro E. injection E as <-. exists v. split; [reflexivity|]. apply spent_div.
Qed.
Lemma M_additive e vl s : M s -> okall M (noise_additive e vl s).
Proof.
  apply M_loop. intros x f H. apply okall_bind. intro c. apply okf_with_ivar; [exact H|]. intro iv. unfold noise_additive_arm.
  do 3 (apply okall_bind; intro). unfold zip2. destruct (_ =? _); [|exact I]. cbn [rbind okall]. intros j v'. rewrite nth_error_map, nth_error_map2.
  destruct (nth_error iv j) as [v|]; [|discriminate]. destruct (nth_error _ j); [|discriminate]. cbn [option_map]. intro E. injection E as <-.
  exists v. split; [reflexivity|]. intro Sv. now apply spent_clip, spent_div.
Qed.
Lemma M_weight vl e s : M s -> okall M (set_forest_weight vl e s).
Proof.
  intros H. unfold set_forest_weight. destruct (_ || _).
  - destruct H as (H1 & H2 & H3). split; [exact H1|]. now split.
  - apply okall_bind2 with (okd (D (s_cat s)) (fw (s_f s))).
    + apply okall_for_each; [|apply okd_nil]. intros [arm wv] wts Hw. cbn [fst snd]. apply okall_bind. intro c. unfold rget.
      destruct (dget arm (fivar_sm (s_f s))) as [iv|] eqn:E; [|exact I]. cbn [of_option rbind].
      eapply okall_bind2; [apply weight_arm_spent|]. intros wt Hwt. cbn [okall]. apply okd_dset; [exact Hw|]. intros j x v' Ex Dx Ev.
      destruct (Hwt j v' Ev) as (v & Iv & Hv). apply Hv. apply (proj1 (proj2 H) arm j x v Ex Dx). unfold at_pix. now rewrite E.
    + intros wts Hw. cbn [okall]. unfold M. cbn [s_cat set_f s_f]. apply okf_new; [now right|exact H|exact Hw].
Qed.
Lemma M_drop dw x y z s : M s -> M (drop_short_arms dw x y z s).
Proof.
  unfold drop_short_arms. match goal with |- context [fold_left _ ?l s] => generalize l end. intro l.
  revert s. induction l as [|arm l IH]; intros s H; [exact H|]. cbn [fold_left]. apply IH. unfold M, drop_arm. cbn [s_cat set_cont set_f s_f].
  assert (forall d, okd (D (s_cat s)) (dpop arm (fw (s_f s))) d -> okd (D (s_cat s)) (dpop arm (fw (s_f s))) (dpop arm d)) as K.
  { intros d Hd arm' k x0 v Ex Dx Ev. unfold at_pix at 1 in Ev. rewrite dget_dpop in Ev. destruct (String.eqb arm' arm); [discriminate|]. exact (Hd arm' k x0 v Ex Dx Ev). }
  do 3 (apply okf_mut; [|exact K]).
  assert (forall d, okd (D (s_cat s)) (fw (s_f s)) d -> okd (D (s_cat s)) (dpop arm (fw (s_f s))) d) as L.
  { intros d Hd arm' k x0 v Ex Dx Ev. unfold at_pix at 1 in Ex. rewrite dget_dpop in Ex. destruct (String.eqb arm' arm); [discriminate|]. exact (Hd arm' k x0 v Ex Dx Ev). }
  destruct H as (H1 & H2 & H3). split; [exact (L _ H1)|]. split; [exact (L _ H2)|exact (L _ H3)].
Qed.
Variable smooth : list num -> Qc -> list num.
Hypothesis Hsmooth : forall iv sig k u v, nth_error iv k = Some u -> spent u -> nth_error (smooth iv sig) k = Some v -> spent v.
Hypothesis Hsmlen : forall iv sig, length (smooth iv sig) = length iv.
Lemma M_smooth dw x s : M s -> M (set_smooth_forestivar smooth dw x s).
Proof.
  intros H. unfold set_smooth_forestivar, M. destruct (qleb x 0); cbn [s_cat set_f s_f set_sscale].
  - destruct H as (H1 & H2 & H3). split; [exact H1|]. now split.
  - set (f1 := new_sm _ _). assert (okf (D (s_cat s)) f1) as (K1 & K2 & K3).
    { apply okf_new; [now left|exact H|]. intros arm k y v Ey Dy Ev. unfold at_pix in Ev. rewrite dget_dmap in Ev.
      destruct (dget arm (fivar (s_f s))) as [iv|] eqn:E; [|discriminate]. cbn [option_map] in Ev.
      assert (k < length iv) as Hk by (rewrite <- (Hsmlen iv (x / dw)%Qc); apply nth_error_Some; congruence).
      apply nth_error_Some in Hk. destruct (nth_error iv k) as [u|] eqn:Eu; [|contradiction]. apply (Hsmooth iv (x / dw)%Qc k u v Eu); [|exact Ev].
      apply (proj1 H arm k y u Ey Dy). unfold at_pix. now rewrite E. }
    split; [exact K1|]. split; exact K2.
Qed.
End Masked.
