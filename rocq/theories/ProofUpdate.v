(** Where the var_lss and eta tables of the continuum fitter come from. *)
From Coq Require Import ZArith String List Bool Arith Lia Qcanon Field.
From Verif Require Import Num NpList NpListFacts Exn Dict Mpi ModelMpiUtils ModelSpectrum ModelMasks ModelContinuum ModelStack ModelSubsample
  ModelVarFit ModelFitter SpecMpi SpecVarFit SpecFinal SpecUpdate ProofCatalog ProofMpi ProofMpi2 ProofLock ProofSafe ProofSpectrum1
  ProofVarKeep ProofVarFit3 ProofVarFit4 ProofExposures3 ProofFitter ProofCalib2 ProofCalib4 ProofCalib5.
Import ListNotations.
Local Open Scope nat_scope.

(** ** one arm *)
Definition lss_call (s : spec) (aw : string * list Qc) : res (list Qc * list Qc * list Qc) :=
  rbind (rget (fst aw) (s_cont s)) (fun cont =>
  rbind (rget (fst aw) (ff (s_f s))) (fun fl =>
  rbind (rget (fst aw) (fivar (s_f s))) (fun iv =>
  rbind (zip2 (fun f c => nsub (ndiv f c) n1) fl cont) (fun delta =>
  rbind (zip2 (fun i c => nmul i (nsq c)) iv cont) (fun ivar =>
  rbind (finite_arr delta) (fun d => rbind (finite_arr ivar) (fun v => Ok (snd aw, d, v)))))))).

Ltac infcase := repeat match goal with
  | H : nfinite _ = true |- _ => match type of H with context [qeqb ?x 0] => destruct (qeqb x 0); try discriminate H end
  | H : nfinite _ = true |- _ => match type of H with context [qltb ?x ?y] => destruct (qltb x y); try discriminate H end end.
Lemma finite_pixel f i c : nfinite (nsub (ndiv f c) n1) = true -> nfinite (nmul i (nsq c)) = true ->
  exists qf qi qc, f = Fin qf /\ i = Fin qi /\ c = Fin qc /\ qc <> 0%Qc /\
    nsub (ndiv f c) n1 = Fin (qf / qc - 1)%Qc /\ nmul i (nsq c) = Fin (qi * (qc * qc))%Qc.
Proof.
  intros H1 H2. destruct c as [qc| | |].
  2-4: exfalso; destruct f, i; cbn in *; unfold infsgn in *; try discriminate; infcase.
  destruct (qeqb qc 0) eqn:E.
  { exfalso. destruct f; cbn in H1; rewrite ?E in H1; unfold infsgn in H1; try discriminate; infcase. }
  destruct f as [qf| | |].
  2-4: exfalso; cbn in H1; try discriminate; infcase.
  destruct i as [qi| | |].
  2-4: exfalso; cbn in H2; unfold infsgn in H2; try discriminate; infcase.
  exists qf, qi, qc. do 3 (split; [reflexivity|]). split; [now apply qeqb_false in E|]. split; [|reflexivity].
  cbn. now rewrite E.
Qed.
Definition pix_of (d : Qc * Qc * Qc * Qc) : lsspix := let '(w, f, i, c) := d in mkLP w (f / c - 1)%Qc (i * (c * c))%Qc.
Lemma pixels_exist w : forall fl iv ct, length fl = length ct -> length iv = length ct -> length w = length ct ->
  forallb nfinite (map2 (fun f c => nsub (ndiv f c) n1) fl ct) = true ->
  forallb nfinite (map2 (fun i c => nmul i (nsq c)) iv ct) = true ->
  exists D : list (Qc * Qc * Qc * Qc),
    map (fun d => fst (fst (fst d))) D = w /\ fl = map (fun d => Fin (snd (fst (fst d)))) D /\
    iv = map (fun d => Fin (snd (fst d))) D /\ ct = map (fun d => Fin (snd d)) D /\ Forall (fun d => snd d <> 0%Qc) D /\
    map nval (map2 (fun f c => nsub (ndiv f c) n1) fl ct) = map l_delta (map pix_of D) /\
    map nval (map2 (fun i c => nmul i (nsq c)) iv ct) = map l_ivar (map pix_of D) /\ w = map l_wave (map pix_of D).
Proof.
  induction w as [|x w IH]; intros [|f fl] [|i iv] [|c ct] L1 L2 L3 F1 F2; try discriminate.
  - exists []. repeat split. constructor.
  - cbn [map2 forallb] in F1, F2. apply andb_true_iff in F1 as [A1 F1]. apply andb_true_iff in F2 as [A2 F2].
    destruct (IH fl iv ct) as (D & E1 & E2 & E3 & E4 & E5 & E6 & E7 & E8); try (cbn in *; lia); try assumption.
    destruct (finite_pixel f i c A1 A2) as (qf & qi & qc & -> & -> & -> & Hc & V1 & V2).
    exists ((x, qf, qi, qc) :: D). cbn [map fst snd map2 pix_of l_delta l_ivar l_wave]. rewrite V1, V2, E1, <- E2, <- E3, <- E4, E6, E7, <- E8.
    repeat split; try reflexivity. constructor; [exact Hc|exact E5].
Qed.
Lemma rget_Some {A} k (d : dict A) a : rget k d = Ok a -> dget k d = Some a.
Proof. unfold rget. destruct (dget k d); [now intros [= ->]|discriminate]. Qed.
Lemma call_pixels s aw w d v : lss_call s aw = Ok (w, d, v) -> length w = length v ->
  exists P, delta_pixels (s, aw) P /\ (w, d, v) = call_of P.
Proof.
  intros H L. unfold lss_call in H. destruct aw as [arm wave]. cbn [fst snd] in H.
  apply rbind_Ok in H as (ct & Hc & H). apply rbind_Ok in H as (fl & Hf & H). apply rbind_Ok in H as (iv & Hi & H).
  apply rbind_Ok in H as (delta & Hd & H). apply rbind_Ok in H as (ivar & Hv & H).
  apply rbind_Ok in H as (d' & Fd & H). apply rbind_Ok in H as (v' & Fv & H). injection H as <- <- <-.
  apply zip2_Ok in Hd as [L1 ->]. apply zip2_Ok in Hv as [L2 ->]. unfold finite_arr in Fd, Fv.
  destruct (forallb nfinite _) eqn:F1 in Fd; [|discriminate]. destruct (forallb nfinite _) eqn:F2 in Fv; [|discriminate].
  injection Fd as <-. injection Fv as <-. rewrite map_length, map2_len in L by assumption.
  destruct (pixels_exist wave fl iv ct) as (D & E1 & E2 & E3 & E4 & E5 & E6 & E7 & E8); try assumption; try congruence.
  exists (map pix_of D). split.
  - exists D. apply rget_Some in Hc, Hf, Hi. rewrite Hc, Hf, Hi, <- E2, <- E3, <- E4. repeat (split; [assumption || reflexivity|]). reflexivity.
  - unfold call_of. now rewrite <- E6, <- E7, <- E8.
Qed.
Lemma arm_calls s aws : forall its, rseq (map (lss_call s) aws) = Ok its ->
  (forall w d i, In (w, d, i) its -> length w = length i) ->
  exists arms, Forall2 delta_pixels (map (pair s) aws) arms /\ its = map call_of arms.
Proof.
  induction aws as [|aw aws IH]; intros its H HL; cbn in H.
  - injection H as <-. exists []. split; [constructor|reflexivity].
  - apply rbind_Ok in H as (x & E & H). apply rmap_Ok in H as (its' & E' & ->). destruct x as [[w d] v].
    destruct (call_pixels s aw w d v E (HL _ _ _ (or_introl eq_refl))) as (P & HP & EP).
    destruct (IH its' E') as (arms & HA & EA); [intros; eapply HL; right; eassumption|].
    exists (P :: arms). split; [now constructor|]. cbn. now rewrite EP, EA.
Qed.
Lemma spec_calls ss : forall items, rmap (@concat _) (rseq (map (fun s => rseq (map (lss_call s) (fw (s_f s)))) ss)) = Ok items ->
  (forall w d i, In (w, d, i) items -> length w = length i) ->
  exists arms, Forall2 delta_pixels (arms_of ss) arms /\ items = map call_of arms.
Proof.
  induction ss as [|s ss IH]; intros items H HL; cbn in H.
  - injection H as <-. exists []. split; [constructor|reflexivity].
  - apply rmap_Ok in H as (itss & H & ->). apply rbind_Ok in H as (its & E & H). apply rmap_Ok in H as (itss' & E' & ->). cbn [concat] in HL |- *.
    destruct (arm_calls s (fw (s_f s)) its E) as (a1 & H1 & E1); [intros; eapply HL; apply in_or_app; left; eassumption|].
    destruct (IH (concat itss')) as (a2 & H2 & E2).
    { unfold rmap. now rewrite E'. }
    { intros; eapply HL; apply in_or_app; right; eassumption. }
    exists (a1 ++ a2). split; [unfold arms_of; cbn; apply Forall2_app; assumption|]. rewrite map_app. congruence.
Qed.
Lemma lss_calls l items v v' : lss_items l = Ok items -> vfit_add_all items v = Ok v' ->
  exists arms, Forall2 delta_pixels (arms_of (filter s_valid l)) arms /\ items = map call_of arms.
Proof.
  intros H HA. apply (spec_calls (filter s_valid l) items H). intros w d i Hi. now destruct (add_all_lengths _ _ _ HA _ _ _ Hi).
Qed.

(** ** one update *)
Lemma shape_reset v : shape (vfit_reset v) = shape v. Proof. reflexivity. Qed.
Lemma finite_choice {C} n (Q : nat -> C -> Prop) (d : C) : (forall r : nat, r < n -> exists a, Q r a) ->
  exists f : nat -> C, forall r, r < n -> Q r (f r).
Proof.
  induction n as [|n IH]; intro H; [exists (fun _ => d); lia|].
  destruct IH as (f & Hf); [intros r Hr; apply H; lia|]. destruct (H n) as (a & Ha); [lia|].
  exists (fun r => if Nat.eqb r n then a else f r). intros r Hr. destruct (Nat.eqb_spec r n) as [->|Ne]; [exact Ha|apply Hf; lia].
Qed.

Section Update.
Variable g : config.
Variable nsqrt : num -> num.
Variables (np nq : nat) (cholesky : list (list Qc) -> bool)
  (curve_fit : list Qc -> list Qc -> list num -> errors -> option (list num * list num))
  (vspline : list Qc -> list num -> list num -> option (list num)).
Variable n : nat.
Hypothesis Hn : 1 <= n.
Hypothesis Hsize : g_size g = n.
Hypothesis Hw : (g_w1 g < g_w2 g)%Qc.
Hypothesis Hnw : 1 <= g_nw g.
Hypothesis Hnv : 1 <= g_nv g.
Hypothesis He : good_edges (g_nv g) (g_edges g).
Hypothesis Hsp : forall x y w r, vspline x y w = Some r -> length r = g_nw g.

(** the variance fitter of rank r, up to what has been added to it *)
Definition begins (r : nat) (t : fitter) : Prop := exists v, t_vfit t = Some v /\ vfit_reset v = new_vfit g r.
Definition result_of (l : nat -> list spec) (y e : list (list num)) : Prop :=
  exists (arms : nat -> list (list lsspix)) guess,
    (forall r, r < n -> Forall2 delta_pixels (arms_of (filter s_valid (l r))) (arms r)) /\
    fit_result (g_w1 g) (g_w2 g) (g_nw g) (g_nv g) (g_edges g) (g_usecov g) (g_nv g * g_nv g) eps
      (concat (map arms (seq 0 n))) (tagged_pixels n (g_nv g * g_nv g) arms)
      np nq nsqrt cholesky curve_fit vspline (if g_fit_eta g then 2 else 1) guess true = Ok (y, e).

Lemma update_tables (t : nat -> fitter) (l : nat -> list specx) T :
  (forall r, r < n -> set_tvfit None (t r) = T /\ begins r (t r)) ->
  together n (fun r => update_var_lss_eta g nsqrt np nq cholesky curve_fit vspline (l r) (t r))
    (fun f => exists y e, result_of (fun r => map fst (l r)) y e /\
       forall r, r < n -> begins r (f r) /\ set_tvfit None (f r) = store_fit g y e T).
Proof.
  intro Ht. unfold update_var_lss_eta.
  set (p1 := fun r => rbind (lss_items (map fst (l r))) (fun items => vfit_add_all items (new_vfit g r))).
  apply together_ext with (fun r =>
      pbind (of_res (p1 r)) (fun v =>
      pbind (of_res (guess g T)) (fun p0 =>
      pbind (lift FVar fvar_of (vfit_fit np nq nsqrt cholesky curve_fit vspline v
                                  (if g_fit_eta g then 2 else 1) p0 true)) (fun r' =>
      let '(v', (y, ep)) := r' in Ret (store_fit g y ep (set_tvfit (Some v') (t r))))))).
  { intros r Hr. destruct (Ht r Hr) as [<- (v0 & E & R)]. rewrite E. unfold p1. rewrite <- R. reflexivity. }
  eapply (together_bind n _ _ (fun f => forall r, r < n -> p1 r = Ok (f r))); [assumption| |].
  { apply together_local; [assumption| |intros f Hf; exact Hf].
    intros r _. apply safe_bind; [apply safe_lss_items|intro; apply safe_vfit_add_all]. }
  intros v Hv.
  assert (exists arms : nat -> list (list lsspix), forall r, r < n ->
    Forall2 delta_pixels (arms_of (filter s_valid (map fst (l r)))) (arms r) /\
    vfit_add_all (map call_of (arms r)) (new_vfit g r) = Ok (v r)) as (arms & Harms).
  { apply (finite_choice n (fun r a => Forall2 delta_pixels (arms_of (filter s_valid (map fst (l r)))) a /\
    vfit_add_all (map call_of a) (new_vfit g r) = Ok (v r)) []). intros r Hr. specialize (Hv r Hr). unfold p1 in Hv.
    apply rbind_Ok in Hv as (items & E1 & E2). destruct (lss_calls _ _ _ _ E1 E2) as (a & A1 & A2). exists a. subst items. now split. }
  assert (forall r, r < n -> fresh (v r) /\ shape (v r) = shape (new_vfit g 0)) as Hfr.
  { intros r Hr. destruct (Harms r Hr) as [_ E]. destruct (add_all_fresh _ (new_vfit g r) (v r) (init_fresh _ _ _ _ _ _ _ _ _) E) as [F S]. split; [exact F|].
    rewrite S. reflexivity. }
  destruct (guess g T) as [p0|e] eqn:Eg.
  2:{ apply together_ext with (fun _ => Raise e); [|now apply together_raise]. intros r Hr. reflexivity. }
  cbn [of_res pbind].
  set (npar := if g_fit_eta g then 2 else 1).
  assert (npar = 1 \/ npar = 2) as Hpar by (unfold npar; destruct (g_fit_eta g); auto).
  assert (forall r, r < n -> v_nw (v r) = g_nw g) as Enw.
  { intros r Hr. destruct (Hfr r Hr) as [_ S]. unfold shape in S. now injection S as S _ _ _ _ _ _ _ _ _. }
  destruct (Nat.eqb (length p0) (g_nw g) && forallb (fun x : list num => Nat.eqb (length x) npar) p0) eqn:Ok0.
  2:{ apply together_ext with (fun _ => Raise (OtherExn "AssertionError")); [|now apply together_raise]. intros r Hr. unfold vfit_fit.
      rewrite (Enw r Hr), <- andb_assoc, Ok0, andb_false_r. reflexivity. }
  apply andb_true_iff in Ok0 as [Lg Lp]. apply Nat.eqb_eq in Lg. rewrite forallb_forall in Lp.
  assert (forall x, In x p0 -> length x = npar) as Lp' by (intros x Hx; apply Nat.eqb_eq; now apply Lp). clear Lp.
  assert (1 <= subsamples None (g_nv g)) as Hsub by (cbn; nia).
  destruct (fit_all_from np nq nsqrt cholesky curve_fit vspline n (g_w1 g) (g_w2 g) (g_nw g) (g_nv g) (g_edges g) None (g_usecov g) arms npar p0 true
    Hn Hw Hnw He Hsub Hpar Lg Lp' Hsp) as (vs & C & E).
  assert (spmd n (fun r => vfit_fit np nq nsqrt cholesky curve_fit vspline (v r) npar p0 true) =
    spmd n (fit_ranks np nq nsqrt cholesky curve_fit vspline n (g_w1 g) (g_w2 g) (g_nw g) (g_nv g) (g_edges g) None (g_usecov g) arms npar p0 true)) as Es.
  { apply spmd_ext. intros r Hr. unfold fit_ranks. destruct (Harms r Hr) as [_ A]. unfold new_vfit in A. rewrite Hsize in A. rewrite A. reflexivity. }
  rewrite E in Es. clear E.
  eapply (together_bind n _ _ (fun f => exists y e, result_of (fun r => map fst (l r)) y e /\
      forall r, r < n -> snd (f r) = (y, e) /\ vfit_reset (fst (f r)) = new_vfit g r)); [assumption| |].
  - apply together_lift; [reflexivity|].
    pose proof (fit_together np nq nsqrt cholesky curve_fit vspline n v _ npar p0 true Hn Hfr) as K.
    unfold together in K |- *. rewrite Es in K |- *. destruct K as [K|[K|(f & Ef & _)]]; [now left|right; now left|right; right].
    exists f. split; [exact Ef|].
    assert (forall r, r < n -> match fit_result (g_w1 g) (g_w2 g) (g_nw g) (g_nv g) (g_edges g) (g_usecov g) (subsamples None (g_nv g)) eps
        (concat (map arms (seq 0 n))) (tagged_pixels n (subsamples None (g_nv g)) arms) np nq nsqrt cholesky curve_fit vspline npar p0 true with
        | Ok a => Finished (vs r, a) | Err x => Failed x end = Finished (f r)) as Er.
    { intros r Hr. refine (ext_in_map Ef r _). apply in_seq. lia. }
    destruct (fit_result _ _ _ _ _ _ _ _ _ _ _ _ _ _ _ _ _ _ _) as [[y e]|x] eqn:Efit.
    + exists y, e. split.
      * exists arms, p0. split; [intros r Hr; apply (Harms r Hr)|exact Efit].
      * intros r Hr. specialize (Er r Hr). injection Er as Er. rewrite <- Er. split; [reflexivity|]. cbn [fst].
        destruct (C r Hr) as [_ Cr]. rewrite Cr. unfold new_vfit. now rewrite Hsize.
    + specialize (Er 0 ltac:(lia)). discriminate.
  - intros f (y & e & HR & Hf). apply together_ext with (fun r => Ret (store_fit g y e (set_tvfit (Some (fst (f r))) (t r)))).
    { intros r Hr. destruct (Hf r Hr) as [K _]. destruct (f r) as [v' y']. cbn in K. now rewrite K. }
    apply together_ret. exists y, e. split; [exact HR|]. intros r Hr. destruct (Ht r Hr) as [<- _]. destruct (Hf r Hr) as [_ K]. split.
    + exists (fst (f r)). split; [|exact K]. unfold store_fit. now destruct (g_fit_eta g).
    + unfold store_fit. now destruct (g_fit_eta g).
Qed.
End Update.
