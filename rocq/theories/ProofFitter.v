(** The ranks of a continuum fit stay together. *)
From Coq Require Import ZArith String List Bool Arith Lia Qcanon.
From Verif Require Import Num NpList Exn Dict Mpi ModelMpiUtils ModelSpectrum ModelMasks ModelContinuum ModelStack ModelSubsample
  ModelVarFit ModelFitter SpecMpi ProofCatalog ProofMpi ProofMpi2 ProofLock ProofSafe.
Import ListNotations.
Local Open Scope nat_scope.

(** a local result that is the same on all ranks up to [h] *)
Lemma together_alike {V A B} n (h : A -> B) (x : nat -> res A) (y : res B) (Q : (nat -> A) -> Prop) :
  1 <= n -> (forall r, r < n -> rmap h (x r) = y) ->
  (forall g, (forall r, r < n -> x r = Ok (g r)) -> Q g) -> together n (fun r => @of_res V A (x r)) Q.
Proof.
  intros Hn Hx HQ. destruct y as [b|e].
  - apply together_local; try assumption. intros r Hr. specialize (Hx r Hr). now destruct (x r).
  - apply together_ext with (fun _ => Raise e); [|now apply together_raise]. intros r Hr. specialize (Hx r Hr).
    destruct (x r); [discriminate|]. now injection Hx as ->.
Qed.
Lemma together_if {V A} n (b : bool) (p q : nat -> prog V A) Q :
  together n p Q -> together n q Q -> together n (fun r => if b then p r else q r) Q.
Proof. now destruct b. Qed.

(** ** The stacker *)
Section StackTogether.
Variables (nsqrt : num -> num) (residual : bool).
Definition frame (k k' : stacker) : Prop := exists a b c d, k' = set_sums a b c d k.
Lemma frame_refl k : frame k k. Proof. exists (k_fp k), (k_ep k), (k_rfp k), (k_rep k). now destruct k. Qed.
Lemma frame_trans k1 k2 k3 : frame k1 k2 -> frame k2 k3 -> frame k1 k3.
Proof. intros (a & b & c & d & ->) (a' & b' & c' & d' & ->). now exists a', b', c', d'. Qed.
Lemma stacker_add_frame a b c d e k k' : stacker_add a b c d e k = Ok k' -> frame k k'.
Proof.
  unfold stacker_add. intro H.
  repeat (apply rbind_Ok in H as (? & _ & H)). injection H as <-. now do 4 eexists.
Qed.
Lemma stack_spec_frame s k k' : stack_spec residual s k = Ok k' -> frame k k'.
Proof.
  unfold stack_spec. apply (for_each_inv (frame k)); [|apply frame_refl]. intros aw k1 k2 _ F H.
  do 3 (apply rbind_Ok in H as (? & _ & H)). unfold stack_arm in H. do 4 (apply rbind_Ok in H as (? & _ & H)).
  apply stacker_add_frame in H. now apply frame_trans with k1.
Qed.
Lemma stack_spectra_frame l k k' : stack_spectra residual l k = Ok k' -> frame k k'.
Proof.
  unfold stack_spectra. apply (for_each_inv (frame k)); [|apply frame_refl]. intros s k1 k2 _ F H.
  apply stack_spec_frame in H. now apply frame_trans with k1.
Qed.
Lemma stack_together n (l : nat -> list spec) k : 1 <= n ->
  together n (fun r => stack_all nsqrt residual (l r) k) (fun f => exists k', forall r, r < n -> f r = k').
Proof.
  intro Hn. unfold stack_all.
  apply (together_bind n _ _ (fun g => forall r, r < n -> frame (stacker_reset k) (g r))); [assumption| |].
  - apply together_local; [assumption|intros; apply safe_stack_spectra|]. intros g Hg r Hr.
    exact (stack_spectra_frame _ _ _ (Hg r Hr)).
  - intros g Hg. unfold stacker_calculate.
    repeat (apply together_allreduce; [assumption|]).
    match goal with |- together n (fun r => Ret (stacker_finish nsqrt (set_sums ?A ?B ?C ?D (g r)))) _ =>
      apply together_ret; exists (stacker_finish nsqrt (set_sums A B C D (stacker_reset k))) end.
    intros r Hr. destruct (Hg r Hr) as (a & b & c & d & ->). reflexivity.
Qed.
End StackTogether.

(** ** VarLSSFitter *)
(** forget the position in the subsamples *)
Definition sstrip (s : sub) : sub :=
  mksub (nsamples s) (nset s) (ndata s) 0 0 (meas s) (wts s) (normalized s) (s_mean s) (s_cov s) (s_var s) (s_xdiff s).
Definition vstrip (v : vfit) : vfit := v_set (v_npix v) (v_nqso v) (sstrip (v_sub v)) (v_done v) v.
Definition shape (v : vfit) := (v_nw v, v_nv v, v_wave v, v_dw v, v_edges v, v_usecov v, v_valid v, nsamples (v_sub v), nset (v_sub v), ndata (v_sub v)).
Definition sfresh (s : sub) : Prop :=
  normalized s = false /\ s_mean s = None /\ s_cov s = None /\ s_var s = None /\ s_xdiff s = None.
Definition fresh (v : vfit) : Prop := sfresh (v_sub v) /\ v_done v = false.

Lemma reset_fresh v : fresh (vfit_reset v) /\ shape (vfit_reset v) = shape v.
Proof. repeat split. Qed.
Lemma init_fresh w1 w2 nw nv e ns c r size : fresh (vfit_init w1 w2 nw nv e ns c r size).
Proof. repeat split. Qed.
Lemma add_fresh w d i v v' : fresh v -> fst (vfit_add w d i v) = v' -> fresh v' /\ shape v' = shape v.
Proof.
  intros F <-. unfold vfit_add. destruct (v_wave v); [now split|]. destruct (_ || _); [now split|]. cbv zeta.
  destruct (negb _); [now split|]. unfold add_measurement. destruct F as [(Fn & Fr) Fd]. rewrite Fn. cbn [fst].
  split; [|reflexivity]. split; [|exact Fd]. split; [reflexivity|exact Fr].
Qed.
Lemma add_all_fresh l : forall v v', fresh v -> vfit_add_all l v = Ok v' -> fresh v' /\ shape v' = shape v.
Proof.
  induction l as [|[[w d] i] l IH]; intros v v' F H; cbn in H; [injection H as <-; now split|].
  destruct (vfit_add w d i v) as [v1 ok] eqn:E. apply rbind_Ok in H as (? & _ & H).
  destruct (add_fresh w d i v v1 F) as [F1 S1]; [now rewrite E|].
  destruct (IH v1 v' F1 H) as [F2 S2]. split; [assumption|congruence].
Qed.

Lemma ensure_strip b s : ensure_mean b (sstrip s) = sstrip (ensure_mean b s).
Proof. destruct s as [n1 n2 n3 i1 i2 m w nrm mean cov var xd]. destruct mean; [reflexivity|]. destruct nrm; reflexivity. Qed.
Lemma var_strip b s : get_mean_n_var b (sstrip s) = (sstrip (fst (get_mean_n_var b s)), snd (get_mean_n_var b s)).
Proof.
  unfold get_mean_n_var. rewrite ensure_strip. destruct (ensure_mean b s) as [n1 n2 n3 i1 i2 m w nrm mean cov var xd].
  cbn. destruct xd; [|reflexivity]. cbn. destruct mean; reflexivity.
Qed.
Lemma cov_loop_strip b idx : forall s acc, cov_loop b idx (sstrip s) acc = (sstrip (fst (cov_loop b idx s acc)), snd (cov_loop b idx s acc)).
Proof.
  induction idx as [|j idx IH]; intros s acc; [reflexivity|]. cbn. destruct (s_xdiff s) eqn:E; [|reflexivity].
  destruct (negb _); [reflexivity|]. apply (IH s).
Qed.
Lemma cov_strip ix b c s : get_mean_n_cov ix b c (sstrip s) = (sstrip (fst (get_mean_n_cov ix b c s)), snd (get_mean_n_cov ix b c s)).
Proof.
  unfold get_mean_n_cov. rewrite ensure_strip. set (s1 := ensure_mean c s).
  change (ndata (sstrip s1)) with (ndata s1). change (nset (sstrip s1)) with (nset s1).
  destruct (match b with Some _ => _ | None => _ end); [reflexivity|]. rewrite cov_loop_strip.
  destruct (cov_loop _ _ _ _) as [s2 r]. cbn [fst snd]. destruct r; [|reflexivity].
  change (s_mean (sstrip s2)) with (s_mean s2). change (s_cov (sstrip s2)) with (s_cov s2).
  destruct (s_mean s2); [|reflexivity]. destruct (s_cov s2); reflexivity.
Qed.
Lemma local_stats_strip v : local_stats (vstrip v) = rmap vstrip (local_stats v).
Proof.
  unfold local_stats. change (v_sub (vstrip v)) with (sstrip (v_sub v)). rewrite var_strip.
  destruct (get_mean_n_var false (v_sub v)) as [s r]. cbn [fst snd]. destruct r as [[m var]|e]; [|reflexivity].
  cbn [rbind]. change (v_usecov (vstrip v)) with (v_usecov v). change (v_nv (vstrip v)) with (v_nv v).
  destruct (v_usecov v).
  - rewrite cov_strip. destruct (get_mean_n_cov _ _ _ s) as [s' r']. cbn [fst snd]. destruct r'; [|reflexivity]. cbn [rmap rbind].
    change (s_cov (sstrip s')) with (s_cov s'). destruct (s_cov s') as [[|[[|]|] [|[[|]|] [|? [|? [|]]]]]|]; reflexivity.
  - reflexivity.
Qed.
Lemma fit_local_strip a b c d e f v npar guess sm : fit_local a b c d e f (vstrip v) npar guess sm = fit_local a b c d e f v npar guess sm.
Proof. reflexivity. Qed.

Definition keeps (s s' : sub) : Prop := nsamples s' = nsamples s /\ nset s' = nset s /\ ndata s' = ndata s.
Lemma ensure_keeps b s : keeps s (ensure_mean b s).
Proof. destruct s as [n1 n2 n3 i1 i2 m w nrm mean cov var xd]. destruct mean; [now repeat split|]. destruct nrm; now repeat split. Qed.
Lemma var_keeps b s : keeps s (fst (get_mean_n_var b s)).
Proof.
  unfold get_mean_n_var. pose proof (ensure_keeps b s) as K. destruct (ensure_mean b s) as [n1 n2 n3 i1 i2 m w nrm mean cov var xd].
  cbn. destruct xd; [|exact K]. destruct mean; exact K.
Qed.
Lemma cov_loop_keeps b idx : forall s acc, keeps s (fst (cov_loop b idx s acc)).
Proof.
  induction idx as [|j idx IH]; intros s acc; [now repeat split|]. cbn. destruct (s_xdiff s) eqn:E; [|now repeat split].
  destruct (negb _); [now repeat split|]. apply (IH s).
Qed.
Lemma cov_keeps ix b c s : keeps s (fst (get_mean_n_cov ix b c s)).
Proof.
  unfold get_mean_n_cov. pose proof (ensure_keeps c s) as K. set (s1 := ensure_mean c s) in *.
  destruct (match b with Some _ => _ | None => _ end); [exact K|].
  match goal with |- context [cov_loop ?B ?I ?S ?A] => pose proof (cov_loop_keeps B I S A) as K2; destruct (cov_loop B I S A) as [s2 r] end.
  cbn [fst] in K2. assert (keeps s s2) by (destruct K as (? & ? & ?), K2 as (? & ? & ?); repeat split; congruence).
  destruct r; [|assumption]. destruct (s_mean s2); [|assumption]. destruct (s_cov s2); assumption.
Qed.
Lemma local_stats_shape v v' : local_stats v = Ok v' -> shape v' = shape v.
Proof.
  unfold local_stats. pose proof (var_keeps false (v_sub v)) as K. destruct (get_mean_n_var false (v_sub v)) as [s r].
  cbn [fst] in K. intro H. apply rbind_Ok in H as ([m var] & _ & H). destruct (v_usecov v) eqn:U.
  - pose proof (cov_keeps (Some [0; 1]) (Some (v_nv v + 2)) false s) as K2. destruct (get_mean_n_cov _ _ _ s) as [s' r'].
    cbn [fst] in K2. destruct r'; [|discriminate]. cbn [rmap rbind] in H.
    assert (keeps (v_sub v) s') as (K3 & K4 & K5) by (destruct K as (? & ? & ?), K2 as (? & ? & ?); repeat split; congruence).
    destruct (s_cov s') as [[|[[|]|] [|[[|]|] [|? [|? [|]]]]]|]; try discriminate. injection H as <-. unfold shape. cbn. congruence.
  - cbn [rbind] in H. injection H as <-. destruct K as (K3 & K4 & K5). unfold shape. cbn. congruence.
Qed.

Section VarTogether.
Variables (min_num_pix min_num_qso : nat) (nsqrt : num -> num) (cholesky : list (list Qc) -> bool)
  (curve_fit : list Qc -> list Qc -> list num -> errors -> option (list num * list num))
  (vspline : list Qc -> list num -> list num -> option (list num)).
Notation fit := (vfit_fit min_num_pix min_num_qso nsqrt cholesky curve_fit vspline).
Notation vresult := (vfit * (list (list num) * list (list num)))%type.

Lemma stats_together n (v : nat -> vfit) sh : 1 <= n -> (forall r, r < n -> fresh (v r) /\ shape (v r) = sh) ->
  together n (fun r => calculate_stats (v r))
    (fun f => exists w, forall r, r < n -> vstrip (f r) = w /\ shape (f r) = sh).
Proof.
  intros Hn Hv.
  apply together_ext with (fun r =>
    pbind (lift VSub vsub_of (sub_allreduce (v_sub (v r)) (@Ret arr3 sub))) (fun s =>
    Allreduce int_sum (VInt (v_npix (v r))) (fun np => Allreduce int_sum (VInt (v_nqso (v r))) (fun nq =>
    of_res (local_stats (v_set (vint_of np) (vint_of nq) s (v_done (v r)) (v r))))))).
  { intros r Hr. unfold calculate_stats. destruct (Hv r Hr) as [[_ ->] _]. reflexivity. }
  unfold sub_allreduce. cbn [lift pbind].
  repeat (apply together_allreduce; [assumption|]).
  match goal with |- together n (fun r => of_res (local_stats (v_set (vint_of ?P) (vint_of ?N) (set_data (vsub_of ?M) ?W (v_sub (v r))) _ _))) _ =>
    set (np := P); set (nq := N); set (m := M); set (w := W) end.
  set (x := fun r => v_set (vint_of np) (vint_of nq) (set_data (vsub_of m) w (v_sub (v r))) (v_done (v r)) (v r)).
  change (together n (fun r => @of_res vval vfit (local_stats (x r)))
            (fun f => exists w, forall r, r < n -> vstrip (f r) = w /\ shape (f r) = sh)).
  assert (forall r, r < n -> vstrip (x r) = vstrip (x 0)) as E.
  { intros r Hr. destruct (Hv r Hr) as [[(A1 & A2 & A3 & A4 & A5) A6] A7].
    destruct (Hv 0 ltac:(lia)) as [[(B1 & B2 & B3 & B4 & B5) B6] B7].
    rewrite <- B7 in A7. unfold shape in A7. unfold vstrip, x, v_set, sstrip, set_data. cbn. clearbody np nq m w.
    rewrite A1, A2, A3, A4, A5, A6, B1, B2, B3, B4, B5, B6. now injection A7 as -> -> -> -> -> -> -> -> -> ->. }
  apply (together_alike n vstrip _ (local_stats (vstrip (x 0)))); [assumption| |].
  - intros r Hr. rewrite <- local_stats_strip. now rewrite E.
  - intros g Hg. exists (vstrip (g 0)). intros r Hr. split.
    + pose proof (local_stats_strip (x r)) as A. pose proof (local_stats_strip (x 0)) as B. rewrite E in A by assumption.
      rewrite (Hg r Hr) in A. rewrite (Hg 0 ltac:(lia)) in B. cbn in A, B. congruence.
    + rewrite (local_stats_shape _ _ (Hg r Hr)). destruct (Hv r Hr) as [_ <-]. reflexivity.
Qed.

Lemma fit_together n (v : nat -> vfit) sh npar guess sm : 1 <= n -> (forall r, r < n -> fresh (v r) /\ shape (v r) = sh) ->
  together n (fun r => fit (v r) npar guess sm)
    (fun f : nat -> vresult => exists y, forall r, r < n -> snd (f r) = y /\ shape (fst (f r)) = sh).
Proof.
  intros Hn Hv. unfold vfit_fit.
  assert (forall r, r < n -> v_nw (v r) = v_nw (v 0)) as E.
  { intros r Hr. destruct (Hv r Hr) as [_ A]. destruct (Hv 0 ltac:(lia)) as [_ B]. rewrite <- B in A. unfold shape in A. congruence. }
  set (bad := negb ((Nat.eqb npar 1 || Nat.eqb npar 2) && Nat.eqb (length guess) (v_nw (v 0)) && forallb (fun g : list num => Nat.eqb (length g) npar) guess)).
  apply together_ext with (fun r => if bad then Raise (OtherExn "AssertionError")
    else pbind (calculate_stats (v r)) (fun v' =>
         pbind (of_res (fit_local min_num_pix min_num_qso nsqrt cholesky curve_fit vspline v' npar guess sm)) (fun r => Ret (v', r)))).
  { intros r Hr. unfold bad. now rewrite (E r Hr). }
  apply together_if; [now apply together_raise|].
  eapply (together_bind n); [assumption|exact (stats_together n v sh Hn Hv)|]. intros g (w & Hg).
  eapply (together_bind n _ _ (fun f => exists y, forall r, r < n -> f r = y)); [assumption| |].
  - apply together_ext with (fun _ => of_res (fit_local min_num_pix min_num_qso nsqrt cholesky curve_fit vspline w npar guess sm)).
    { intros r Hr. destruct (Hg r Hr) as [<- _]. now rewrite fit_local_strip. }
    apply together_same; [assumption|]. intros a _. now exists a.
  - intros h (y & Hy). apply together_ret. exists y. intros r Hr. destruct (Hg r Hr) as [_ K]. split; [now apply Hy|exact K].
Qed.
End VarTogether.

(** ** The fitter *)
Definition same_refs (T T' : fitter) : Prop := t_var T' = t_var T /\ t_eta T' = t_eta T /\ t_mvar T' = t_mvar T /\ t_meta T' = t_meta T.
Definition same_var (T T' : fitter) : Prop := t_heap T' = t_heap T /\ same_refs T T'.
Lemma same_refs_trans a b c : same_refs a b -> same_refs b c -> same_refs a c.
Proof. intros (A1 & A2 & A3 & A4) (B1 & B2 & B3 & B4). repeat split; congruence. Qed.
Lemma same_var_trans a b c : same_var a b -> same_var b c -> same_var a c.
Proof. intros (A1 & A2) (B1 & B2). split; [congruence|now apply same_refs_trans with b]. Qed.
Definition alike (T : fitter) sh (t : fitter) : Prop := set_tvfit None t = T /\ option_map shape (t_vfit t) = sh.
Section FitterTogether.
Variable g : config.
Variable ev : interp -> Qc -> num.
Variable ev_stack : stacker -> Qc -> num.
Variable meanflux : nat -> Qc -> num.
Variable slope : Qc -> num.
Variable minimizer : nat -> interp -> interp -> interp -> spec -> num -> option minres.
Variable input_cont : spec -> option (Qc -> num).
Variable true_cont : spec -> Qc -> num.
Variable nsqrt : num -> num.
Variable uspline : list Qc -> list num -> list num -> option (list num).
Variable xs : list Qc.
Variable quad : list Qc -> Qc.
Variables (min_num_pix min_num_qso : nat) (cholesky : list (list Qc) -> bool)
  (curve_fit : list Qc -> list Qc -> list num -> errors -> option (list num * list num))
  (vspline : list Qc -> list num -> list num -> option (list num)).
Variable write_ok : string -> bool.
Variable iter_suffix : nat -> string.
Variable n : nat.
Hypothesis Hn : 1 <= n.

Lemma fit_continua_together (t : nat -> fitter) (l : nat -> list specx) :
  together n (fun r => fit_continua g ev (meanflux r) slope (minimizer r) input_cont true_cont (t r) (l r))
    (fun f => forall r, r < n -> rseq (map (fit_one g ev (meanflux r) slope (minimizer r) input_cont true_cont (t r)) (l r)) = Ok (f r)).
Proof.
  unfold fit_continua. apply (together_bind n _ _ (fun f => forall r, r < n -> rseq (map (fit_one g ev (meanflux r) slope (minimizer r) input_cont true_cont (t r)) (l r)) = Ok (f r))); [assumption| |].
  - apply together_local; [assumption| |]. { intros. apply safe_rseq_map. intro. apply safe_fit_one. }
    intros f Hf. exact Hf.
  - intros h Hh. repeat (apply together_allreduce; [assumption|]). apply together_if; [now apply together_raise|now apply together_ret].
Qed.

Lemma update_mean_cont_together (t : nat -> fitter) (l : nat -> list specx) T sh : (forall r, r < n -> alike T sh (t r)) ->
  together n (fun r => update_mean_cont g nsqrt uspline xs quad (l r) (t r))
    (fun f => exists T' b, same_var T T' /\ forall r, r < n -> alike T' sh (fst (f r)) /\ snd (f r) = b).
Proof.
  intro Ht. unfold update_mean_cont.
  assert (forall r, r < n -> t_stack (t r) = t_stack T) as Es by (intros r Hr; now destruct (Ht r Hr) as [<- _]).
  assert (forall r, r < n -> t_cont (t r) = t_cont T) as Ec by (intros r Hr; now destruct (Ht r Hr) as [<- _]).
  apply (together_bind n _ _ (fun f => exists k, forall r, r < n -> f r = k)); [assumption| |].
  - apply together_lift; [reflexivity|].
    apply together_ext with (fun r => stack_all nsqrt (residual g) (map fst (l r)) (t_stack T)).
    { intros r Hr. now rewrite Es. }
    now apply stack_together.
  - intros h (k & Hk).
    apply (together_bind n _ _ (fun f => exists cb, forall r, r < n -> f r = cb)); [assumption| |].
    + apply together_ext with (fun _ => of_res (new_meancont g uspline xs quad k (t_cont T))).
      { intros r Hr. now rewrite Ec, Hk. }
      apply together_same; [assumption|]. intros a _. now exists a.
    + intros c (cb & Hc). apply together_ret. exists (set_tcont (fst cb) (set_tstack k T)), (snd cb). split; [now repeat split|]. intros r Hr.
      rewrite (Hc r Hr), (Hk r Hr). destruct (Ht r Hr) as [<- E]. repeat split. exact E.
Qed.

Lemma update_var_lss_eta_together (t : nat -> fitter) (l : nat -> list specx) T s : (forall r, r < n -> alike T (Some s) (t r)) ->
  together n (fun r => update_var_lss_eta g nsqrt min_num_pix min_num_qso cholesky curve_fit vspline (l r) (t r))
    (fun f => exists T', same_refs T T' /\ forall r, r < n -> alike T' (Some s) (f r)).
Proof.
  intro Ht. unfold update_var_lss_eta.
  set (p1 := fun r v0 => rbind (lss_items (map fst (l r))) (fun items => vfit_add_all items (vfit_reset v0))).
  set (dflt := new_vfit g 0). set (v0 := fun r => match t_vfit (t r) with Some v => v | None => dflt end).
  apply together_ext with (fun r =>
      pbind (of_res (p1 r (v0 r))) (fun v =>
      pbind (of_res (guess g (t r))) (fun p0 =>
      pbind (lift FVar fvar_of (vfit_fit min_num_pix min_num_qso nsqrt cholesky curve_fit vspline v
                                  (if g_fit_eta g then 2 else 1) p0 true)) (fun r' =>
      let '(v', (y, ep)) := r' in Ret (store_fit g y ep (set_tvfit (Some v') (t r))))))).
  { intros r Hr. unfold v0. destruct (Ht r Hr) as [_ K]. destruct (t_vfit (t r)); [reflexivity|discriminate]. }
  assert (forall r, r < n -> shape (v0 r) = s) as Hs.
  { intros r Hr. unfold v0. destruct (Ht r Hr) as [_ K]. destruct (t_vfit (t r)); [|discriminate]. cbn in K. congruence. }
  eapply (together_bind n _ _ (fun f => forall r, r < n -> fresh (f r) /\ shape (f r) = s)); [assumption| |].
  - apply together_local; [assumption| |].
    + intros r _. apply safe_bind; [apply safe_lss_items|intro; apply safe_vfit_add_all].
    + intros f Hf r Hr. specialize (Hf r Hr). unfold p1 in Hf. apply rbind_Ok in Hf as (items & _ & H).
      destruct (reset_fresh (v0 r)) as [F S1]. destruct (add_all_fresh items _ _ F H) as [F2 S2]. split; [assumption|].
      rewrite S2, S1. now apply Hs.
  - intros v Hv.
    eapply (together_bind n _ _ (fun f => exists p0, forall r, r < n -> f r = p0)); [assumption| |].
    + apply together_ext with (fun _ => of_res (guess g T)).
      { intros r Hr. destruct (Ht r Hr) as [<- _]. reflexivity. }
      apply together_same; [assumption|]. intros a _. now exists a.
    + intros h (p0 & Hp).
      eapply (together_bind n _ _ (fun f : nat -> vfit * (list (list num) * list (list num)) =>
                 exists y, forall r, r < n -> snd (f r) = y /\ shape (fst (f r)) = s)); [assumption| |].
      * apply together_lift; [reflexivity|].
        apply together_ext with (fun r => vfit_fit min_num_pix min_num_qso nsqrt cholesky curve_fit vspline (v r) (if g_fit_eta g then 2 else 1) p0 true).
        { intros r Hr. now rewrite Hp. }
        now apply fit_together.
      * intros f ((y & ep) & Hf).
        apply together_ext with (fun r => Ret (store_fit g y ep (set_tvfit (Some (fst (f r))) (t r)))).
        { intros r Hr. destruct (Hf r Hr) as [K _]. destruct (f r) as [v' y']. cbn in K. now rewrite K. }
        apply together_ret. exists (store_fit g y ep T). split.
        { unfold store_fit. destruct (g_fit_eta g); now repeat split. }
        intros r Hr. destruct (Ht r Hr) as [<- _].
        destruct (Hf r Hr) as [_ K]. unfold alike, store_fit. destruct (g_fit_eta g); cbn; (split; [reflexivity|now rewrite K]).
Qed.

Definition log_of n log log' : Prop := exists more, log' = log ++ more /\ iteration_log n more.
(** an invariant of the spectra *)
Variable P : nat -> spec -> Prop.
Hypothesis P_fit : forall r t sx sx', P r (fst sx) ->
  fit_one g ev (meanflux r) slope (minimizer r) input_cont true_cont t sx = Ok sx' -> P r (fst sx').
Hypothesis P_init : forall r sx sx', P r (fst sx) -> init_one g input_cont sx = Ok sx' -> P r (fst sx').
Lemma rseq_P {A B} (Pa : A -> Prop) (Pb : B -> Prop) (f : A -> res B) : (forall x y, Pa x -> f x = Ok y -> Pb y) ->
  forall l l', Forall Pa l -> rseq (map f l) = Ok l' -> Forall Pb l'.
Proof.
  intros H l. induction l as [|x l IH]; intros l' F E; cbn in E; [injection E as <-; constructor|].
  apply rbind_Ok in E as (y & E1 & E2). apply rmap_Ok in E2 as (l2 & E2 & ->).
  apply Forall_cons_iff in F as [F1 F2]. constructor; [exact (H x y F1 E1)|now apply IH].
Qed.
(** the spectra have been fitted with the state T0 *)
Definition fitted_by (T0 : fitter) (r : nat) (l : list specx) : Prop :=
  exists lp, Forall (fun sx => P r (fst sx)) lp /\
    rseq (map (fit_one g ev (meanflux r) slope (minimizer r) input_cont true_cont T0) lp) = Ok l.
Lemma iterations_together m : forall it (t : nat -> fitter) (l : nat -> list specx) log T sh,
  (forall r, r < n -> alike T sh (t r)) -> (forall r, r < n -> Forall (fun sx => P r (fst sx)) (l r)) ->
  together n (fun r => iterations g ev (meanflux r) slope (minimizer r) input_cont true_cont nsqrt uspline xs quad
      min_num_pix min_num_qso cholesky curve_fit vspline write_ok iter_suffix r m it (t r) (l r) log)
    (fun f => exists T0 T' log', log_of m log log' /\
       same_refs T T0 /\ same_refs T T' /\ (sh = None -> same_var T T0 /\ same_var T T') /\
       (m <> 0 -> forall r, r < n -> fitted_by T0 r (snd (fst (f r)))) /\
       (m = 0 -> forall r, r < n -> snd (fst (f r)) = l r) /\
       forall r, r < n -> alike T' sh (fst (fst (f r))) /\ snd (f r) = log').
Proof.
  induction m as [|m IH]; intros it t l log T sh Ht Hl.
  - cbn [iterations]. apply together_ret. exists T, T, log. split; [|split; [now repeat split|split; [now repeat split|split; [intros _; split; now repeat split|]]]].
    { exists []. split; [now rewrite app_nil_r|now right]. }
    split; [easy|]. split; [easy|]. intros r Hr. split; [now apply Ht|reflexivity].
  - cbn [iterations].
    apply (together_bind n _ _ (fun _ => True)); [assumption| |].
    { apply together_local; [assumption| |easy]. intros. apply safe_save. }
    intros _ _. eapply (together_bind n); [assumption|apply fit_continua_together|]. intros l1 Hl1.
    assert (forall r, r < n -> fitted_by T r (l1 r)) as HF.
    { intros r Hr. exists (l r). split; [now apply Hl|]. rewrite <- (Hl1 r Hr). destruct (Ht r Hr) as [<- _]. reflexivity. }
    assert (forall r, r < n -> Forall (fun sx => P r (fst sx)) (l1 r)) as HP1.
    { intros r Hr. refine (rseq_P (fun sx => P r (fst sx)) (fun sx => P r (fst sx)) _ _ _ _ (Hl r Hr) (Hl1 r Hr)). intros x y Px E. exact (P_fit r (t r) x y Px E). }
    eapply (together_bind n); [assumption|exact (update_mean_cont_together t l1 T sh Ht)|]. intros tb (T1 & b & S1 & H1).
    apply (together_bind n _ _ (fun f => exists T2, same_refs T T2 /\ (sh = None -> same_var T T2) /\ forall r, r < n -> alike T2 sh (f r))); [assumption| |].
    + destruct sh as [s|].
      * apply together_ext with (fun r => update_var_lss_eta g nsqrt min_num_pix min_num_qso cholesky curve_fit vspline (l1 r) (fst (tb r))).
        { intros r Hr. destruct (H1 r Hr) as [[_ K] _]. destruct (t_vfit (fst (tb r))); [reflexivity|discriminate]. }
        eapply together_weaken; [|apply (update_var_lss_eta_together (fun r => fst (tb r)) l1 T1 s); intros r Hr; now destruct (H1 r Hr)].
        intros f (T2 & R2 & K2). exists T2. split; [|split; [discriminate|exact K2]]. apply same_refs_trans with T1; [apply S1|exact R2].
      * apply together_ext with (fun r => Ret (fst (tb r))).
        { intros r Hr. destruct (H1 r Hr) as [[_ K] _]. destruct (t_vfit (fst (tb r))); [discriminate|reflexivity]. }
        apply together_ret. exists T1. split; [apply S1|]. split; [easy|]. intros r Hr. now destruct (H1 r Hr).
    + intros t2 (T2 & R2 & V2 & H2).
      apply together_ext with (fun r => if b then Ret (t2 r, l1 r, log ++ [b])
         else iterations g ev (meanflux r) slope (minimizer r) input_cont true_cont nsqrt uspline xs quad
                min_num_pix min_num_qso cholesky curve_fit vspline write_ok iter_suffix r m (S it) (t2 r) (l1 r) (log ++ [b])).
      { intros r Hr. destruct (H1 r Hr) as [_ ->]. reflexivity. }
      destruct b.
      * apply together_ret. exists T, T2, (log ++ [true]). split; [|split; [|split; [|split; [|split; [|split]]]]]; try easy.
        { exists [true]. split; [reflexivity|]. left. exists 0. split; [lia|reflexivity]. }
        { intro E. split; [|now apply V2]. now repeat split. }
        intros r Hr. split; [now apply H2|reflexivity].
      * eapply together_weaken; [|apply (IH (S it) t2 l1 (log ++ [false]) T2 sh H2 HP1)].
        intros f (T3 & T4 & log' & (more & -> & Hm) & R3 & R4 & V34 & HF3 & HF0 & Hf).
        assert (log_of (S m) log ((log ++ [false]) ++ more)) as HL.
        { exists (false :: more). split; [now rewrite <- app_assoc|].
          destruct Hm as [(k & Hk & ->)| ->]; [left; exists (S k); split; [lia|reflexivity]|right; reflexivity]. }
        destruct m as [|m].
        -- exists T, T4, ((log ++ [false]) ++ more). split; [exact HL|]. split; [now repeat split|].
           split; [now apply same_refs_trans with T2|]. split; [intro E; destruct (V34 E); split; [now repeat split|apply same_var_trans with T2; auto]|].
           split; [|split; [discriminate|exact Hf]]. intros _ r Hr. rewrite (HF0 eq_refl r Hr). now apply HF.
        -- exists T3, T4, ((log ++ [false]) ++ more). split; [exact HL|]. split; [now apply same_refs_trans with T2|].
           split; [now apply same_refs_trans with T2|]. split; [intro E; destruct (V34 E); split; apply same_var_trans with T2; auto|].
           split; [|split; [discriminate|exact Hf]]. intros _ r Hr. apply HF3; [discriminate|assumption].
Qed.

Lemma fit_final_together (t : nat -> fitter) (l : nat -> list specx) T : (forall r, r < n -> alike T None (t r)) ->
  together n (fun r => fit_final_varlss g nsqrt uspline xs quad min_num_pix min_num_qso cholesky curve_fit vspline r (l r) (t r))
    (fun f => exists T' s, forall r, r < n -> alike T' (Some s) (f r)).
Proof.
  intro Ht. unfold fit_final_varlss. set (s := shape (new_vfit g 0)).
  assert (forall y0 r, construct_interp y0 (new_vfit g r) = construct_interp y0 (new_vfit g 0)) as Ei by reflexivity.
  apply (together_bind n _ _ (fun f => exists i, forall r, r < n -> f r = i)); [assumption| |].
  { apply together_ext with (fun _ => of_res (construct_interp (fq 1 10) (new_vfit g 0))); [reflexivity|].
    apply together_same; [assumption|]. intros a _. now exists a. }
  intros f1 (iv & H1). apply (together_bind n _ _ (fun f => exists i, forall r, r < n -> f r = i)); [assumption| |].
  { apply together_ext with (fun _ => of_res (construct_interp 1 (new_vfit g 0))); [reflexivity|].
    apply together_same; [assumption|]. intros a _. now exists a. }
  intros f2 (ie & H2).
  set (T1 := set_trefs (length (t_heap T)) (S (length (t_heap T))) (set_theap (t_heap T ++ [iv; ie]) T)).
  eapply (together_bind n _ _ (fun f => exists T', same_refs T1 T' /\ forall r, r < n -> alike T' (Some s) (f r))); [assumption| |].
  - apply (update_var_lss_eta_together (fun r => set_trefs (length (t_heap (t r))) (S (length (t_heap (t r))))
       (set_theap (t_heap (t r) ++ [f1 r; f2 r]) (set_tvfit (Some (new_vfit g r)) (t r)))) l T1 s).
    intros r Hr. rewrite (H1 r Hr), (H2 r Hr). destruct (Ht r Hr) as [<- _]. split; reflexivity.
  - intros t1 (T2 & _ & H3).
    eapply (together_bind n); [assumption|apply (update_mean_cont_together t1 l T2 (Some s) H3)|].
    intros tb (T3 & b & _ & H4). apply together_ret. exists T3, s. intros r Hr. now destruct (H4 r Hr).
Qed.

(** the spectra after the last steps, which use the state T *)
Definition finished_by (T : fitter) (l l' : list specx) : Prop :=
  rbind (normalize_flux g ev_stack T l) (eta_calibrate g ev T) = Ok l'.
Theorem iterate_together (t : nat -> fitter) (l : nat -> list specx) T sh : (forall r, r < n -> alike T sh (t r)) ->
  (forall r, r < n -> Forall (fun sx => P r (fst sx)) (l r)) ->
  together n (fun r => iterate g ev ev_stack (meanflux r) slope (minimizer r) input_cont true_cont nsqrt uspline xs quad
      min_num_pix min_num_qso cholesky curve_fit vspline write_ok iter_suffix r (t r) (l r))
    (fun f => exists T0 T1 T' s log l1, iteration_log (n_iterations g) log /\
       same_refs T T0 /\ same_refs T T1 /\ (sh = None -> same_var T T0 /\ same_var T T1) /\ (sh <> None -> T' = T1) /\
       ((n_iterations g <> 0 -> forall r, r < n -> fitted_by T0 r (l1 r)) /\ forall r, r < n -> Forall (fun sx => P r (fst sx)) (l1 r)) /\
       forall r, r < n -> alike T' (Some s) (fst (fst (f r))) /\ snd (f r) = log /\ finished_by T1 (l1 r) (snd (fst (f r)))).
Proof.
  intros Ht Hl. unfold iterate.
  eapply (together_bind n _ _ (fun f => forall r, r < n -> Forall (fun sx => P r (fst sx)) (f r))); [assumption| |].
  { apply together_local; [assumption| |].
    - intros. apply safe_rseq_map. intro. apply safe_init_one.
    - intros f Hf r Hr. refine (rseq_P (fun sx => P r (fst sx)) (fun sx => P r (fst sx)) _ _ _ _ (Hl r Hr) (Hf r Hr)). intros x y Px E. exact (P_init r x y Px E). }
  intros l0 Hl0. eapply (together_bind n); [assumption|apply (iterations_together _ 1 t l0 [] T sh Ht Hl0)|].
  intros f (T0 & T1 & log & (more & E & Hlog) & R0 & R1 & V01 & HF0 & HFl & Hf). cbn in E. subst more.
  assert ((n_iterations g <> 0 -> forall r, r < n -> fitted_by T0 r (snd (fst (f r)))) /\
    forall r, r < n -> Forall (fun sx => P r (fst sx)) (snd (fst (f r)))) as HF.
  { split; [exact HF0|]. intros r Hr. destruct (Nat.eq_dec (n_iterations g) 0) as [Z|NZ]; [rewrite (HFl Z r Hr); now apply Hl0|].
    destruct (HF0 NZ r Hr) as (lp & Hlp & E). refine (rseq_P (fun sx => P r (fst sx)) (fun sx => P r (fst sx)) _ _ _ _ Hlp E).
    intros x y Px Ex. exact (P_fit r T0 x y Px Ex). }
  apply together_ext with (fun r =>
      pbind (of_res (normalize_flux g ev_stack T1 (snd (fst (f r))))) (fun l2 =>
      pbind (of_res (eta_calibrate g ev T1 l2)) (fun l3 =>
      pbind (of_res (save g write_ok r "" (fst (fst (f r))))) (fun _ =>
      pbind (match t_vfit (fst (fst (f r))) with
         | Some _ => Ret (fst (fst (f r)))
         | None => pbind (fit_final_varlss g nsqrt uspline xs quad min_num_pix min_num_qso cholesky curve_fit vspline r l3 (fst (fst (f r)))) (fun t2 => pbind (of_res (save g write_ok r "-fit" t2)) (fun _ => Ret t2))
         end) (fun t2 =>
      pbind (of_res (write_vfit g write_ok r t2)) (fun _ =>
      Ret (t2, l3, log))))))).
  { intros r Hr. destruct (Hf r Hr) as [[<- _] K]. destruct (f r) as [[t1 l1] lg]. cbn in K. now subst lg. }
  eapply (together_bind n _ _ (fun h => forall r, r < n -> normalize_flux g ev_stack T1 (snd (fst (f r))) = Ok (h r))); [assumption| |].
  { apply together_local; [assumption| |intros h Hh; exact Hh]. intros. apply safe_normalize_flux. }
  intros l2 Hl2. eapply (together_bind n _ _ (fun h => forall r, r < n -> eta_calibrate g ev T1 (l2 r) = Ok (h r))); [assumption| |].
  { apply together_local; [assumption| |intros h Hh; exact Hh]. intros. apply safe_eta_calibrate. }
  intros l3 Hl3. apply (together_bind n _ _ (fun _ => True)); [assumption| |].
  { apply together_local; [assumption| |easy]. intros. apply safe_save. }
  intros _ _. apply (together_bind n _ _ (fun h => exists T' s, (sh <> None -> T' = T1) /\ forall r, r < n -> alike T' (Some s) (h r))); [assumption| |].
  - destruct sh as [s|].
    + apply together_ext with (fun r => Ret (fst (fst (f r)))).
      { intros r Hr. destruct (Hf r Hr) as [[_ K] _]. destruct (t_vfit (fst (fst (f r)))); [reflexivity|discriminate]. }
      apply together_ret. exists T1, s. split; [reflexivity|]. intros r Hr. now destruct (Hf r Hr).
    + apply together_ext with (fun r => pbind (fit_final_varlss g nsqrt uspline xs quad min_num_pix min_num_qso cholesky curve_fit vspline r (l3 r) (fst (fst (f r)))) (fun t2 => pbind (of_res (save g write_ok r "-fit" t2)) (fun _ => Ret t2))).
      { intros r Hr. destruct (Hf r Hr) as [[_ K] _]. destruct (t_vfit (fst (fst (f r)))); [discriminate|reflexivity]. }
      eapply (together_bind n); [assumption|apply (fit_final_together (fun r => fst (fst (f r))) l3 T1)|].
      { intros r Hr. now destruct (Hf r Hr). }
      intros t2 (T2 & s & H2). apply (together_bind n _ _ (fun _ => True)); [assumption| |].
      { apply together_local; [assumption| |easy]. intros. apply safe_save. }
      intros _ _. apply together_ret. exists T2, s. split; [easy|exact H2].
  - intros t2 (T2 & s & E2 & H2). apply (together_bind n _ _ (fun _ => True)); [assumption| |].
    { apply together_local; [assumption| |easy]. intros. apply safe_write_vfit. }
    intros _ _. apply together_ret. exists T0, T1, T2, s, log, (fun r => snd (fst (f r))). repeat (split; [assumption|]).
    intros r Hr. cbn [fst snd]. split; [now apply H2|]. split; [reflexivity|]. unfold finished_by. rewrite (Hl2 r Hr). exact (Hl3 r Hr).
Qed.
End FitterTogether.

(** ** Construction and mpi_continuum_fitting *)
Lemma fnc_bcast_together {T} n msg (x : nat -> res T) : 1 <= n -> (forall r, r < n -> safe (x r)) ->
  together n (fun r => mpi_fnc_bcast true r msg (x r)) (fun f => exists a, x 0 = Ok a /\ forall r, r < n -> f r = a).
Proof.
  intros Hn Hx. unfold mpi_fnc_bcast. cbn [negb].
  set (v := fun r => if Nat.eqb r 0 then match x r with Ok a => Some a | Err _ => None end else None).
  apply together_ext with (fun r => Bcast (v r) (fun b => finish_bcast msg b)).
  { intros r Hr. unfold v. rewrite orb_false_r. destruct (Nat.eqb r 0); [|reflexivity]. specialize (Hx r Hr).
    destruct (x r) as [a|[m|m|]]; try reflexivity; destruct Hx. }
  apply together_bcast; [assumption|]. destruct (v 0) as [a|] eqn:E; cbn [finish_bcast]; [|now apply together_raise].
  apply together_ret. exists a. split; [|easy]. unfold v in E. cbn in E. destruct (x 0); [congruence|discriminate].
Qed.
Lemma read_interp_together n msg file : 1 <= n ->
  together n (fun r => read_interp r msg file) (fun f => exists a, file = Some a /\ forall r, r < n -> f r = a).
Proof.
  intro Hn. unfold read_interp. apply together_lift; [reflexivity|].
  eapply together_weaken; [|apply fnc_bcast_together; [assumption|intros; apply safe_of_option]].
  intros f (a & E & Hf). exists a. split; [|exact Hf]. destruct file; [|discriminate]. cbn in E. congruence.
Qed.
(** the variance interpolators of the new fitter *)
Definition starts (o : fitopts) (T : fitter) : Prop :=
  (t_var T = 0 /\ t_eta T = 1 /\ t_mvar T = 0 /\ t_meta T = 1) /\
  match o_varlss o with
  | Some file => exists i, file = Some i /\ t_heap T = [i; ones_like i]
  | None => True
  end.
Lemma fitter_init_together n g o : 1 <= n ->
  together n (fun r => fitter_init g r o)
    (fun f => exists mf T sh, starts o T /\ match o_varlss o with Some _ => sh = None | None => sh <> None end /\ forall r, r < n -> fst (f r) = mf /\ alike T sh (snd (f r))).
Proof.
  intro Hn. unfold fitter_init.
  apply (together_bind n _ _ (fun f => exists i, forall r, r < n -> f r = i)); [assumption| |].
  { apply together_same; [assumption|]. intros a _. now exists a. }
  intros f1 (rf0 & H1). apply (together_bind n _ _ (fun f => exists i, forall r, r < n -> f r = i)); [assumption| |].
  { apply together_same; [assumption|]. intros a _. now exists a. }
  intros f2 (k & H2). apply (together_bind n _ _ (fun f => exists i, forall r, r < n -> f r = i)); [assumption| |].
  { destruct (o_meanflux o); [|apply together_ret; now eexists].
    eapply together_weaken; [|now apply read_interp_together]. intros f (a & _ & Hf). now exists a. }
  intros f3 (mf & H3).
  apply (together_bind n _ _ (fun f => exists i sh, match o_varlss o with Some file => file = Some i /\ sh = None | None => sh <> None end /\ forall r, r < n -> snd (f r) = i /\ option_map shape (fst (f r)) = sh)); [assumption| |].
  { destruct (o_varlss o) as [file|].
    - eapply (together_bind n); [assumption|now apply read_interp_together|]. intros f (i & E & Hi). apply together_ret.
      exists i, None. split; [easy|]. intros r Hr. cbn. split; [now apply Hi|reflexivity].
    - apply (together_bind n _ _ (fun f => exists i, forall r, r < n -> f r = i)); [assumption| |].
      + apply together_ext with (fun _ => of_res (construct_interp (fq 1 10) (new_vfit g 0))); [reflexivity|].
        apply together_same; [assumption|]. intros a _. now exists a.
      + intros f (i & Hi). apply together_ret. exists i, (Some (shape (new_vfit g 0))). split; [discriminate|]. intros r Hr. split; [now apply Hi|reflexivity]. }
  intros f4 (i & sh & V & H4). apply together_ret.
  exists mf, (mkFitter (mkInt false rf0 (g_dwrf g) (repeat n1 (length (g_rfwave g))) (repeat n0 (length (g_rfwave g))))
                [i; ones_like i] 0 1 0 1 None k), sh. split.
  { split; [now repeat split|]. destruct (o_varlss o); [|exact I]. exists i. now destruct V. }
  split. { destruct (o_varlss o); [apply V|exact V]. }
  intros r Hr. destruct (H4 r Hr) as [A B]. cbn [fst snd]. split; [now apply H3|]. split; [|exact B].
  unfold set_tvfit. cbn. now rewrite A, (H1 r Hr), (H2 r Hr).
Qed.

Section Fitting.
Variable g : config.
Variable ev : interp -> Qc -> num.
Variable ev_stack : stacker -> Qc -> num.
Variable slope : Qc -> num.
Variable minimizer : interp -> interp -> interp -> interp -> spec -> num -> option minres.
Variable input_cont : spec -> option (Qc -> num).
Variable true_cont : spec -> Qc -> num.
Variable nsqrt : num -> num.
Variable uspline : list Qc -> list num -> list num -> option (list num).
Variable xs : list Qc.
Variable quad : list Qc -> Qc.
Variables (min_num_pix min_num_qso : nat) (cholesky : list (list Qc) -> bool)
  (curve_fit : list Qc -> list Qc -> list num -> errors -> option (list num * list num))
  (vspline : list Qc -> list num -> list num -> option (list num)).
Variable write_ok : string -> bool.
Variable iter_suffix : nat -> string.
Variable smooth : arr -> Qc -> arr.
Variable junk : nat -> num.
Variable dwave : Qc.
Notation it := (iterate g ev ev_stack).

Theorem iterate_all n o (l : nat -> list specx) : 1 <= n ->
  together n (fun r => pbind (fitter_init g r o) (fun mt =>
      it (ev (fst mt)) slope (minimizer (fst mt)) input_cont true_cont nsqrt uspline xs quad
         min_num_pix min_num_qso cholesky curve_fit vspline write_ok iter_suffix r (snd mt) (l r)))
    (fun f => exists log, iteration_log (n_iterations g) log /\ forall r, r < n -> snd (f r) = log).
Proof.
  intro Hn. eapply (together_bind n); [assumption|now apply fitter_init_together|]. intros f (mf & T & sh & _ & _ & Hf).
  eapply together_weaken; [|apply (iterate_together g ev ev_stack (fun r => ev (fst (f r))) slope (fun r => minimizer (fst (f r)))
    input_cont true_cont nsqrt uspline xs quad min_num_pix min_num_qso cholesky curve_fit vspline write_ok iter_suffix n Hn
    (fun _ _ => True) ltac:(easy) ltac:(easy) (fun r => snd (f r)) l T sh)].
  - intros h (T0 & T1 & T' & s & log & l1 & Hlog & _ & _ & _ & _ & _ & Hh). exists log. split; [exact Hlog|]. intros r Hr. now destruct (Hh r Hr).
  - intros r Hr. now destruct (Hf r Hr).
  - intros r Hr. now apply Forall_forall.
Qed.

(** how the spectra that leave mpi_continuum_fitting come about *)
Definition last_steps (o : fitopts) (T : fitter) (l v : list spec) : Prop :=
  exists v1,
    match o_additive o with
    | Some file => exists vl, file = Some vl /\ add_noise ev smooth dwave vl T l = Ok v1
    | None => v1 = l
    end /\
    if o_coadd_after o then coadd_after ev nsqrt smooth junk dwave T v1 = Ok v else v = v1.
Variable P : nat -> spec -> Prop.
Hypothesis P_fit : forall r mf t sx sx', P r (fst sx) ->
  fit_one g ev (ev mf) slope (minimizer mf) input_cont true_cont t sx = Ok sx' -> P r (fst sx').
Hypothesis P_init : forall r sx sx', P r (fst sx) -> init_one g input_cont sx = Ok sx' -> P r (fst sx').
Definition outcome_of n o (f : nat -> fitter * list spec * list bool) : Prop :=
  exists mf T T0 T1 T' s log l1 l3, starts o T /\ iteration_log (n_iterations g) log /\
    same_refs T T0 /\ same_refs T T1 /\ (o_varlss o <> None -> same_var T T0 /\ same_var T T1) /\ (o_varlss o = None -> T' = T1) /\
    ((n_iterations g <> 0 -> forall r, r < n -> fitted_by g ev (fun _ => ev mf) slope (fun _ => minimizer mf) input_cont true_cont P T0 r (l1 r)) /\
     forall r, r < n -> Forall (fun sx => P r (fst sx)) (l1 r)) /\
    forall r, r < n -> alike T' (Some s) (fst (fst (f r))) /\ snd (f r) = log /\ finished_by g ev ev_stack T1 (l1 r) (l3 r) /\
      last_steps o T' (valid_spectra (map fst (l3 r))) (snd (fst (f r))).
Theorem continuum_fitting_outcome n o (l : nat -> list specx) : 1 <= n ->
  (forall r, r < n -> Forall (fun sx => P r (fst sx)) (l r)) ->
  together n (fun r => continuum_fitting g ev ev_stack slope minimizer input_cont true_cont nsqrt uspline xs quad
      min_num_pix min_num_qso cholesky curve_fit vspline write_ok iter_suffix smooth junk dwave r o (l r))
    (outcome_of n o).
Proof.
  intros Hn HP. unfold continuum_fitting. eapply (together_bind n); [assumption|now apply fitter_init_together|]. intros f (mf & T & sh & HS & HO & Hf).
  apply together_ext with (fun r => pbind (it (ev mf) slope (minimizer mf) input_cont true_cont nsqrt uspline xs quad
         min_num_pix min_num_qso cholesky curve_fit vspline write_ok iter_suffix r (snd (f r)) (l r)) (fun x =>
    let '(t, l1, log) := x in
    pbind (match o_additive o with
         | Some file =>
             pbind (read_interp r "Error loading NoiseCalibrator from file" file)
               (fun vl => of_res (add_noise ev smooth dwave vl t (valid_spectra (map fst l1))))
         | None => Ret (valid_spectra (map fst l1))
         end) (fun v1 =>
    pbind (if o_coadd_after o then of_res (coadd_after ev nsqrt smooth junk dwave t v1) else Ret v1) (fun v2 =>
    pbind (save_catalog g r o l1) (fun _ => Ret (t, v2, log)))))).
  { intros r Hr. destruct (Hf r Hr) as [<- _]. reflexivity. }
  eapply (together_bind n); [assumption|apply (iterate_together g ev ev_stack (fun r => ev mf) slope (fun r => minimizer mf)
    input_cont true_cont nsqrt uspline xs quad min_num_pix min_num_qso cholesky curve_fit vspline write_ok iter_suffix n Hn
    P (fun r => P_fit r mf) P_init (fun r => snd (f r)) l T sh)|].
  { intros r Hr. now destruct (Hf r Hr). }
  { exact HP. }
  intros h (T0 & T1 & T' & s & log & l1 & Hlog & R0 & R1 & V01 & ET & HF & Hh).
  set (valid := fun r => valid_spectra (map fst (snd (fst (h r))))).
  apply together_ext with (fun r =>
    pbind (match o_additive o with
         | Some file =>
             pbind (read_interp r "Error loading NoiseCalibrator from file" file)
               (fun vl => of_res (add_noise ev smooth dwave vl (fst (fst (h r))) (valid r)))
         | None => Ret (valid r)
         end) (fun v1 =>
    pbind (if o_coadd_after o then of_res (coadd_after ev nsqrt smooth junk dwave (fst (fst (h r))) v1) else Ret v1) (fun v2 =>
    pbind (save_catalog g r o (snd (fst (h r)))) (fun _ => Ret (fst (fst (h r)), v2, snd (h r)))))).
  { intros r Hr. unfold valid. now destruct (h r) as [[t1 l0] lg]. }
  apply (together_bind n _ _ (fun v1 => forall r, r < n -> match o_additive o with
    | Some file => exists vl, file = Some vl /\ add_noise ev smooth dwave vl T' (valid r) = Ok (v1 r)
    | None => v1 r = valid r
    end)); [assumption| |].
  { destruct (o_additive o) as [file|]; [|now apply together_ret].
    eapply (together_bind n); [assumption|now apply read_interp_together|]. intros vl (i & Ei & Hi).
    apply together_local; [assumption| |]; [intros; apply safe_add_noise|].
    intros v1 Hv r Hr. exists i. split; [exact Ei|]. rewrite <- (Hv r Hr), (Hi r Hr). destruct (Hh r Hr) as ((<- & _) & _). reflexivity. }
  intros v1 Hv1. apply (together_bind n _ _ (fun v2 => forall r, r < n ->
     if o_coadd_after o then coadd_after ev nsqrt smooth junk dwave T' (v1 r) = Ok (v2 r) else v2 r = v1 r)); [assumption| |].
  { destruct (o_coadd_after o); [|now apply together_ret]. apply together_local; [assumption| |]; [intros; apply safe_coadd_after|].
    intros v2 Hv r Hr. rewrite <- (Hv r Hr). destruct (Hh r Hr) as ((<- & _) & _). reflexivity. }
  intros v2 Hv2. apply (together_bind n _ _ (fun _ => True)); [assumption| |].
  { unfold save_catalog. apply together_if; [|now apply together_ret].
    apply (together_peq n _ (fun r => pbind (of_res (if o_rows o (snd (fst (h r))) then Ok tt else Err (OtherExn "ValueError")))
      (fun _ => Allreduce (fun a _ => a) FUnit (fun _ => of_res (if Nat.eqb r 0 && negb (o_catalog o) then Err (OtherExn "OSError") else Ok tt))))).
    { intros r Hr. destruct (o_rows o _); cbn; [|constructor]. constructor. intro x. destruct (_ && _); constructor. }
    apply (together_bind n _ _ (fun _ => True)); [assumption| |].
    - apply together_local; [assumption| |easy]. intros. now destruct (o_rows o _).
    - intros _ _. apply together_allreduce; [assumption|]. apply together_local; [assumption| |easy]. intros. now destruct (_ && _). }
  intros _ _. apply together_ret. exists mf, T, T0, T1, T', s, log, l1, (fun r => snd (fst (h r))).
  split; [exact HS|]. split; [exact Hlog|]. split; [exact R0|]. split; [exact R1|].
  split; [intro; apply V01; destruct (o_varlss o); [assumption|contradiction]|].
  split; [intro E; apply ET; rewrite E in HO; exact HO|]. split; [exact HF|]. intros r Hr. destruct (Hh r Hr) as (A & B & C). cbn [fst snd].
  split; [exact A|]. split; [exact B|]. split; [exact C|]. exists (v1 r). split; [exact (Hv1 r Hr)|exact (Hv2 r Hr)].
Qed.
End Fitting.
