(** The continuum fit with a fiducial var_lss does not depend on the number of ranks (C69). *)
From Coq Require Import ZArith String List Bool Arith Lia Qcanon Permutation.
From Verif Require Import Num NpList Exn Dict Mpi ModelMpiUtils ModelSpectrum ModelMasks ModelContinuum ModelStack ModelSubsample
  ModelVarFit ModelFitter SpecMpi SpecFinal SpecRanks ProofMpi ProofMpi2 ProofStack ProofFitter ProofAttributes ProofRanks.
Import ListNotations.
Local Open Scope nat_scope.

Lemma res_assoc {V A B C} (x : res A) (f : A -> prog V B) (g : B -> prog V C) :
  pbind (pbind (of_res x) f) g = pbind (of_res x) (fun a => pbind (f a) g).
Proof. now destruct x. Qed.
Lemma fold_farr l : forall a, farr_of (fold_left (fun x y => FArr (arr_sum (farr_of x) (farr_of y))) (map FArr l) (FArr a)) = fold_left arr_sum l a.
Proof. induction l as [|b l IH]; intro a; cbn [map fold_left]; [reflexivity|]. cbn [farr_of]. apply IH. Qed.

Section Ranks.
Variable g : config.
Variable ev : interp -> Qc -> num.
Variable ev_stack : stacker -> Qc -> num.
Variable meanflux : Qc -> num.
Variable slope : Qc -> num.
Variable minimizer : interp -> interp -> interp -> spec -> num -> option minres.
Variable input_cont : spec -> option (Qc -> num).
Variable true_cont : spec -> Qc -> num.
Variable nsqrt : num -> num.
Variable uspline : list Qc -> list num -> list num -> option (list num).
Variable xs : list Qc.
Variable quadr : list Qc -> Qc.
Variables (min_num_pix min_num_qso : nat) (cholesky : list (list Qc) -> bool)
  (curve_fit : list Qc -> list Qc -> list num -> errors -> option (list num * list num))
  (vspline : list Qc -> list num -> list num -> option (list num)).
Variable write_ok : string -> bool.
Variable iter_suffix : nat -> string.
Notation fit := (fit_one g ev meanflux slope minimizer input_cont true_cont).
Notation fit_continua := (fit_continua g ev meanflux slope minimizer input_cont true_cont).
Notation update_mean_cont := (update_mean_cont g nsqrt uspline xs quadr).
Notation update_var_lss_eta := (update_var_lss_eta g nsqrt min_num_pix min_num_qso cholesky curve_fit vspline).
Notation iterations := (iterations g ev meanflux slope minimizer input_cont true_cont nsqrt uspline xs quadr
                          min_num_pix min_num_qso cholesky curve_fit vspline write_ok iter_suffix).

Lemma fit_continua_inv {B} n T (l : nat -> list specx) (K : nat -> list specx -> prog fval B) f : 1 <= n ->
  finishes n (fun r => pbind (fit_continua T (l r)) (K r)) f ->
  exists l1, (forall r, r < n -> rseq (map (fit T) (l r)) = Ok (l1 r)) /\ finishes n (fun r => K r (l1 r)) f.
Proof.
  intros Hn H. unfold ModelFitter.fit_continua in H.
  apply (finishes_ext n _ _ f (fun r _ => res_assoc _ _ _)) in H. apply finishes_res in H as (l1 & E & H); [|assumption].
  exists l1. split; [assumption|]. cbn [pbind] in H. apply finishes_all in H; [|assumption]. apply finishes_all in H; [|assumption].
  destruct (Nat.eqb _ 0); cbn [pbind] in H; [|assumption]. now apply finishes_raise in H.
Qed.

(** the stack of all spectra *)
Definition stacked (S : stacker) (l : list specx) : stacker := stacker_finish nsqrt (put (total (residual g) S (map fst l)) S).
Lemma update_mean_cont_inv {B} n (t : nat -> fitter) S C (l : nat -> list specx) (K : nat -> fitter * bool -> prog fval B) f : 1 <= n ->
  (forall r, r < n -> t_stack (t r) = S /\ t_cont (t r) = C) ->
  finishes n (fun r => pbind (update_mean_cont (l r) (t r)) (K r)) f ->
  exists cb, new_meancont g uspline xs quadr (stacked S (gathered n l)) C = Ok cb /\
    finishes n (fun r => K r (set_tcont (fst cb) (set_tstack (stacked S (gathered n l)) (t r)), snd cb)) f.
Proof.
  intros Hn HT H. unfold ModelFitter.update_mean_cont in H.
  assert (finishes n (fun r => pbind (of_res (stack_spectra (residual g) (map fst (l r)) (stacker_reset S))) (fun k0 =>
     pbind (pbind (lift FArr farr_of (stacker_calculate nsqrt k0)) (fun k => pbind (of_res (new_meancont g uspline xs quadr k C)) (fun cb =>
      Ret (set_tcont (fst cb) (set_tstack k (t r)), snd cb)))) (K r))) f) as H'.
  { refine (finishes_ext n _ _ f _ H). intros r Hr. destruct (HT r Hr) as (-> & ->). unfold stack_all. now rewrite lift_res, !res_assoc. }
  clear H. apply finishes_res in H' as (k1 & E & H); [|assumption].
  cbn [pbind lift stacker_calculate] in H.
  do 4 (apply finishes_all in H; [|assumption]).
  assert (forall r, r < n -> k1 r = put (total (residual g) S (map fst (l r))) S) as Ek.
  { intros r Hr. apply stack_from_reset. now apply E. }
  assert (forall (p : stacker -> arr) (q : quad -> arr), (forall z, p (put z S) = q z) ->
    (forall L z, q (fold_left plus L z) = fold_left arr_sum (map q L) (q z)) ->
    farr_of (fold_left (fun a b => FArr (arr_sum (farr_of a) (farr_of b))) (map (fun r => FArr (p (k1 r))) (seq 1 (n - 1))) (FArr (p (k1 0))))
    = q (total (residual g) S (map fst (gathered n l)))) as EF.
  { intros p q Hpq Hq. rewrite <- (map_map (fun r => p (k1 r)) FArr), fold_farr.
    unfold gathered. replace (seq 0 n) with (0 :: seq 1 (n - 1)) by (destruct n; [lia|]; cbn; now rewrite Nat.sub_0_r). cbn [map concat]. rewrite map_app, concat_map, map_map.
    rewrite <- (fold_total (residual g) S (fun r => map fst (l r))), Hq, map_map. rewrite (Ek 0) by lia. rewrite Hpq. f_equal.
    apply map_ext_in. intros r Hr. apply in_seq in Hr. rewrite Ek by lia. apply Hpq. }
  rewrite (EF k_fp q1 (fun _ => eq_refl) fold_q1), (EF k_ep q2 (fun _ => eq_refl) fold_q2),
    (EF k_rfp q3 (fun _ => eq_refl) fold_q3), (EF k_rep q4 (fun _ => eq_refl) fold_q4) in H.
  assert (finishes n (fun r => pbind (of_res (new_meancont g uspline xs quadr (stacked S (gathered n l)) C)) (fun cb =>
      K r (set_tcont (fst cb) (set_tstack (stacked S (gathered n l)) (t r)), snd cb))) f) as H'.
  { refine (finishes_ext n _ _ f _ H). intros r Hr. rewrite (Ek r Hr). now rewrite res_assoc. }
  clear H. apply finishes_const in H' as (cb & E1 & H); [|assumption]. now exists cb.
Qed.
Lemma stacked_perm S l l' : Permutation l l' -> stacked S l = stacked S l'.
Proof. intro P. unfold stacked. now rewrite (total_perm _ _ _ _ (Permutation_map fst P)). Qed.

Lemma iterations_ranks {B} n m (K K' : nat -> fitter * list specx * list bool -> prog fval B) f e : 1 <= n -> 1 <= m ->
  forall k it T log l h, t_vfit T = None -> Permutation (gathered n l) (gathered m h) ->
  finishes n (fun r => pbind (iterations r k it T (l r) log) (K r)) f ->
  finishes m (fun r => pbind (iterations r k it T (h r) log) (K' r)) e ->
  exists T' log' l' h', t_vfit T' = None /\ Permutation (gathered n l') (gathered m h') /\
    finishes n (fun r => K r (T', l' r, log')) f /\ finishes m (fun r => K' r (T', h' r, log')) e.
Proof.
  intros Hn Hm k. induction k as [|k IH]; intros it T log l h HV P H1 H2; cbn [ModelFitter.iterations] in H1, H2.
  - now exists T, log, l, h.
  - apply (finishes_ext n _ _ f (fun r _ => res_assoc _ _ _)) in H1. apply finishes_res in H1 as (u1 & _ & H1); [|assumption].
    apply (finishes_ext m _ _ e (fun r _ => res_assoc _ _ _)) in H2. apply finishes_res in H2 as (u2 & _ & H2); [|assumption].
    apply (finishes_peq n _ _ f (fun r _ => pbind_assoc _ _ _)) in H1. apply fit_continua_inv in H1 as (l1 & E1 & H1); [|assumption].
    apply (finishes_peq m _ _ e (fun r _ => pbind_assoc _ _ _)) in H2. apply fit_continua_inv in H2 as (h1 & E2 & H2); [|assumption].
    assert (Permutation (gathered n l1) (gathered m h1)) as P1 by exact (rseq_perm _ n m l l1 h h1 P E1 E2).
    apply (finishes_peq n _ _ f (fun r _ => pbind_assoc _ _ _)) in H1.
    apply (update_mean_cont_inv n (fun _ => T) (t_stack T) (t_cont T)) in H1 as (cb & C1 & H1); [|assumption|now split].
    apply (finishes_peq m _ _ e (fun r _ => pbind_assoc _ _ _)) in H2.
    apply (update_mean_cont_inv m (fun _ => T) (t_stack T) (t_cont T)) in H2 as (cb' & C2 & H2); [|assumption|now split].
    rewrite <- (stacked_perm _ _ _ P1) in C2, H2. assert (cb' = cb) as -> by congruence.
    cbn [fst snd set_tcont set_tstack t_vfit] in H1, H2. rewrite HV in H1, H2. cbn [pbind] in H1, H2.
    destruct (snd cb); cbn [pbind] in H1, H2.
    + eexists _, _, l1, h1. split; [|split; [exact P1|split; [exact H1|exact H2]]]. exact HV.
    + refine (IH _ _ _ l1 h1 _ P1 H1 H2). exact HV.
Qed.

Lemma update_var_inv {B} n (t : nat -> fitter) (l : nat -> list specx) (K : nat -> fitter -> prog fval B) f : 1 <= n ->
  (forall r, r < n -> t_vfit (t r) <> None) ->
  finishes n (fun r => pbind (update_var_lss_eta (l r) (t r)) (K r)) f ->
  exists t1, (forall r, r < n -> t_stack (t1 r) = t_stack (t r) /\ t_cont (t1 r) = t_cont (t r)) /\
    finishes n (fun r => K r (t1 r)) f.
Proof.
  intros Hn HV H.
  set (v0 := fun r => match t_vfit (t r) with Some v => v | None => new_vfit g 0 end).
  assert (finishes n (fun r => pbind (of_res (rbind (lss_items (map fst (l r))) (fun items => vfit_add_all items (vfit_reset (v0 r))))) (fun v =>
    pbind (of_res (guess g (t r))) (fun p0 =>
      pbind (lift FVar fvar_of (vfit_fit min_num_pix min_num_qso nsqrt cholesky curve_fit vspline v
                                  (if g_fit_eta g then 2 else 1) p0 true)) (fun x => K r (store_fit g (fst (snd x)) (snd (snd x)) (set_tvfit (Some (fst x)) (t r))))))) f) as H'.
  { refine (finishes_peq n _ _ f _ H). intros r Hr. unfold ModelFitter.update_var_lss_eta, v0. specialize (HV r Hr).
    destruct (t_vfit (t r)) as [v|]; [|congruence]. rewrite res_assoc. apply peq_bind2. intro a. rewrite res_assoc. apply peq_bind2. intro b.
    apply peq_trans with (1 := pbind_assoc _ _ _). apply peq_bind2. intros (v' & y & ep). apply peq_refl. }
  clear H. apply finishes_res in H' as (v1 & EV & H); [|assumption]. apply finishes_res in H as (p0 & _ & H); [|assumption].
  assert (exists x, finishes n (fun r => K r (store_fit g (fst (snd (x r))) (snd (snd (x r))) (set_tvfit (Some (fst (x r))) (t r)))) f) as (x & Hx).
  2: { eexists. split; [|exact Hx]. intros r Hr. unfold store_fit. destruct (g_fit_eta g); now split. }
  assert (forall r, r < n -> v_done (v1 r) = false) as HD.
  { intros r Hr. specialize (EV r Hr). apply rbind_Ok in EV as (items & _ & EV).
    now destruct (add_all_fresh items _ _ (proj1 (reset_fresh (v0 r))) EV) as ((_ & D) & _). }
  set (npar := if g_fit_eta g then 2 else 1) in *.
  set (bad := fun r => negb ((Nat.eqb npar 1 || Nat.eqb npar 2) && Nat.eqb (length (p0 r)) (v_nw (v1 r))
           && forallb (fun g : list num => Nat.eqb (length g) npar) (p0 r))).
  assert (finishes n (fun r => pbind (of_res (if bad r then Err (OtherExn "AssertionError") else Ok tt)) (fun _ =>
     pbind (lift FVar fvar_of (pbind (calculate_stats (v1 r)) (fun v' =>
       pbind (of_res (fit_local min_num_pix min_num_qso nsqrt cholesky curve_fit vspline v' npar (p0 r) true)) (fun r => Ret (v', r)))))
     (fun x => K r (store_fit g (fst (snd x)) (snd (snd x)) (set_tvfit (Some (fst x)) (t r)))))) f) as H'.
  { refine (finishes_ext n _ _ f _ H). intros r Hr. unfold vfit_fit. fold (bad r). now destruct (bad r). }
  clear H. apply finishes_res in H' as (u & _ & H); [|assumption]. clear u.
  assert (finishes n (fun r => 
    Allreduce (fun a b => FVar (VSub (arr_add (vsub_of (fvar_of a)) (vsub_of (fvar_of b))))) (FVar (VSub (meas (v_sub (v1 r))))) (fun m =>
    Allreduce (fun a b => FVar (VSub (arr_add (vsub_of (fvar_of a)) (vsub_of (fvar_of b))))) (FVar (VSub (fun i _ k => wts (v_sub (v1 r)) i k))) (fun w =>
    Allreduce (fun a b => FVar (int_sum (fvar_of a) (fvar_of b))) (FVar (VInt (v_npix (v1 r)))) (fun np =>
    Allreduce (fun a b => FVar (int_sum (fvar_of a) (fvar_of b))) (FVar (VInt (v_nqso (v1 r)))) (fun nq =>
    pbind (of_res (local_stats (v_set (vint_of (fvar_of np)) (vint_of (fvar_of nq))
      (set_data (vsub_of (fvar_of m)) (fun i k => vsub_of (fvar_of w) i 0 k) (v_sub (v1 r))) (v_done (v1 r)) (v1 r)))) (fun v' =>
    pbind (of_res (fit_local min_num_pix min_num_qso nsqrt cholesky curve_fit vspline v' npar (p0 r) true)) (fun y =>
    K r (store_fit g (fst y) (snd y) (set_tvfit (Some v') (t r)))))))))) f) as H'.
  { refine (finishes_peq n _ _ f _ H). intros r Hr. unfold calculate_stats. rewrite (HD r Hr). cbn [sub_allreduce lift pbind].
    apply peq_allreduce. intro m. apply peq_allreduce. intro w. apply peq_allreduce. intro np. apply peq_allreduce. intro nq.
    rewrite lift_res, res_assoc. apply peq_bind2. intro v'. rewrite lift_res, res_assoc. apply peq_bind2. intro y. cbn. apply peq_refl. }
  clear H. do 4 (apply finishes_all in H'; [|assumption]).
  apply finishes_res in H' as (v2 & _ & H); [|assumption]. apply finishes_res in H as (y & _ & H); [|assumption].
  exists (fun r => (v2 r, y r)). exact H.
Qed.

Notation iterate := (iterate g ev ev_stack meanflux slope minimizer input_cont true_cont nsqrt uspline xs quadr
                          min_num_pix min_num_qso cholesky curve_fit vspline write_ok iter_suffix).
Definition after (rank : nat) (x : fitter * list specx * list bool) : prog fval (fitter * list specx * list bool) :=
  let '(t1, l1, log) := x in
  pbind (of_res (normalize_flux g ev_stack t1 l1)) (fun l2 =>
  pbind (of_res (eta_calibrate g ev t1 l2)) (fun l3 =>
  pbind (of_res (save g write_ok rank "" t1)) (fun _ =>
  pbind (match t_vfit t1 with
         | Some _ => Ret t1
         | None => pbind (fit_final_varlss g nsqrt uspline xs quadr min_num_pix min_num_qso cholesky curve_fit vspline rank l3 t1)
                     (fun t2 => pbind (of_res (save g write_ok rank "-fit" t2)) (fun _ => Ret t2))
         end) (fun t2 =>
  pbind (of_res (write_vfit g write_ok rank t2)) (fun _ => Ret (t2, l3, log)))))).
Lemma iterate_after rank t l : iterate rank t l = pbind (of_res (rseq (map (init_one g input_cont) l))) (fun l0 =>
  pbind (iterations rank (n_iterations g) 1 t l0 []) (after rank)).
Proof. reflexivity. Qed.
Lemma after_inv {B} n T (l : nat -> list specx) log (K : nat -> _ -> prog fval B) f : 1 <= n -> t_vfit T = None ->
  finishes n (fun r => pbind (after r (T, l r, log)) (K r)) f ->
  exists l2 l3 cb x, finishes n (fun r => K r (x r)) f /\ (forall r, r < n -> normalize_flux g ev_stack T (l r) = Ok (l2 r)) /\ (forall r, r < n -> eta_calibrate g ev T (l2 r) = Ok (l3 r)) /\
    new_meancont g uspline xs quadr (stacked (t_stack T) (gathered n l3)) (t_cont T) = Ok cb /\
    forall r, r < n -> snd (fst (x r)) = l3 r /\ snd (x r) = log /\
      t_cont (fst (fst (x r))) = fst cb /\ t_stack (fst (fst (x r))) = stacked (t_stack T) (gathered n l3).
Proof.
  intros Hn HV H. unfold after in H.
  apply (finishes_ext n _ _ f (fun r _ => res_assoc _ _ _)) in H. apply finishes_res in H as (l2 & E2 & H); [|assumption].
  apply (finishes_ext n _ _ f (fun r _ => res_assoc _ _ _)) in H. apply finishes_res in H as (l3 & E3 & H); [|assumption].
  apply (finishes_ext n _ _ f (fun r _ => res_assoc _ _ _)) in H. apply finishes_res in H as (u & _ & H); [|assumption]. clear u.
  exists l2, l3. rewrite HV in H. unfold fit_final_varlss in H.
  apply (finishes_peq n _ (fun r => pbind (of_res (construct_interp (fq 1 10) (new_vfit g r))) (fun iv =>
    pbind (of_res (construct_interp 1 (new_vfit g r))) (fun ie =>
    pbind (update_var_lss_eta (l3 r) (set_trefs (length (t_heap T)) (S (length (t_heap T)))
      (set_theap (t_heap T ++ [iv; ie]) (set_tvfit (Some (new_vfit g r)) T)))) (fun t1 =>
    pbind (update_mean_cont (l3 r) t1) (fun tb =>
    pbind (of_res (save g write_ok r "-fit" (fst tb))) (fun _ =>
    pbind (of_res (write_vfit g write_ok r (fst tb))) (fun _ => K r (fst tb, l3 r, log)))))))) f) in H.
  - apply finishes_res in H as (iv & _ & H); [|assumption]. apply finishes_res in H as (ie & _ & H); [|assumption].
    apply (update_var_inv n (fun r => set_trefs (length (t_heap T)) (S (length (t_heap T)))
      (set_theap (t_heap T ++ [iv r; ie r]) (set_tvfit (Some (new_vfit g r)) T)))) in H as (t1 & F1 & H); [|assumption|discriminate].
    apply (update_mean_cont_inv n t1 (t_stack T) (t_cont T)) in H as (cb & C & H); [|assumption|exact F1].
    exists cb.
    apply finishes_res in H as (u & _ & H); [|assumption]. apply finishes_res in H as (u' & _ & H); [|assumption].
    eexists. split; [exact H|]. split; [assumption|]. split; [assumption|]. split; [assumption|].
    intros r Hr. now cbn.
  - intros r Hr. rewrite !res_assoc. apply peq_bind2. intro iv. rewrite !res_assoc. apply peq_bind2. intro ie.
    do 3 apply peq_trans with (1 := pbind_assoc _ _ _). apply peq_bind2. intro t1.
    apply peq_trans with (1 := pbind_assoc _ _ _). apply peq_bind2. intro tb.
    cbn [pbind]. rewrite !res_assoc. apply peq_bind2. intros u. cbn [pbind]. rewrite !res_assoc. apply peq_refl.
Qed.
End Ranks.

Lemma gathered_ext {A} n (l l' : nat -> list A) : (forall r, r < n -> l r = l' r) -> gathered n l = gathered n l'.
Proof. intro H. unfold gathered. f_equal. apply map_ext_in. intros r Hr. apply in_seq in Hr. apply H. lia. Qed.
Lemma if_perm {A} (b : bool) (F : A -> res A) n m (l l1 h h1 : nat -> list A) : Permutation (gathered n l) (gathered m h) ->
  (forall r, r < n -> (if b then rseq (map F (l r)) else Ok (l r)) = Ok (l1 r)) ->
  (forall r, r < m -> (if b then rseq (map F (h r)) else Ok (h r)) = Ok (h1 r)) ->
  Permutation (gathered n l1) (gathered m h1).
Proof.
  intros P H1 H2. destruct b; [exact (rseq_perm F n m l l1 h h1 P H1 H2)|].
  rewrite <- (gathered_ext n l l1) by (intros r Hr; specialize (H1 r Hr); congruence).
  rewrite <- (gathered_ext m h h1) by (intros r Hr; specialize (H2 r Hr); congruence). assumption.
Qed.

Section Iterate.
Variable g : config.
Variable ev : interp -> Qc -> num.
Variable ev_stack : stacker -> Qc -> num.
Variable meanflux : Qc -> num.
Variable slope : Qc -> num.
Variable minimizer : interp -> interp -> interp -> spec -> num -> option minres.
Variable input_cont : spec -> option (Qc -> num).
Variable true_cont : spec -> Qc -> num.
Variable nsqrt : num -> num.
Variable uspline : list Qc -> list num -> list num -> option (list num).
Variable xs : list Qc.
Variable quadr : list Qc -> Qc.
Variables (min_num_pix min_num_qso : nat) (cholesky : list (list Qc) -> bool)
  (curve_fit : list Qc -> list Qc -> list num -> errors -> option (list num * list num))
  (vspline : list Qc -> list num -> list num -> option (list num)).
Variable write_ok : string -> bool.
Variable iter_suffix : nat -> string.
Notation iterate g := (iterate g ev ev_stack meanflux slope minimizer input_cont true_cont nsqrt uspline xs quadr
                          min_num_pix min_num_qso cholesky curve_fit vspline write_ok iter_suffix).
Lemma iterate_ranks_k {B} n m T l h (K K' : nat -> _ -> prog fval B) f e : 1 <= n -> 1 <= m -> t_vfit T = None -> Permutation (gathered n l) (gathered m h) ->
  finishes n (fun r => pbind (iterate (on_ranks n g) r T (l r)) (K r)) f -> finishes m (fun r => pbind (iterate (on_ranks m g) r T (h r)) (K' r)) e ->
  exists x y, same_results n m x y /\ finishes n (fun r => K r (x r)) f /\ finishes m (fun r => K' r (y r)) e.
Proof.
  intros Hn Hm HV P H1 H2. 
  apply (finishes_ext n _ _ f (fun r _ => f_equal (fun p => pbind p _) (iterate_after _ _ _ _ _ _ _ _ _ _ _ _ _ _ _ _ _ _ _ _ _ _))) in H1.
  apply (finishes_ext m _ _ e (fun r _ => f_equal (fun p => pbind p _) (iterate_after _ _ _ _ _ _ _ _ _ _ _ _ _ _ _ _ _ _ _ _ _ _))) in H2.
  apply (finishes_ext n _ _ f (fun r _ => res_assoc _ _ _)) in H1. apply finishes_res in H1 as (l0 & E1 & H1); [|assumption].
  apply (finishes_ext m _ _ e (fun r _ => res_assoc _ _ _)) in H2. apply finishes_res in H2 as (h0 & E2 & H2); [|assumption].
  assert (Permutation (gathered n l0) (gathered m h0)) as P0 by exact (rseq_perm _ n m l l0 h h0 P E1 E2).
  apply (finishes_peq n _ _ f (fun r _ => pbind_assoc _ _ _)) in H1. apply (finishes_peq m _ _ e (fun r _ => pbind_assoc _ _ _)) in H2.
  destruct (iterations_ranks g ev meanflux slope minimizer input_cont true_cont nsqrt uspline xs quadr
    min_num_pix min_num_qso cholesky curve_fit vspline write_ok iter_suffix n m _ _ f e Hn Hm _ _ T [] l0 h0 HV P0 H1 H2)
    as (T' & log' & l' & h' & HV' & P' & G1 & G2).
  apply after_inv in G1 as (l2 & l3 & cb & x & A0 & A1 & A2 & A3 & A4); [|assumption|assumption].
  apply after_inv in G2 as (h2 & h3 & cb' & y & B0 & B1 & B2 & B3 & B4); [|assumption|assumption].
  exists x, y. split; [|now split].
  assert (Permutation (gathered n l2) (gathered m h2)) as P2 by exact (if_perm _ _ n m l' l2 h' h2 P' A1 B1).
  assert (Permutation (gathered n l3) (gathered m h3)) as P3 by exact (if_perm _ _ n m l2 l3 h2 h3 P2 A2 B2).
  assert (stacked (on_ranks n g) nsqrt (t_stack T') (gathered n l3) = stacked (on_ranks m g) nsqrt (t_stack T') (gathered m h3)) as ES
    by exact (stacked_perm g nsqrt _ _ _ P3).
  rewrite <- ES in B3, B4. change (new_meancont (on_ranks m g)) with (new_meancont (on_ranks n g)) in B3. assert (cb' = cb) as -> by congruence.
  split.
  - rewrite (gathered_ext n _ l3) by (intros r Hr; apply A4; assumption). now rewrite (gathered_ext m _ h3) by (intros r Hr; apply B4; assumption).
  - intros r r' Hr Hr'. destruct (A4 r Hr) as (_ & X1 & X2 & X3), (B4 r' Hr') as (_ & Y1 & Y2 & Y3). repeat split; congruence.
Qed.
End Iterate.
