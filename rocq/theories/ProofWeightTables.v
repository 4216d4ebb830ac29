(** The tables in attributes.fits (C74): what is in the extensions. *)
From Coq Require Import ZArith String List Bool Arith Lia Qcanon Field.
From Verif Require Import Num NpList Exn Dict Mpi ModelSpectrum ModelContinuum ModelStack ModelSubsample ModelVarFit ModelFitter ModelAttributes
  SpecStack SpecVarFit SpecFinal SpecAttributes SpecMpi ProofMpi ProofMpi2 ProofStack ProofVarFit4 ProofLock ProofAttributes ProofFitter.
Import ListNotations.
Local Open Scope nat_scope.

(** ** outcomes of programs with a component forgotten *)
Lemma all_finished {A B} (f : nat -> A) (d : A * B) n : forall k l,
  map (fun e : ending (A * B) => match e with Finished x => Finished (fst x) | Failed e => Failed e end) l = map (fun r => Finished (f r)) (seq k n) ->
  exists h, l = map (fun r => Finished (h r)) (seq k n) /\ forall r, k <= r < k + n -> fst (h r) = f r.
Proof.
  induction n as [|n IH]; intros k [|x l] T; cbn [seq map] in T; try discriminate T.
  - exists (fun _ => d). split; [reflexivity|intros r Hr; lia].
  - injection T as T1 T2. destruct (IH (S k) l T2) as (h & -> & E). destruct x as [x|e]; [|discriminate]. injection T1 as T1.
    exists (fun r => if Nat.eqb r k then x else h r). split.
    + cbn [seq map]. rewrite Nat.eqb_refl. f_equal. apply map_ext_in. intros r Hr. apply in_seq in Hr.
      destruct (Nat.eqb_spec r k); [lia|reflexivity].
    + intros r Hr. destruct (Nat.eqb_spec r k) as [->|K]; [exact T1|]. apply E. lia.
Qed.
Lemma together_erased {V A B} n (pa : nat -> prog V (A * B)) (p : nat -> prog V A) Q : 1 <= n ->
  (forall r, r < n -> peq (pbind (pa r) (fun x => Ret (fst x))) (p r)) -> together n p Q ->
  together n pa (fun f => exists f', Q f' /\ forall r, r < n -> fst (f r) = f' r).
Proof.
  intros Hn H T. unfold together in *. rewrite <- (spmd_peq n _ _ H), fg_spmd in T. destruct (spmd n pa) as [l| |]; cbn [forget] in T; [|exact T|exact T].
  destruct T as [(m & T)|[(e & He & T)|(f & T & HQ)]].
  - left. exists m. apply in_map_iff in T as (x & E & Hx). destruct x; [discriminate|]. injection E as ->. exact Hx.
  - right. left. exists e. split; [exact He|]. clear - T. revert n T. induction l as [|x l IH]; intros [|n] T; try discriminate; [reflexivity|].
    cbn in *. injection T as T1 T2. f_equal; [destruct x; [discriminate|congruence]|now apply IH].
  - right. right. destruct l as [|[d|e] l]; [destruct n; [lia|discriminate]| |destruct n; discriminate].
    destruct (all_finished f d n 0 _ T) as (h & -> & E). exists h. split; [reflexivity|]. exists f. split; [exact HQ|]. intros r Hr. apply E. lia.
Qed.
Lemma together_leaf {V A} n (p : nat -> prog V A) Q (P : nat -> A -> Prop) : (forall r, r < n -> leaf (P r) (p r)) -> together n p Q ->
  together n p (fun f => Q f /\ forall r, r < n -> P r (f r)).
Proof.
  intros L T. unfold together in *. destruct (spmd n p) as [l| |] eqn:E; [|exact T|exact T].
  destruct T as [T|[T|(f & T & HQ)]]; [now left|right; now left|]. right. right. exists f. split; [exact T|]. split; [exact HQ|].
  apply (leaf_finishes n p f P L). unfold finishes. now rewrite E, T.
Qed.

(** ** the grids of the interpolators *)
Definition igrid (i : interp) : bool * Qc * Qc := (i_linear i, i_x0 i, i_dx i).
Lemma igrid_upd a b d : forall h j r, igrid (nth r (upd j (i_reset a b) h) d) = igrid (nth r h d).
Proof.
  induction h as [|x h IH]; intros j r; [now destruct j|]. destruct j, r; cbn; try reflexivity. apply IH.
Qed.
Definition W (g : config) : list Qc := centers (g_w1 g) (g_w2 g) (g_nw g).
Definition DW (g : config) : Qc := ((g_w2 g - g_w1 g) / zq (Z.of_nat (g_nw g)))%Qc.
Definition gridded (g : config) (t : fitter) : Prop :=
  (exists w0, rfirst (W g) = Ok w0 /\ igrid (ModelFitter.deref t (t_var t)) = (false, w0, DW g) /\ igrid (ModelFitter.deref t (t_eta t)) = (false, w0, DW g)) /\
  exists v, t_vfit t = Some v /\ v_wave v = W g.
Lemma even_grid g w0 : rfirst (W g) = Ok w0 -> W g = map (fun k => (w0 + zq (Z.of_nat k) * DW g)%Qc) (seq 0 (length (W g))).
Proof.
  unfold W, DW. intro H. destruct (g_nw g) as [|n]; [discriminate H|]. rewrite centers_first in H. injection H as <-. rewrite centers_length, centers_map by lia.
  apply map_ext. intro i. unfold bin_center. assert (fq 1 2 = 1 / (1 + 1))%Qc as -> by (apply Qc_is_canon; reflexivity).
  change (Z.pos (Pos.of_succ_nat n)) with (Z.of_nat (S n)).
  field. split; intro K; first [discriminate K|apply (zq_inj _ 0) in K; lia].
Qed.

(** ** VarLSSFitter keeps its bins *)
Lemma stats_wave v : leaf (fun v' => v_wave v' = v_wave v) (calculate_stats v).
Proof.
  unfold calculate_stats. destruct (v_done v); [reflexivity|]. apply leaf_bind_any. intro s. cbn. intros x1 x2. apply leaf_res. intros v' E.
  apply local_stats_shape in E. unfold shape in E. cbn in E. congruence.
Qed.
Lemma leaf_lift {W V A} (inj : W -> V) (prj : V -> W) (P : A -> Prop) (p : prog W A) : leaf P p -> leaf P (lift inj prj p).
Proof. induction p; cbn; auto. Qed.
Section Tables.
Variable g : config.
Variable ev : interp -> Qc -> num.
Variable ev_stack : stacker -> Qc -> num.
Variable meanflux : Qc -> num.
Variable slope : Qc -> num.
Variable minimizer : interp -> interp -> interp -> spec -> num -> option minres.
Variable input_cont : spec -> option (Qc -> num).
Variable true_cont : spec -> Qc -> num.
Variable nsqrt : num -> num.
Variable uspline : list Qc -> list num -> list num -> option (list num).
Variable xs : list Qc.
Variable quad : list Qc -> Qc.
Variables (min_num_pix min_num_qso : nat) (cholesky : list (list Qc) -> bool)
  (curve_fit : list Qc -> list Qc -> list num -> errors -> option (list num * list num))
  (vspline : list Qc -> list num -> list num -> option (list num)).
Variable write_ok : string -> bool.
Notation mean_update := (update_mean_cont g nsqrt uspline xs quad).
Notation var_update := (update_var_lss_eta g nsqrt min_num_pix min_num_qso cholesky curve_fit vspline).


Lemma mean_gridded l t : gridded g t -> leaf (fun tb => gridded g (fst tb)) (mean_update l t).
Proof. intro S. unfold update_mean_cont. apply leaf_bind_any. intro k. apply leaf_bind_any. intro cb. exact S. Qed.
Lemma var_gridded l t : gridded g t -> leaf (gridded g) (var_update l t).
Proof.
  intros ((w0 & E0 & Gv & Ge) & v0 & Ev & Ew). unfold update_var_lss_eta. rewrite Ev.
  apply (leaf_bind (fun v => v_wave v = W g)).
  { apply leaf_res. intros v E. apply rbind_Ok in E as (items & _ & E). destruct (reset_fresh v0) as [F S1]. destruct (add_all_fresh items _ _ F E) as [_ S2].
    rewrite S1 in S2. unfold shape in S2. congruence. }
  intros v Hv. apply leaf_bind_any. intro p0. apply (leaf_bind (fun r => v_wave (fst r) = W g)).
  { apply leaf_lift. unfold vfit_fit. destruct (negb _); [exact I|]. eapply leaf_bind; [apply stats_wave|]. intros v' Hv'. apply leaf_bind_any. intro r. cbn [leaf fst]. now rewrite Hv'. }
  intros [v' [y ep]] Hv'. cbn [fst] in Hv'. cbn [leaf]. unfold store_fit.
  assert (forall h j a b r, igrid (nth r (upd j (i_reset a b) h) null_interp) = igrid (nth r h null_interp)) as U by (intros; apply igrid_upd).
  destruct (g_fit_eta g); (split; [exists w0; split; [exact E0|]|exists v'; split; [reflexivity|exact Hv']]);
    unfold ModelFitter.deref in *; cbn; rewrite !U; now split.
Qed.
Lemma final_gridded rank l t : leaf (gridded g)
  (fit_final_varlss g nsqrt uspline xs quad min_num_pix min_num_qso cholesky curve_fit vspline rank l t).
Proof.
  unfold fit_final_varlss.
  apply (leaf_bind (fun i => exists w0, rfirst (W g) = Ok w0 /\ igrid i = (false, w0, DW g))).
  { apply leaf_res. intros i E. unfold construct_interp in E. apply rmap_Ok in E as (w0 & E & ->). exists w0. split; [exact E|reflexivity]. }
  intros iv (w0 & E0 & Gv).
  apply (leaf_bind (fun i => igrid i = (false, w0, DW g))).
  { apply leaf_res. intros i E. unfold construct_interp in E. apply rmap_Ok in E as (w1 & E & ->). change (rfirst (W g) = Ok w1) in E. assert (w1 = w0) as -> by congruence. reflexivity. }
  intros ie Ge. cbv zeta. eapply leaf_bind; [apply var_gridded|].
  - split; [exists w0; split; [exact E0|]|eexists; split; [reflexivity|reflexivity]]. unfold ModelFitter.deref. cbn.
    rewrite !app_nth2 by lia. rewrite Nat.sub_diag. replace (S (length (t_heap t)) - length (t_heap t)) with 1 by lia. now split.
  - intros t1 G1. eapply leaf_bind; [now apply mean_gridded|]. intros tb Gb. exact Gb.
Qed.
Lemma init_gridded rank o : o_varlss o = None -> leaf (fun mt => gridded g (snd mt)) (fitter_init g rank o).
Proof.
  intro E. unfold fitter_init. apply leaf_bind_any. intro rf0. cbv zeta. apply leaf_bind_any. intro k. apply leaf_bind_any. intro mf. rewrite E.
  eapply (leaf_bind (fun vi => fst vi = Some (new_vfit g rank) /\ exists w0, rfirst (W g) = Ok w0 /\ igrid (snd vi) = (false, w0, DW g))).
  { eapply leaf_bind; [apply leaf_res; intros i Ei; exact Ei|]. intros i Ei. cbn. split; [reflexivity|].
    unfold construct_interp in Ei. apply rmap_Ok in Ei as (w0 & Ei & ->). exists w0. split; [exact Ei|reflexivity]. }
  intros [v i] (Ev & w0 & E0 & Gi). cbn in Ev, Gi. subst v. cbn. split; [exists w0; split; [exact E0|]|eexists; split; [reflexivity|reflexivity]].
  unfold ModelFitter.deref. cbn. split; [exact Gi|]. unfold igrid in *. cbn. congruence.
Qed.
Lemma leaf_and {A} (P Q : A -> Prop) (p : prog fval A) : leaf P p -> leaf Q p -> leaf (fun a => P a /\ Q a) p.
Proof. induction p; cbn; auto. Qed.

(** ** the file *)
Notation iterations_a := (iterations_a g ev meanflux slope minimizer input_cont true_cont nsqrt uspline xs quad
  min_num_pix min_num_qso cholesky curve_fit vspline write_ok).
Notation iterate_a := (iterate_a g ev ev_stack meanflux slope minimizer input_cont true_cont nsqrt uspline xs quad
  min_num_pix min_num_qso cholesky curve_fit vspline write_ok).
Notation sets := (sets g).
Notation writes := (writes g).
Definition tabled (fitting : bool) (t : fitter) : Prop := fine fitting t /\ (fitting = true -> gridded g t).
Lemma iterations_tabled rank fitting : forall n it t l log a, tabled fitting t ->
  leaf (fun r => let '(t', l', log', a') := r in exists ts, Forall (tabled fitting) ts /\
          fst a' = fst a ++ map used_of ts /\ snd a' = snd a ++ (if writes rank then sets it ts else []) /\ tabled fitting t')
       (iterations_a rank n it t l log a).
Proof.
  induction n as [|n IH]; intros it t l log a F; cbn [ModelAttributes.iterations_a].
  - cbn. exists []. rewrite !app_nil_r. repeat split; auto; try (destruct (writes rank); cbn; now rewrite ?app_nil_r); apply F; assumption.
  - apply (leaf_bind (fun file => file = snd a ++ (if writes rank then save_exts g (iteration_suffix it) t else []))).
    { apply leaf_res. intros file E. now apply save_a_ok in E. }
    intros file ->. apply leaf_bind_any. intro l1. cbv zeta.
    apply (leaf_bind (fun tb => tabled fitting (fst tb))).
    { destruct F as [[S F] G]. destruct fitting.
      - eapply leaf_weaken; [|apply leaf_and; [apply mean_cont_leaf|apply mean_gridded, G; reflexivity]].
        intros tb [[R V] G1]. split; [split; [exact (refs_shared _ _ R S)|now rewrite V]|intros _; exact G1].
      - eapply leaf_weaken; [|apply mean_cont_leaf]. intros tb [R V]. split; [split; [exact (refs_shared _ _ R S)|now rewrite V]|discriminate]. }
    intros tb [[S F1] G]. apply (leaf_bind (tabled fitting)).
    { destruct (t_vfit (fst tb)) eqn:E.
      - cbn in F1. subst fitting. eapply leaf_weaken; [|apply leaf_and; [apply var_leaf|apply var_gridded, G; reflexivity]].
        intros t2 [[R2 V2] G2]. split; [split; [exact (refs_shared _ _ R2 S)|exact V2]|intros _; exact G2].
      - cbn. split; [split; [exact S|now rewrite E]|exact G]. }
    intros t2 F2. destruct (snd tb).
    + cbn. exists [t]. split; [now constructor|]. split; [reflexivity|]. split; [|exact F2].
      unfold ProofAttributes.sets. cbn. now rewrite app_nil_r.
    + eapply leaf_weaken; [|apply (IH (Datatypes.S it) t2 l1 _ _ F2)]. intros [[[t' l'] log'] a'] (ts & FT & U & X & F').
      exists (t :: ts). cbn [fst snd] in *. split; [now constructor|]. split; [rewrite U; cbn; now rewrite <- app_assoc|]. split; [|exact F'].
      rewrite X, <- app_assoc. f_equal. destruct (writes rank); [|reflexivity]. unfold ProofAttributes.sets. reflexivity.
Qed.
Lemma iterate_tabled rank fitting t l : tabled fitting t ->
  leaf (fun r => let '(t', l', log, (u, file)) := r in exists ts t1, Forall (tabled fitting) ts /\
          u = map used_of ts /\ gridded g t' /\ (fitting = true -> tabled true t' /\ t' = t1) /\
          file = if writes rank then sets 1 ts ++ save_exts g "" t1 ++ (if fitting then [] else save_exts g "-fit" t') ++ [mkExt "VAR_STATS" [] []] else [])
       (iterate_a rank t l).
Proof.
  intro F. unfold ModelAttributes.iterate_a. apply leaf_bind_any. intro l0. eapply leaf_bind; [apply (iterations_tabled rank fitting _ 1 t l0 [] ([], []) F)|].
  intros [[[t1 l1] log] [u file]] (ts & FT & U & X & F1). cbn [fst snd app] in U, X. subst u file.
  apply leaf_bind_any. intro l2. apply leaf_bind_any. intro l3.
  apply (leaf_bind (fun file => file = (if writes rank then sets 1 ts else []) ++ (if writes rank then save_exts g "" t1 else []))).
  { apply leaf_res. intros file E. now apply save_a_ok in E. }
  intros file1 ->.
  apply (leaf_bind (fun tf => gridded g (fst tf) /\ (fitting = true -> tabled true (fst tf) /\ fst tf = t1) /\
     snd tf = if writes rank then sets 1 ts ++ save_exts g "" t1 ++ (if fitting then [] else save_exts g "-fit" (fst tf)) else [])).
  { destruct F1 as [[S F1] G1]. destruct (t_vfit t1) eqn:E.
    - cbn in F1. subst fitting. cbn. split; [now apply G1|]. split; [intros _; split; [|reflexivity]; split; [split; [exact S|now rewrite E]|exact G1]|].
      destruct (writes rank); [now rewrite app_nil_r|reflexivity].
    - cbn in F1. subst fitting. eapply leaf_bind; [apply final_gridded|]. intros t2 G2.
      apply (leaf_bind (fun file => file = ((if writes rank then sets 1 ts else []) ++ (if writes rank then save_exts g "" t1 else [])) ++
               (if writes rank then save_exts g "-fit" t2 else []))).
      { apply leaf_res. intros file E2. now apply save_a_ok in E2. }
      intros file2 ->. cbn. split; [exact G2|]. split; [discriminate|]. destruct (writes rank); [now rewrite <- app_assoc|reflexivity]. }
  intros [t2 file2] (V & T & X). cbn [fst snd] in V, T, X.
  apply (leaf_bind (fun file3 => file3 = if writes rank then file2 ++ [mkExt "VAR_STATS" [] []] else file2)).
  { apply leaf_res. intros file3 E. destruct (write_vfit g write_ok rank (fst (t2, file2))); [|discriminate E]. cbn in E. unfold ProofAttributes.writes. congruence. }
  intros file3 ->. cbn. exists ts, t1. subst file2. split; [exact FT|]. split; [reflexivity|]. split; [exact V|]. split; [exact T|].
  destruct (writes rank); [|reflexivity]. now rewrite <- !app_assoc.
Qed.
(** the extension VAR_FUNC of a set *)
Definition func_ext (suff : string) (t : fitter) : ext :=
  mkExt ("VAR_FUNC" ++ suff) (W g)
      [("var_lss"%string, i_fp (ModelFitter.deref t (t_var t))); ("e_var_lss"%string, i_ep (ModelFitter.deref t (t_var t)));
       ("eta"%string, i_fp (ModelFitter.deref t (t_eta t))); ("e_eta"%string, i_ep (ModelFitter.deref t (t_eta t)))].
Lemma func_set suff t : gridded g t -> exts_of "VAR_FUNC" (save_exts g suff t) = [func_ext suff t].
Proof. intros (_ & v & Ev & Ew). unfold save_exts. rewrite Ev. cbn. unfold func_ext. rewrite Ew. now destruct suff. Qed.
Lemma func_tables suff t : gridded g t ->
  table_in (func_ext suff t) "var_lss" (ModelFitter.deref t (t_var t)) /\ table_in (func_ext suff t) "eta" (ModelFitter.deref t (t_eta t)).
Proof.
  intros ((w0 & E0 & Gv & Ge) & _). unfold igrid in Gv, Ge. injection Gv as V1 V2 V3. injection Ge as H1 H2 H3.
  split; (split; [assumption|split; [reflexivity|]]); cbn [x_wave func_ext].
  - rewrite V2, V3. now apply even_grid.
  - rewrite H2, H3. now apply even_grid.
Qed.
Lemma exts_app b x y : exts_of b (x ++ y) = exts_of b x ++ exts_of b y. Proof. apply filter_app. Qed.
(** the last one, and the one before it *)
Lemma last_func fitting ts t1 t' : gridded g t' -> (fitting = true -> t' = t1) ->
  exists suff, nth_error (rev (exts_of "VAR_FUNC" (sets 1 ts ++ save_exts g "" t1 ++ (if fitting then [] else save_exts g "-fit" t') ++ [mkExt "VAR_STATS" [] []]))) 0 = Some (func_ext suff t').
Proof.
  intros G T. rewrite !exts_app. change (exts_of "VAR_FUNC" [mkExt "VAR_STATS" [] []]) with (@nil ext). rewrite app_nil_r. destruct fitting.
  - exists ""%string. rewrite (T eq_refl) in *. rewrite (func_set "" t1 G). cbn [exts_of filter app]. rewrite rev_app_distr. reflexivity.
  - exists "-fit"%string. rewrite (func_set "-fit" t' G). rewrite !rev_app_distr. reflexivity.
Qed.
Lemma before_last_func ts tl t1 : gridded g tl -> gridded g t1 ->
  exists suff, nth_error (rev (exts_of "VAR_FUNC" (sets 1 (ts ++ [tl]) ++ save_exts g "" t1 ++ [] ++ [mkExt "VAR_STATS" [] []]))) 1 = Some (func_ext suff tl).
Proof.
  intros Gl G1. rewrite sets_snoc, !exts_app. change (exts_of "VAR_FUNC" [mkExt "VAR_STATS" [] []]) with (@nil ext). rewrite (func_set _ tl Gl), (func_set _ t1 G1).
  eexists. cbn [app exts_of filter]. rewrite !rev_app_distr. reflexivity.
Qed.
End Tables.
