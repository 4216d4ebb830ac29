(** C38: the blinding decision.  C50: the options of qsonic-fit. *)
From Coq Require Import ZArith String List Bool Arith Qcanon.
From Verif Require Import Num Exn Dict Mpi ModelSpectrum ModelBlinding ModelFitArgs SpecFit ProofFit.
Import ListNotations.
Local Open Scope nat_scope.

(** ** C38 *)
(** However the catalog is distributed over the ranks, one call in a fresh process: all ranks end with
    the same strategy, decided by the newest night over all ranks, and the matching column names. *)
Theorem C38_same_on_all_ranks : forall n mock skip forest_w1 queues,
  length queues = n -> 1 <= n -> all_have_rows queues ->
  exists m b st', newest_night queues m /\ strategy_for mock forest_w1 m b /\
    spmd n (blinding_prog mock skip forest_w1 queues statics0) = Done (repeat (Finished st') n) /\
    st_blinding st' = Some b /\ st_colnames st' = columns b skip.
Proof. exact blinding_same_ranks. Qed.
Print Assumptions C38_same_on_all_ranks.

Definition ex_queues : list (list (list Z)) := [[[20210401]; [20210402; 20210510]]; [[20210505; 20220101]]; [[20201214]]]%Z.
Example C38_rows : all_have_rows ex_queues /\ newest_night ex_queues 20220101.
Proof.
  split.
  - intros q Hq. cbn in Hq. decompose [or] Hq; try contradiction; subst q; (split; [discriminate|]); cbn; intro H; decompose [or] H; try discriminate; contradiction.
  - split.
    + exists [[20210505; 20220101]]%Z, [20210505; 20220101]%Z. cbn. tauto.
    + intros q g x Hq Hg Hx. cbn in Hq. decompose [or] Hq; try contradiction; subst q; cbn in Hg; decompose [or] Hg; try contradiction; subst g; cbn in Hx; decompose [or] Hx; try contradiction; subst x; discriminate.
Qed.
Example C38_rows_y1 : exists st,
  spmd 3 (blinding_prog false false (zq 1040) ex_queues statics0) = Done [Finished st; Finished st; Finished st] /\
  st_blinding st = Some "desi_y1"%string /\
  st_colnames st = ["LAMBDA"; "DELTA_BLIND"; "IVAR"; "WEIGHT"; "CONT"; "RESOMAT"]%string.
Proof. eexists. vm_compute. repeat split. Qed.

(** After any history of calls, the delta column of blinded data is called DELTA_BLIND and a column called
    DELTA means unblinded data.  Missing: the converse, and the number of columns (refuted below). *)
Theorem C38_history_partial : forall calls st, blind_history calls statics0 = Ok st ->
  (forall b, st_blinding st = Some b -> b <> "none"%string -> nth_error (st_colnames st) 1 = Some "DELTA_BLIND"%string) /\
  (nth_error (st_colnames st) 1 = Some "DELTA"%string -> st_blinding st = None \/ st_blinding st = Some "none"%string).
Proof. exact history_names. Qed.
Print Assumptions C38_history_partial.
(** The strategy is that of the last call. *)
Theorem C38_history_strategy : forall calls c st, blind_history (calls ++ [c]) statics0 = Ok st ->
  exists b, st_blinding st = Some b /\
   (forall m, (b_mock c = false -> (b_fw1 c <= fq 121567 100)%Qc -> b_last c = Some m) ->
              strategy_for (b_mock c) (b_fw1 c) m b).
Proof. exact history_last. Qed.
Print Assumptions C38_history_strategy.
Definition ex_calls : list bcall :=
  [mkCall (Some 20220801)%Z false (zq 1040) true; mkCall None true (zq 1040) true].
Example C38_history_ex : exists st, blind_history ex_calls statics0 = Ok st /\ st_blinding st = Some "none"%string.
Proof. eexists. vm_compute. split; reflexivity. Qed.

(** A mock analysis after a blinded one still names its column DELTA_BLIND; two calls add RESOMAT twice,
    so that there are more names than columns. *)
Theorem C38_history_refuted :
  (exists calls st, blind_history calls statics0 = Ok st /\ st_blinding st = Some "none"%string /\
     nth_error (st_colnames st) 1 = Some "DELTA_BLIND"%string) /\
  (exists calls st, blind_history calls statics0 = Ok st /\ length (st_colnames st) = 7 /\ ~ NoDup (st_colnames st)).
Proof.
  split.
  - exists ex_calls. eexists. vm_compute. repeat split.
  - exists [mkCall None true (zq 1040) false; mkCall None true (zq 1040) false]. eexists. vm_compute. repeat split.
    intro H. inversion_clear H as [|? ? _ H1]. inversion_clear H1 as [|? ? _ H2]. inversion_clear H2 as [|? ? _ H3].
    inversion_clear H3 as [|? ? _ H4]. inversion_clear H4 as [|? ? _ H5]. inversion_clear H5 as [|? ? N _]. apply N. now left.
Qed.
Print Assumptions C38_history_refuted.

(** If some rank has no quasars and another has, the run is aborted (the maximum of an empty list). *)
Theorem C38_empty_rank_refuted : forall n skip forest_w1 queues st q0,
  length queues = n -> In [] queues -> In q0 queues -> q0 <> [] -> (forall q, In q queues -> ~ In [] q) ->
  spmd n (blinding_prog false skip forest_w1 queues st) = Aborted.
Proof. exact blinding_empty_rank. Qed.
Print Assumptions C38_empty_rank_refuted.
Example C38_empty_rank_ex : spmd 2 (blinding_prog false true (zq 1040) [[[20210401%Z]]; []] statics0) = Aborted.
Proof. reflexivity. Qed.

(** ** C50 *)
(** For finite wavelengths (and a directory if the input continuum is asked for by name) a combination of
    options is accepted iff it satisfies all documented constraints.  Missing: the refuted cases below. *)
Theorem C50_accept_partial : forall set_list a,
  nfinite (a_wave1 a) = true -> nfinite (a_wave2 a) = true -> nfinite (a_fw1 a) = true -> nfinite (a_fw2 a) = true ->
  (a_model a = "input"%string -> a_inputdir a <> ""%string) ->
  (snd (args_logic set_list a) = true <-> documented a).
Proof. exact args_accept. Qed.
Print Assumptions C50_accept_partial.
(** The continuum model of an accepted combination. *)
Theorem C50_model : forall set_list a, snd (args_logic set_list a) = true ->
  let a' := fst (args_logic set_list a) in
  (a_model a' = "true"%string <-> wants_true a) /\ (a_true a' = true <-> wants_true a) /\
  (a_model a' = "input"%string <-> a_inputdir a <> ""%string \/ ~ wants_true a /\ a_model a = "input"%string) /\
  (~ wants_true a -> a_inputdir a = ""%string -> a_model a' = a_model a) /\
  a_arms a' = set_list (a_arms a).
Proof. exact args_model. Qed.
Print Assumptions C50_model.
Definition ex_args (model dir : string) (w1 : num) : fitargs :=
  mkArgs ["B"; "R"]%string false model true "mf.fits"%string "vl.fits"%string dir w1 (Fin (zq 6000))
    (Fin (zq 1040)) (Fin (zq 1200)) false true "disable"%string.
Example C50_accept_ex :
  snd (args_logic (fun l => l) (ex_args "true" "" (Fin (zq 3600)))) = true /\
  a_model (fst (args_logic (fun l => l) (ex_args "picca" "dir" (Fin (zq 3600))))) = "input"%string /\
  snd (args_logic (fun l => l) (ex_args "true" "dir" (Fin (zq 3600)))) = false /\
  snd (args_logic (fun l => l) (ex_args "picca" "" (Fin (zq 6600)))) = false.
Proof. vm_compute. repeat split. Qed.

(** The input continuum without a directory and a NaN wavelength are accepted. *)
Theorem C50_accept_refuted :
  (exists a, snd (args_logic (fun l => l) a) = true /\ a_model (fst (args_logic (fun l => l) a)) = "input"%string /\
     a_inputdir a = ""%string) /\
  (exists a, snd (args_logic (fun l => l) a) = true /\ a_wave1 a = NaN).
Proof.
  split; [exists (ex_args "input" "" (Fin (zq 3600)))|exists (ex_args "picca" "" NaN)]; vm_compute; repeat split.
Qed.
Print Assumptions C50_accept_refuted.

(** Range-checked options: every finite value is accepted iff it is in the range; nothing but such values and
    NaN is accepted.  Missing: rejecting NaN. *)
Theorem C50_range_partial : forall parse f1 f2 arg,
  (forall x, parse arg = Some (Fin x) ->
    (float_range parse (Fin f1) (Fin f2) arg = Ok (Fin x) <-> (f1 <= x /\ x <= f2)%Qc) /\
    (~ (f1 <= x /\ x <= f2)%Qc -> exists e, float_range parse (Fin f1) (Fin f2) arg = Err e)) /\
  (forall v, float_range parse (Fin f1) (Fin f2) arg = Ok v ->
    parse arg = Some v /\ (v = NaN \/ exists x, v = Fin x /\ (f1 <= x /\ x <= f2)%Qc)).
Proof. exact (fun p f1 f2 a => conj (float_range_fin p f1 f2 a) (float_range_sound p f1 f2 a)). Qed.
Print Assumptions C50_range_partial.
(** NaN is accepted as a value of every range-checked option. *)
Theorem C50_range_refuted : forall parse f1 f2 arg, parse arg = Some NaN ->
  float_range parse (Fin f1) (Fin f2) arg = Ok NaN.
Proof. intros parse f1 f2 arg E. unfold float_range. now rewrite E. Qed.
Print Assumptions C50_range_refuted.
Example C50_range_ex :
  float_range (fun _ => Some (Fin (fq 1 4))) (Fin 0%Qc) (Fin 1%Qc) "0.25" = Ok (Fin (fq 1 4)) /\
  exists e, float_range (fun _ => Some (Fin (zq 2))) (Fin 0%Qc) (Fin 1%Qc) "2" = Err e.
Proof. split; [reflexivity|]. eexists. reflexivity. Qed.
