(** Specification vocabulary for the blinding decision (C38) and the options (C50) of qsonic-fit. *)
From Coq Require Import ZArith String List Bool Arith Qcanon.
From Verif Require Import Num Exn ModelSpectrum ModelFitArgs.
Import ListNotations.
Local Open Scope nat_scope.

(** [m] is the newest night of all catalog rows on all ranks *)
Definition newest_night (queues : list (list (list Z))) (m : Z) : Prop :=
  (exists q g, In q queues /\ In g q /\ In m g) /\
  (forall q g x, In q queues -> In g q -> In x g -> (x <= m)%Z).
(** every rank holds at least one group and no group is empty *)
Definition all_have_rows (queues : list (list (list Z))) : Prop :=
  forall q, In q queues -> q <> [] /\ ~ In [] q.

(** the strategy for newest night m: mocks and forests redward of Lya (1215.67 A) are never blinded *)
Definition strategy_for (mock : bool) (forest_w1 : Qc) (m : Z) (b : string) : Prop :=
  (b = "none"%string <-> mock = true \/ (fq 121567 100 < forest_w1)%Qc \/ (m < 20210514)%Z) /\
  (b = "desi_m2"%string <-> mock = false /\ (forest_w1 <= fq 121567 100)%Qc /\ (20210514 <= m < 20210801)%Z) /\
  (b = "desi_y1"%string <-> mock = false /\ (forest_w1 <= fq 121567 100)%Qc /\ (20210801 <= m < 20220801)%Z) /\
  (b = "desi_y3"%string <-> mock = false /\ (forest_w1 <= fq 121567 100)%Qc /\ (20220801 <= m)%Z).
(** the columns that one process writes: the delta column is called DELTA_BLIND iff the data is blinded *)
Definition columns (b : string) (skip_resomat : bool) : list string :=
  (["LAMBDA"; if String.eqb b "none" then "DELTA" else "DELTA_BLIND"; "IVAR"; "WEIGHT"; "CONT"]%string ++
   if skip_resomat then [] else ["RESOMAT"%string]).

(** ** Options *)
(** the true continuum is requested by either of two options *)
Definition wants_true (a : fitargs) : Prop := a_true a = true \/ a_model a = "true"%string.
(** the constraints the help texts and error messages of qsonic-fit document *)
Record documented (a : fitargs) : Prop := {
  d_true_mock : wants_true a -> a_mock a = true;
  d_true_meanflux : wants_true a -> a_meanflux a <> ""%string;
  d_true_varlss : wants_true a -> a_varlss a <> ""%string;
  d_true_input : wants_true a -> a_inputdir a = ""%string;
  d_wave : exists x y, a_wave1 a = Fin x /\ a_wave2 a = Fin y /\ (x < y)%Qc;
  d_forest : exists x y, a_fw1 a = Fin x /\ a_fw2 a = Fin y /\ (x < y)%Qc;
  d_mock_tile : a_mock a = true -> a_tile a = false;
  d_tile_hpx : a_tile a = true -> a_byhpx a = false;
  d_tile_exp : a_tile a = true -> a_exposures a = "disable"%string;
  d_input : a_model a = "input"%string -> a_inputdir a <> ""%string }.
