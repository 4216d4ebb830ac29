(** C62: coadded resolution matrices.  Vocabulary: SpecReso.v, SpecCoadd.v. *)
From Coq Require Import ZArith String List Bool Arith QArith Qcanon Lia.
From Verif Require Import Num NpList Exn Dict ModelSpectrum SpecSpectrum SpecMasks SpecWeights SpecCoadd SpecReso
  ProofCoadd3 ProofReso PropMasks PropWeights.
Import ListNotations.
Local Open Scope nat_scope.

Theorem C62_average nsqrt smooth junk dw varlss eta s :
  (forall l q, length (smooth l q) = length l) -> (0 < dw)%Qc -> coaddable dw s -> fr (s_f s) <> [] -> reso_finite s ->
  exists s' mn mx M, coadd_arms_forest nsqrt smooth junk dw varlss eta s = Ok s' /\ smallest s mn /\ largest s mx /\
    fw (s_f s') = [("brz"%string, linspace mn mx (grid_n mn mx dw))] /\
    fr (s_f s') = [("brz"%string, M)] /\ coadded_reso s mn dw (grid_n mn mx dw) M.
Proof. exact (reso_thm nsqrt smooth junk dw varlss eta s). Qed.
Print Assumptions C62_average.

(** columns that all sum to t are coadded into a column that sums to t *)
Theorem C62_sums nsqrt smooth junk dw varlss eta s t :
  (forall l q, length (smooth l q) = length l) -> (0 < dw)%Qc -> coaddable dw s -> fr (s_f s) <> [] -> reso_finite s ->
  exists s' mn mx M, coadd_arms_forest nsqrt smooth junk dw varlss eta s = Ok s' /\ smallest s mn /\ largest s mx /\
    fr (s_f s') = [("brz"%string, M)] /\
    forall j, j < grid_n mn mx dw -> contributions s mn dw j <> [] ->
      (forall arm m k, In (arm, m) (fr (s_f s)) -> lands s mn dw j arm k = true -> column_sum m k = t) -> column_sum M j = t.
Proof. exact (reso_sums nsqrt smooth junk dw varlss eta s t). Qed.
Print Assumptions C62_sums.

(** full spectra (simple_coadd): the weights are the ivars *)
Theorem C62_simple_coadd st s :
  s_wave s = st_wave st -> coadd_grid_fresh st ->
  NoDup (dkeys (s_wave s)) -> data_matches_grid s ->
  (forall arm w, dget arm (s_wave s) = Some w -> ascending w) ->
  all_finite (s_flux s) -> all_finite (s_ivar s) ->
  (0 < st_dwave st)%Qc -> uniform_arms (st_dwave st) (full_spectrum s) ->
  (forall e, In e (all_entries (full_spectrum s)) -> (0 <= e_ivar e)%Qc) ->
  reso_fits (full_spectrum s) -> s_reso s <> [] -> reso_finite (full_spectrum s) ->
  exists st' s' mn n M, simple_coadd st s = Ok (st', s') /\ smallest (full_spectrum s) mn /\
    s_wave s' = [("brz"%string, map (fun j => mn + zq (Z.of_nat j) * st_dwave st)%Qc (seq 0 n))] /\
    s_reso s' = [("brz"%string, M)] /\ coadded_reso (full_spectrum s) mn (st_dwave st) n M.
Proof. exact (simple_reso st s). Qed.
Print Assumptions C62_simple_coadd.

(** Example: arm b has 3 diagonals, arm r one; they overlap at 3604 A *)
Definition ex_reso : spec :=
  let s := ex_forest (zq 2) 0 0 in
  set_f (set_fr [("b"%string, map (map (fun x => Fin (zq x))) [[1; 1; 1; 1; 1]; [2; 2; 2; 2; 2]; [3; 3; 3; 3; 3]]%Z);
                 ("r"%string, [map (fun x => Fin (zq x)) [6; 6]%Z])] (s_f s)) s.
Example C62_ex :
  coaddable 1 ex_reso /\ fr (s_f ex_reso) <> [] /\ reso_finite ex_reso /\
  (forall arm m k, In (arm, m) (fr (s_f ex_reso)) -> lands ex_reso (zq 3600) 1 4 arm k = true -> column_sum m k = zq 6) /\
  exists s', coadd_arms_forest (fun x => x) (fun l _ => l) (fun _ => NaN) 1 (fun _ => n0) (fun _ => n1) ex_reso = Ok s' /\
    option_map (map (map (fun x => this (nval x)))) (dget "brz" (fr (s_f s'))) =
      Some [[1; 1; 1; 1; 1 # 2; 0]; [2; 2; 2; 2; 4; 6]; [3; 3; 3; 3; 3 # 2; 0]]%Q.
Proof.
  destruct ex_coaddable as (P & F1 & F2 & F3 & U & W & Cn & _).
  split; [repeat (split; [assumption|])|].
  { exists false. intros arm m [E|[E|[]]]; injection E as <- <-; (split; [reflexivity|]).
    - exists (map zq [3600; 3601; 3602; 3603; 3604]%Z). split; [reflexivity|]. repeat constructor.
    - exists (map zq [3604; 3605]%Z). split; [reflexivity|]. repeat constructor. }
  split; [discriminate|]. split.
  { intros arm m row [E|[E|[]]] Hr; injection E as <- <-; repeat (destruct Hr as [<-|Hr]; [repeat constructor|]); destruct Hr. }
  split.
  { intros arm m k [E|[E|[]]]; injection E as <- <-; do 5 (destruct k as [|k]; [first [intros _; apply Qc_is_canon; vm_compute; reflexivity|intro C; vm_compute in C; discriminate C]|]);
      intro C; destruct k; vm_compute in C; discriminate C. }
  eexists. split; [vm_compute; reflexivity|]. vm_compute. reflexivity.
Qed.
