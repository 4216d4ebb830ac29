(** C41: the stacked flux is the weighted mean in each bin. *)
From Coq Require Import ZArith QArith String List Bool Arith Lia Qcanon.
From Verif Require Import Num NpList Exn Dict Mpi ModelSpectrum ModelStack SpecSpectrum SpecStack ProofStack PropMasks.
Import ListNotations.
Local Open Scope nat_scope.

(** Whatever the stackers kk r of the ranks contained before, and however the spectra are distributed over the ranks:
    every rank ends with the same stacker k, whose bins cover [w1, w2] and [lya1, lya2], and which holds in each bin
    the weighted mean over the pixels of all ranks that lie in the bin. *)
Theorem C41_stacked_flux : forall nsqrt residual size (specs : nat -> list spec) kk k0 w1 w2 dwobs lya1 lya2 m,
  1 <= size ->
  stacker_init w1 w2 dwobs (centers lya1 lya2 (S m)) ((lya2 - lya1) / zq (Z.of_nat (S m)))%Qc = Ok k0 ->
  (forall r, r < size -> like k0 (kk r)) ->
  (forall r s, r < size -> In s (specs r) -> s_valid s = true ->
     stackable s /\ forall p, In p (spec_pixels s) -> in_region w1 w2 lya1 lya2 p) ->
  let n := Z.to_nat (qround ((w2 - w1) / dwobs)%Qc) in
  let dw := ((w2 - w1) / zq (Z.of_nat n))%Qc in let drf := ((lya2 - lya1) / zq (Z.of_nat (S m)))%Qc in
  let P := concat (map (fun r => sample_pixels (specs r)) (seq 0 size)) in
  exists k, spmd size (fun r => stack_all nsqrt residual (specs r) (kk r)) = Done (repeat (Finished k) size) /\
    like k0 k /\ length (k_fp k) = n /\ length (k_rfp k) = S m /\
    (forall b, b < n -> nth_error (k_fp k) b = Some (Fin (stack_mean transmission (filter (obs_bin w1 dw b) P)))) /\
    (forall b, b < S m -> nth_error (k_rfp k) b =
       Some (Fin (stack_mean (if residual then transmission else q_cont) (filter (rf_bin lya1 drf b) P)))) /\
    (forall b, b < S m -> nth_error (k_rep k) b =
       let W := total_rel_weight (filter (rf_bin lya1 drf b) P) in
       Some (if qltb 0 W then ndiv n1 (nsqrt (Fin W)) else Fin W)).
Proof. exact stack_correct. Qed.
Print Assumptions C41_stacked_flux.

(** every wavelength of the range lies in exactly one of the n bins *)
Theorem C41_one_bin : forall w1 w2 n w, 1 <= n -> (w1 <= w)%Qc -> (w < w2)%Qc ->
  exists b, b < n /\ forall b', in_bin w1 ((w2 - w1) / zq (Z.of_nat n))%Qc b' w = true <-> b' = b.
Proof. exact in_bin_exists. Qed.
Print Assumptions C41_one_bin.

(** the pixels kept by set_forest_region are in the observed and the rest-frame range of the stack *)
Theorem C41_forest_in_range : forall nsqrt w1 w2 lya1 lya2 s s',
  s_f s = empty_forest -> NoDup (dkeys (s_wave s)) -> data_matches_grid s ->
  (forall arm w, dget arm (s_wave s) = Some w -> ascending w) -> (0 < 1 + s_z s)%Qc ->
  set_forest_region nsqrt w1 w2 lya1 lya2 s = Ok s' ->
  forall arm w x, dget arm (fw (s_f s')) = Some w -> In x w ->
    (w1 <= x)%Qc /\ (x < w2)%Qc /\ (lya1 <= x / (1 + s_z s))%Qc /\ (x / (1 + s_z s) < lya2)%Qc.
Proof. exact forest_in_region. Qed.
Print Assumptions C41_forest_in_range.

(** earlier use of a stacker does not change its bins *)
Theorem C41_any_history : forall k,
  like k (stacker_reset k) /\
  forall wave rf a b c k', stacker_add wave rf a b c k = Ok k' -> like k k'.
Proof. exact (fun k => conj (like_reset k) (fun wave rf a b c k' => like_add wave rf a b c k k')). Qed.
Print Assumptions C41_any_history.

(** the upper edge itself is not in the range: add raises although the class documents only wave > w2obs as illegal *)
Theorem C41_upper_edge : forall w1 w2 dwobs waverf dwrf k0 rf wf wc wt,
  stacker_init w1 w2 dwobs waverf dwrf = Ok k0 -> (w1 < w2)%Qc ->
  exists e, stacker_add [w2] [rf] [wf] [wc] [wt] k0 = Err (OtherExn e).
Proof. exact upper_edge. Qed.
Print Assumptions C41_upper_edge.

(** Two ranks with one quasar at z = 2 each, bins of 2 A from 3600 A to 3606 A and three rest-frame bins. *)
Definition ex_k0 : res stacker := stacker_init (zq 3600) (zq 3606) (zq 2) (centers (zq 1200) (zq 1203) 3) 1.
Example C41_ex :
  (exists k0, ex_k0 = Ok k0 /\ like k0 k0) /\ stackable (ex_forest (zq 2) 0 0) /\
  (forall p, In p (spec_pixels (ex_forest (zq 2) 0 0)) -> in_region (zq 3600) (zq 3606) (zq 1200) (zq 1203) p) /\
  exists k0 k, ex_k0 = Ok k0 /\
  spmd 2 (fun r => stack_all (fun x => x) true [ex_forest (zq 2) 0 0] k0) = Done [Finished k; Finished k] /\
  map (fun x => this (nval x)) (k_fp k) = [1; 13 # 8; 39 # 10]%Q.
Proof.
  split; [eexists; split; [vm_compute; reflexivity|unfold like; tauto]|]. split; [|split].
  - intros arm w H. cbn in H. destruct H as [H|[H|[]]]; injection H as <- <-.
    + exists (map zq [1; 2; 3; 4; 5]%Z), (map zq [1; 1; 2; 2; 1]%Z), (map zq [1; 0; 3; 1; 1]%Z).
      repeat (split; [reflexivity|]). intros x Hx. cbn in Hx. intro E. subst x.
      repeat (destruct Hx as [Hx|Hx]; [discriminate Hx|]). destruct Hx.
    + exists (map zq [6; 7]%Z), (map zq [1; 2]%Z), (map zq [1; 2]%Z).
      repeat (split; [reflexivity|]). intros x Hx. cbn in Hx. intro E. subst x.
      repeat (destruct Hx as [Hx|Hx]; [discriminate Hx|]). destruct Hx.
  - intros p Hp. vm_compute in Hp.
    repeat (destruct Hp as [Hp|Hp]; [subst p; vm_compute; repeat split; try discriminate|]). destruct Hp.
  - eexists. eexists. split; [vm_compute; reflexivity|]. split; [vm_compute; reflexivity|]. vm_compute. reflexivity.
Qed.
