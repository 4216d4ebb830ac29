(** Property theorems: subsampled statistics (C15 - C19). *)
From Coq Require Import String ZArith List Bool Arith Lia Permutation Qcanon.
From Verif Require Import Num Exn Mpi ModelSubsample SpecSubsample ProofSubsample ProofSubsample2.
Import ListNotations.
Local Open Scope nat_scope.

(** Three measurements of one data set with two elements; the second element has
    no weight at all. *)
Definition ex_m (w v : Z) : measurement :=
  mkmeas (fun _ _ => zq v) (fun k => match k with 0 => zq w | _ => 0%Qc end).
Definition ex_ms : list measurement := [ex_m 1 3; ex_m 2 6; ex_m 1 (-1)].
Lemma ex_ms_nonneg : nonneg_weights ex_ms.
Proof.
  intros m k Hm. cbn in Hm. destruct Hm as [<-|[<-|[<-|[]]]]; destruct k; cbn; discriminate.
Qed.

(** ** C15 *)
(** For every sequence of public calls the mean is the weighted mean of the
    measurements accepted since the last reset. *)
Theorem C15_mean_of_any_history (nset0 ndata0 n start : nat) (h : list call) (j k : nat) :
  1 <= n -> nonneg_history h ->
  snd (get_mean (calls (sub_init nset0 ndata0 n start) h)) j k = weighted_mean (accepted h) j k.
Proof. exact (history_mean nset0 ndata0 n start h j k). Qed.
Print Assumptions C15_mean_of_any_history.
Theorem C15_mean_is_weighted_mean (nset0 ndata0 n start : nat) (ms : list measurement) (j k : nat) :
  1 <= n -> nonneg_weights ms -> total_weight ms k <> 0%Qc ->
  snd (get_mean (calls (sub_init nset0 ndata0 n start) (map Add ms))) j k
  = (weighted_sum ms j k / total_weight ms k)%Qc.
Proof. exact (measurements_mean nset0 ndata0 n start ms j k). Qed.
Print Assumptions C15_mean_is_weighted_mean.
Theorem C15_mean_independent_of_order_and_slots
  (nset0 ndata0 n n' start start' : nat) (ms ms' : list measurement) (j k : nat) :
  1 <= n -> 1 <= n' -> nonneg_weights ms -> Permutation ms ms' ->
  snd (get_mean (calls (sub_init nset0 ndata0 n start) (map Add ms))) j k
  = snd (get_mean (calls (sub_init nset0 ndata0 n' start') (map Add ms'))) j k.
Proof. exact (measurements_mean_order nset0 ndata0 n n' start start' ms ms' j k). Qed.
Print Assumptions C15_mean_independent_of_order_and_slots.
Example C15_ex :
  nonneg_weights ex_ms /\ total_weight ex_ms 0 <> 0%Qc /\
  nonneg_history [Add (ex_m 5 5); Mean; Add (ex_m 7 7); Reset; Add (ex_m 1 3); Add (ex_m 2 6); Add (ex_m 1 (-1))] /\
  accepted [Add (ex_m 5 5); Mean; Add (ex_m 7 7); Reset; Add (ex_m 1 3); Add (ex_m 2 6); Add (ex_m 1 (-1))] = ex_ms /\
  snd (get_mean (calls (sub_init 1 2 2 1) (map Add ex_ms))) 0 0 = fq 7 2 /\
  snd (get_mean (calls (sub_init 1 2 2 1) (map Add ex_ms))) 0 1 = 0%Qc.
Proof.
  split; [apply ex_ms_nonneg|]. split; [discriminate|]. split.
  { intros m k Hm. cbn in Hm.
    repeat (destruct Hm as [Hm|Hm]; [try discriminate; injection Hm as <-; destruct k; discriminate|]). destruct Hm. }
  split; [reflexivity|]. split; apply Qc_is_canon; vm_compute; reflexivity.
Qed.

(** ** C16 *)
(** The measurements ms r of all ranks, reduced and averaged on every rank. *)
Theorem C16_mean_independent_of_distribution
  (size nset0 ndata0 n : nat) (start : nat -> nat) (ms : nat -> list measurement) :
  1 <= size -> 1 <= n -> (forall r, r < size -> nonneg_weights (ms r)) ->
  exists means,
    spmd size (fun r => sub_allreduce (calls (sub_init nset0 ndata0 n (start r)) (map Add (ms r)))
                          (fun s => Ret (snd (get_mean s)))) = Done (map Finished means) /\
    length means = size /\
    forall m j k, In m means -> m j k = weighted_mean (concat (map ms (seq 0 size))) j k.
Proof. exact (mpi_mean size nset0 ndata0 n start ms). Qed.
Print Assumptions C16_mean_independent_of_distribution.
(** Covariance and variance (or the error) are the same on all ranks. *)
Theorem C16_all_ranks_same_covariance
  (size nset0 ndata0 n : nat) (start : nat -> nat) (ms : nat -> list measurement)
  (indices : option (list nat)) (blockdim : option nat) (bias_correct : bool) :
  1 <= size -> 1 <= n -> (forall r, r < size -> nonneg_weights (ms r)) ->
  exists rc rv,
    spmd size (fun r => sub_allreduce (calls (sub_init nset0 ndata0 n (start r)) (map Add (ms r)))
                  (fun s => Ret (snd (get_mean_n_cov indices blockdim bias_correct s),
                                 snd (get_mean_n_var bias_correct s))))
    = Done (repeat (Finished (rc, rv)) size).
Proof. exact (mpi_cov_same size nset0 ndata0 n start ms indices blockdim bias_correct). Qed.
Print Assumptions C16_all_ranks_same_covariance.
Example C16_ex :
  let ms r := match r with 0 => [ex_m 1 3] | 1 => [] | _ => [ex_m 2 6; ex_m 1 (-1)] end in
  (forall r, r < 3 -> nonneg_weights (ms r)) /\ concat (map ms (seq 0 3)) = ex_ms.
Proof.
  split; [|reflexivity]. intros [|[|r]] _ m k Hm; cbn in Hm; repeat (destruct Hm as [<-|Hm]; [destruct k; discriminate|]); destruct Hm.
Qed.

(** ** C17 *)
Theorem C17_add_rejected_after_getter (nset0 ndata0 n start : nat) (h : list call) (x : nat -> nat -> Qc) (w : nat -> Qc) :
  1 <= n -> nonneg_history h -> closed h = true ->
  exists e, add_measurement x w (calls (sub_init nset0 ndata0 n start) h)
            = (calls (sub_init nset0 ndata0 n start) h, Err (OtherExn e)).
Proof. exact (add_after_getter nset0 ndata0 n start h x w). Qed.
Print Assumptions C17_add_rejected_after_getter.
Theorem C17_add_accepted_before_getter (nset0 ndata0 n start : nat) (h : list call) (x : nat -> nat -> Qc) (w : nat -> Qc) :
  1 <= n -> nonneg_history h -> closed h = false ->
  snd (add_measurement x w (calls (sub_init nset0 ndata0 n start) h)) = Ok tt.
Proof. exact (add_while_open nset0 ndata0 n start h x w). Qed.
Print Assumptions C17_add_accepted_before_getter.
Theorem C17_reset_is_fresh (nset0 ndata0 n start : nat) (h : list call) :
  sub_reset (calls (sub_init nset0 ndata0 n start) h) = sub_init nset0 ndata0 n start.
Proof. exact (reset_fresh nset0 ndata0 n start h). Qed.
Print Assumptions C17_reset_is_fresh.
(** get_mean followed by get_mean_n_cov / get_mean_n_var always fails. *)
Theorem C17_covariance_after_mean_refuted (nset0 ndata0 n start : nat) (ms : list measurement)
  (blockdim : option nat) (b : bool) :
  1 <= n -> 1 <= nset0 -> nonneg_weights ms ->
  (blockdim = None \/ exists d, blockdim = Some d /\ 1 <= d /\ ndata0 mod d = 0) ->
  let s := fst (get_mean (calls (sub_init nset0 ndata0 n start) (map Add ms))) in
  (exists e, snd (get_mean_n_cov None blockdim b s) = Err (OtherExn e)) /\
  (exists e, snd (get_mean_n_var b s) = Err (OtherExn e)).
Proof. exact (mean_then_cov_fails nset0 ndata0 n start ms blockdim b). Qed.
Print Assumptions C17_covariance_after_mean_refuted.
Example C17_ex :
  closed [Add (ex_m 1 3); Var false; Add (ex_m 2 6)] = true /\
  closed [Add (ex_m 1 3); Var false; Reset; Add (ex_m 2 6)] = false.
Proof. split; reflexivity. Qed.

(** ** C18 *)
(** With measurements waiting (no getter yet), get_mean_n_cov returns the
    delete-one jackknife covariance of every data set. *)
Theorem C18_covariance_is_jackknife (nset0 ndata0 n start : nat) (h : list call) (b : bool) :
  1 <= n -> nonneg_history h -> closed h = false ->
  let s := calls (sub_init nset0 ndata0 n start) h in
  exists m covs, snd (get_mean_n_cov None None b s) = Ok (m, covs) /\
    length covs = nset0 /\
    (forall j, j < nset0 -> exists c, nth_error covs j = Some (Some (FullCov c)) /\
       forall a a', c a a' = jackknife n (start mod n) (accepted h) j a a') /\
    forall j k, m j k = if b then (weighted_mean (accepted h) j k - (qnat n - 1) *
         (average n (fun i => delete_one n (start mod n) (accepted h) i j k) - weighted_mean (accepted h) j k))%Qc
       else weighted_mean (accepted h) j k.
Proof. exact (cov_is_jackknife nset0 ndata0 n start h b). Qed.
Print Assumptions C18_covariance_is_jackknife.
(** Whenever get_mean_n_cov answers, in any state. *)
Theorem C18_covariance_is_a_covariance (nset0 ndata0 n start : nat) (h : list call) (b : bool) m covs :
  1 <= n -> 1 <= nset0 -> nonneg_history h ->
  let s := calls (sub_init nset0 ndata0 n start) h in
  snd (get_mean_n_cov None None b s) = Ok (m, covs) ->
  length covs = nset0 /\
  exists v, snd (get_mean_n_var b s) = Ok (m, v) /\
  forall j, j < nset0 -> exists c, nth_error covs j = Some (Some (FullCov c)) /\
    symmetric ndata0 c /\ positive_semidefinite ndata0 c /\
    (forall a, c a a = v j a) /\
    forall d, 1 <= d -> ndata0 mod d = 0 ->
      exists bcovs bl, snd (get_mean_n_cov None (Some d) b s) = Ok (m, bcovs) /\
        nth_error bcovs j = Some (Some (BlockCov (ndata0 / d) d bl)) /\
        forall kk a a', bl kk a a' = c (kk * d + a) (kk * d + a').
Proof. exact (cov_properties nset0 ndata0 n start h b m covs). Qed.
Print Assumptions C18_covariance_is_a_covariance.
Example C18_ex :
  nonneg_history (map Add ex_ms) /\ closed (map Add ex_ms) = false /\
  jackknife 3 1 ex_ms 0 0 0 <> 0%Qc /\ 2 mod 1 = 0 /\
  (exists m covs, snd (get_mean_n_cov None None false (calls (sub_init 1 2 3 1) (map Add ex_ms))) = Ok (m, covs)).
Proof.
  split; [apply adds_nonneg, ex_ms_nonneg|]. split; [reflexivity|].
  split; [intro H; apply (f_equal this) in H; vm_compute in H; discriminate|]. split; [reflexivity|]. 
  destruct (cov_is_jackknife 1 2 3 1 (map Add ex_ms) false) as (m & covs & E & _);
    [lia|apply adds_nonneg, ex_ms_nonneg|reflexivity|]. now exists m, covs.
Qed.

(** ** C19 *)
Theorem C19_square_covariance_symmetric (n : nat) (mean var : nat -> Qc) (cov : nat -> nat -> nat -> Qc) (jj : nat) :
  symmetric n (cov jj) -> symmetric n (block_covariance_of_square n mean var cov jj).
Proof. exact (bcs_symmetric n mean var cov jj). Qed.
Print Assumptions C19_square_covariance_symmetric.
Theorem C19_square_covariance_diagonal (n : nat) (mean var : nat -> Qc) (cov : nat -> nat -> nat -> Qc) (jj a : nat) :
  cov jj a a = var (jj * n + a) ->
  (block_covariance_of_square n mean var cov jj a a
   = zq 2 * (var (jj * n + a)%nat * var (jj * n + a)%nat)
     + zq 4 * (mean (jj * n + a)%nat * mean (jj * n + a)%nat) * var (jj * n + a)%nat)%Qc.
Proof. exact (bcs_diagonal n mean var cov jj a). Qed.
Print Assumptions C19_square_covariance_diagonal.
(** The off-diagonal entry of two uncorrelated quantities is always positive,
    it should be 0. *)
Theorem C19_independent_entries_zero_refuted
  (n : nat) (mean var : nat -> Qc) (cov : nat -> nat -> nat -> Qc) (jj a b : nat) :
  cov jj a b = 0%Qc -> (0 < var (jj * n + a)%nat)%Qc -> (0 < var (jj * n + b)%nat)%Qc ->
  (0 < block_covariance_of_square n mean var cov jj a b)%Qc.
Proof. exact (bcs_independent n mean var cov jj a b). Qed.
Print Assumptions C19_independent_entries_zero_refuted.
(** Exact difference to the covariance 2c^2 + 4 c m_a m_b of the squares of two
    correlated Gaussian quantities. *)
Theorem C19_off_diagonal_excess (n : nat) (mean var : nat -> Qc) (cov : nat -> nat -> nat -> Qc) (jj a b : nat) :
  (block_covariance_of_square n mean var cov jj a b
   = (zq 2 * (cov jj a b * cov jj a b) + zq 4 * cov jj a b * (mean (jj * n + a)%nat * mean (jj * n + b)%nat))
     + ((var (jj * n + a)%nat * var (jj * n + b)%nat - cov jj a b * cov jj a b)
        + (var (jj * n + a)%nat * (mean (jj * n + b)%nat * mean (jj * n + b)%nat)
           + var (jj * n + b)%nat * (mean (jj * n + a)%nat * mean (jj * n + a)%nat)
           - zq 2 * cov jj a b * (mean (jj * n + a)%nat * mean (jj * n + b)%nat))))%Qc.
Proof. exact (bcs_excess n mean var cov jj a b). Qed.
Print Assumptions C19_off_diagonal_excess.
Example C19_ex :
  let var (i : nat) := zq (1 + Z.of_nat i) in
  let cov (jj a b : nat) := if Nat.eqb a b then var (jj * 2 + a) else 0%Qc in
  symmetric 2 (cov 1) /\ cov 1 1 1 = var (1 * 2 + 1) /\ cov 1 0 1 = 0%Qc /\ (0 < var 2%nat)%Qc /\
  block_covariance_of_square 2 (fun _ => zq 1) var cov 1 0 1 = zq 19.
Proof.
  cbn zeta. split.
  { intros a b _ _. destruct (Nat.eqb_spec a b) as [->|H]; [now rewrite Nat.eqb_refl|].
    now destruct (Nat.eqb_spec b a); [subst|]. }
  split; [reflexivity|]. split; [reflexivity|]. split; [reflexivity|]. apply Qc_is_canon. vm_compute. reflexivity.
Qed.
