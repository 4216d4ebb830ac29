(** Closing lemmas for PropSubsample.v. *)
From Coq Require Import String ZArith List Bool Arith Lia Permutation Field Qcanon.
From Verif Require Import Num Exn Mpi NpList NpListFacts ModelSubsample SpecSubsample ProofCatalog ProofMpi ProofSubsample.
Import ListNotations.
Local Open Scope nat_scope.

Lemma history_mean nset0 ndata0 n start h j k :
  1 <= n -> nonneg_history h ->
  snd (get_mean (calls (sub_init nset0 ndata0 n start) h)) j k = weighted_mean (accepted h) j k.
Proof.
  intros Hn Hh. pose proof (history_state nset0 ndata0 n start h Hn Hh) as H. cbn zeta in H.
  apply (get_mean_value n (start mod n)); [easy|now apply accepted_nonneg|].
  destruct (closed h); auto.
Qed.
Lemma history_adds ms : history (map Add ms) = (ms, false).
Proof.
  induction ms as [|m ms IH] using rev_ind; [easy|].
  rewrite map_app. cbn [map]. rewrite history_snoc, IH. reflexivity.
Qed.
Lemma accepted_adds ms : accepted (map Add ms) = ms.
Proof. unfold accepted. now rewrite history_adds. Qed.
Lemma adds_nonneg ms : nonneg_weights ms -> nonneg_history (map Add ms).
Proof.
  intros H m k Hm. apply in_map_iff in Hm. destruct Hm as (m' & [= <-] & Hm). now apply H.
Qed.
Lemma measurements_mean nset0 ndata0 n start ms j k :
  1 <= n -> nonneg_weights ms -> total_weight ms k <> 0%Qc ->
  snd (get_mean (calls (sub_init nset0 ndata0 n start) (map Add ms))) j k
  = (weighted_sum ms j k / total_weight ms k)%Qc.
Proof.
  intros Hn Hw Ht. rewrite history_mean, accepted_adds by (try apply adds_nonneg; easy).
  unfold weighted_mean. apply qeqb_false in Ht. now rewrite Ht.
Qed.
Lemma history_mean_div nset0 ndata0 n start h j k :
  1 <= n -> nonneg_history h -> total_weight (accepted h) k <> 0%Qc ->
  snd (get_mean (calls (sub_init nset0 ndata0 n start) h)) j k
  = (weighted_sum (accepted h) j k / total_weight (accepted h) k)%Qc.
Proof.
  intros Hn Hh Ht. rewrite history_mean by easy. unfold weighted_mean. apply qeqb_false in Ht. now rewrite Ht.
Qed.
Lemma measurements_mean_order nset0 ndata0 n n' start start' ms ms' j k :
  1 <= n -> 1 <= n' -> nonneg_weights ms -> Permutation ms ms' ->
  snd (get_mean (calls (sub_init nset0 ndata0 n start) (map Add ms))) j k
  = snd (get_mean (calls (sub_init nset0 ndata0 n' start') (map Add ms'))) j k.
Proof.
  intros Hn Hn' Hw P.
  assert (nonneg_weights ms') as Hw'.
  { intros m k' Hm. apply Hw. eapply Permutation_in; [symmetry; exact P|exact Hm]. }
  rewrite !history_mean, !accepted_adds by (try apply adds_nonneg; easy). now apply weighted_mean_perm.
Qed.

(** ** MPI *)
Lemma fold_arr_add l a i j k :
  fold_left arr_add l a i j k = (a i j k + qsum (map (fun x => x i j k) l))%Qc.
Proof.
  revert a. induction l as [|x l IH]; intro a; cbn [fold_left map].
  - cbn. ring.
  - rewrite IH, qsum_cons. unfold arr_add. ring.
Qed.

(** all ranks: state after adding the measurements of the rank *)
Definition rank_state nset0 ndata0 n (start : nat -> nat) (ms : nat -> list measurement) (r : nat) : sub :=
  calls (sub_init nset0 ndata0 n (start r)) (map Add (ms r)).

Definition reduced_meas (size : nat) (st : nat -> sub) : arr3 :=
  fold_left arr_add (map (fun r => meas (st r)) (seq 1 (size - 1))) (meas (st 0)).
Definition reduced_wts (size : nat) (st : nat -> sub) : arr3 :=
  fold_left arr_add (map (fun r i (_ : nat) k => wts (st r) i k) (seq 1 (size - 1))) (fun i _ k => wts (st 0) i k).

Lemma allreduce_run {A} size (st : nat -> sub) (k : nat -> sub -> prog arr3 A) :
  1 <= size ->
  spmd size (fun r => sub_allreduce (st r) (k r)) =
  spmd size (fun r => k r (set_data (reduced_meas size st) (fun i k => reduced_wts size st i 0 k) (st r))).
Proof.
  intro H. unfold sub_allreduce. rewrite spmd_allreduce by easy.
  rewrite spmd_allreduce by easy. reflexivity.
Qed.

Lemma qsum_map_seq_S (f : nat -> Qc) n :
  1 <= n -> (f 0%nat + qsum (map f (seq 1 (n - 1))))%Qc = sumn n f.
Proof. intro H. destruct n as [|m]; [lia|]. unfold sumn. cbn. now rewrite Nat.sub_0_r. Qed.

Lemma total_weight_concat l k : total_weight (concat l) k = qsum (map (fun ms => total_weight ms k) l).
Proof. induction l as [|a l IH]; cbn [concat map]; [easy|]. rewrite total_weight_app, IH. reflexivity. Qed.
Lemma weighted_sum_concat l j k : weighted_sum (concat l) j k = qsum (map (fun ms => weighted_sum ms j k) l).
Proof. induction l as [|a l IH]; cbn [concat map]; [easy|]. rewrite weighted_sum_app, IH. reflexivity. Qed.

Lemma reduced_mean size nset0 ndata0 n start ms s0 j k :
  1 <= size -> 1 <= n -> (forall r, r < size -> nonneg_weights (ms r)) ->
  nsamples s0 = n -> normalized s0 = false ->
  let st := rank_state nset0 ndata0 n start ms in
  snd (get_mean (set_data (reduced_meas size st) (fun i k => reduced_wts size st i 0 k) s0)) j k
  = weighted_mean (concat (map ms (seq 0 size))) j k.
Proof.
  intros Hs Hn Hw E0 E1 st.
  assert (forall r, r < size -> open_state n (start r mod n) (ms r) (st r)) as O.
  { intros r Hr. pose proof (history_state nset0 ndata0 n (start r) (map Add (ms r)) Hn (adds_nonneg _ (Hw r Hr))) as H.
    cbn zeta in H. unfold closed, accepted in H. rewrite history_adds in H. exact H. }
  set (X := fun i j k => sumn size (fun r => weighted_sum (in_slot n (start r mod n) i (ms r)) j k)).
  set (W := fun i k => sumn size (fun r => total_weight (in_slot n (start r mod n) i (ms r)) k)).
  assert (forall i j k, i < n -> reduced_meas size st i j k = X i j k) as HX.
  { intros i j' k' Hi. unfold reduced_meas. rewrite fold_arr_add, map_map.
    rewrite (qsum_map_seq_S (fun r => meas (st r) i j' k') size Hs).
    apply sumn_ext. intros r Hr. destruct (O r Hr) as (_ & _ & _ & _ & _ & _ & _ & _ & G & _). now apply G. }
  assert (forall i k, i < n -> reduced_wts size st i 0 k = W i k) as HW.
  { intros i k' Hi. unfold reduced_wts. rewrite fold_arr_add, map_map.
    rewrite (qsum_map_seq_S (fun r => wts (st r) i k') size Hs).
    apply sumn_ext. intros r Hr. destruct (O r Hr) as (_ & _ & _ & _ & _ & _ & _ & _ & _ & G). now apply G. }
  set (s1 := set_data (reduced_meas size st) (fun i k => reduced_wts size st i 0 k) s0).
  assert (forall i k, i < n -> (0 <= W i k)%Qc) as P1.
  { intros i k' Hi. apply sumn_nonneg. intros r Hr. now apply total_weight_nonneg, in_slot_nonneg, Hw. }
  assert (forall i j k, i < n -> W i k = 0%Qc -> X i j k = 0%Qc) as P2.
  { intros i j' k' Hi E. unfold X. erewrite sumn_ext; [apply sumn_0|]. intros r Hr.
    apply zero_weight_zero_sum; [now apply in_slot_nonneg, Hw|].
    apply (sumn_nonneg_0 size (fun r => total_weight (in_slot n (start r mod n) i (ms r)) k')); [|exact E|easy].
    intros q Hq. now apply total_weight_nonneg, in_slot_nonneg, Hw. }
  unfold get_mean. replace (normalized s1) with false by (symmetry; exact E1).
  cbn [snd]. change (nsamples (normalize s1)) with (nsamples s0). rewrite E0.
  rewrite (mean_generic n X W s1 E0 HX HW P1 P2 j k).
  assert (tot n W k = total_weight (concat (map ms (seq 0 size))) k) as ->.
  { unfold tot, W. rewrite sumn_exchange, total_weight_concat, map_map. apply sumn_ext. intros r Hr.
    now apply slots_sum_weight. }
  assert (totx n X j k = weighted_sum (concat (map ms (seq 0 size))) j k) as ->.
  { unfold totx, X. rewrite sumn_exchange, weighted_sum_concat, map_map. apply sumn_ext. intros r Hr.
    now apply slots_sum_weighted. }
  reflexivity.
Qed.

Lemma mpi_mean size nset0 ndata0 n (start : nat -> nat) (ms : nat -> list measurement) :
  1 <= size -> 1 <= n -> (forall r, r < size -> nonneg_weights (ms r)) ->
  exists means,
    spmd size (fun r => sub_allreduce (calls (sub_init nset0 ndata0 n (start r)) (map Add (ms r)))
                          (fun s => Ret (snd (get_mean s)))) = Done (map Finished means) /\
    length means = size /\
    forall m j k, In m means -> m j k = weighted_mean (concat (map ms (seq 0 size))) j k.
Proof.
  intros Hs Hn Hw.
  exists (map (fun r => snd (get_mean (set_data (reduced_meas size (rank_state nset0 ndata0 n start ms))
     (fun i k => reduced_wts size (rank_state nset0 ndata0 n start ms) i 0 k) (rank_state nset0 ndata0 n start ms r)))) (seq 0 size)).
  split; [|split].
  - rewrite (allreduce_run size (rank_state nset0 ndata0 n start ms)) by easy. rewrite spmd_ret, map_map. reflexivity.
  - now rewrite map_length, seq_length.
  - intros m j k Hm. apply in_map_iff in Hm. destruct Hm as (r & <- & Hr). apply in_seq in Hr.
    pose proof (history_state nset0 ndata0 n (start r) (map Add (ms r)) Hn (adds_nonneg _ (Hw r ltac:(lia)))) as H.
    cbn zeta in H. unfold closed, accepted in H. rewrite history_adds in H. destruct H as (E1 & _ & E3 & _).
    now apply reduced_mean.
Qed.

(** All ranks obtain the very same statistics. *)
Definition same_data (s t : sub) : Prop :=
  nsamples s = nsamples t /\ nset s = nset t /\ ndata s = ndata t /\ meas s = meas t /\ wts s = wts t /\
  normalized s = normalized t /\ s_mean s = s_mean t /\ s_cov s = s_cov t /\ s_var s = s_var t /\ s_xdiff s = s_xdiff t.
Lemma get_mean_same s t : same_data s t -> same_data (fst (get_mean s)) (fst (get_mean t)) /\ snd (get_mean s) = snd (get_mean t).
Proof.
  destruct s, t. unfold same_data; cbn. intros (-> & -> & -> & -> & -> & -> & -> & -> & -> & ->).
  unfold get_mean; cbn. destruct normalized0; cbn; repeat split.
Qed.
Lemma ensure_mean_same b s t : same_data s t -> same_data (ensure_mean b s) (ensure_mean b t).
Proof.
  intro H. pose proof (get_mean_same s t H) as [G1 G2]. unfold ensure_mean.
  replace (s_mean t) with (s_mean s) by apply H.
  destruct (s_mean s); [exact H|].
  destruct (get_mean s) as [s1 m1], (get_mean t) as [s2 m2]. cbn [fst snd] in *. subst m2.
  destruct G1 as (E1 & E2 & E3 & E4 & E5 & E6 & E7 & E8 & E9 & E10).
  unfold get_xdiff. rewrite E1, E4, E5. unfold same_data. cbn. repeat (split; [easy|]). easy.
Qed.
Lemma cov_loop_same bd idx s t acc :
  same_data s t ->
  same_data (fst (cov_loop bd idx s acc)) (fst (cov_loop bd idx t acc)) /\
  snd (cov_loop bd idx s acc) = snd (cov_loop bd idx t acc).
Proof.
  intro H. pose proof H as (E1 & E2 & E3 & E4 & E5 & E6 & E7 & E8 & E9 & E10).
  assert (forall c, same_data (set_cov c s) (set_cov c t)) as G.
  { intro c. unfold same_data; cbn. repeat (split; [easy|]). easy. }
  revert acc. induction idx as [|jj idx IH]; intro acc; cbn [cov_loop].
  - split; [apply G|easy].
  - rewrite E10, E2. destruct (s_xdiff t) as [xd|]; [|split; [apply G|easy]].
    destruct (Nat.ltb jj (nset t)); cbn [negb]; [|split; [apply G|easy]].
    destruct bd as [b|]; [|rewrite E1; apply IH].
    unfold get_block_covariance. rewrite E1, E3. apply IH.
Qed.
Lemma cov_same_data idx bd b s t :
  same_data s t -> snd (get_mean_n_cov idx bd b s) = snd (get_mean_n_cov idx bd b t).
Proof.
  intro H. apply (ensure_mean_same b) in H. unfold get_mean_n_cov.
  replace (nset (ensure_mean b s)) with (nset (ensure_mean b t)) by (symmetry; apply H).
  replace (ndata (ensure_mean b s)) with (ndata (ensure_mean b t)) by (symmetry; apply H).
  destruct (match bd with None => _ | Some _ => _ end); [easy|].
  set (l := match idx with Some l => l | None => _ end).
  destruct (cov_loop_same bd l _ _ (repeat None (nset (ensure_mean b t))) H) as [G1 G2].
  destruct (cov_loop bd l (ensure_mean b s) _) as [s1 r1], (cov_loop bd l (ensure_mean b t) _) as [s2 r2].
  cbn [fst snd] in *. subst r2. destruct r1; [|easy].
  destruct G1 as (_ & _ & _ & _ & _ & _ & E7 & E8 & _). rewrite E7, E8.
  now destruct (s_mean s2), (s_cov s2).
Qed.
Lemma var_same_data b s t :
  same_data s t -> snd (get_mean_n_var b s) = snd (get_mean_n_var b t).
Proof.
  intro H. apply (ensure_mean_same b) in H. unfold get_mean_n_var.
  destruct H as (E1 & E2 & E3 & E4 & E5 & E6 & E7 & E8 & E9 & E10). rewrite E10, E1.
  destruct (s_xdiff (ensure_mean b t)); [|easy]. cbn [s_mean set_var]. rewrite E7.
  now destruct (s_mean (ensure_mean b t)).
Qed.

Lemma open_same nset0 ndata0 n start h1 start' h2 D W :
  1 <= n -> nonneg_history h1 -> nonneg_history h2 -> closed h1 = false -> closed h2 = false ->
  same_data (set_data D W (calls (sub_init nset0 ndata0 n start) h1))
            (set_data D W (calls (sub_init nset0 ndata0 n start') h2)).
Proof.
  intros Hn H1 H2 C1 C2.
  pose proof (history_state nset0 ndata0 n start h1 Hn H1) as O1.
  pose proof (history_state nset0 ndata0 n start' h2 Hn H2) as O2. cbn zeta in *. rewrite C1 in O1. rewrite C2 in O2.
  pose proof (calls_shape nset0 ndata0 n start h1) as S1. pose proof (calls_shape nset0 ndata0 n start' h2) as S2. cbn zeta in *.
  destruct O1 as (? & ? & ? & ? & ? & ? & ? & ?), O2 as (? & ? & ? & ? & ? & ? & ? & ?).
  unfold same_data; cbn. intuition congruence.
Qed.

Lemma mpi_cov_same size nset0 ndata0 n (start : nat -> nat) (ms : nat -> list measurement) idx bd b :
  1 <= size -> 1 <= n -> (forall r, r < size -> nonneg_weights (ms r)) ->
  exists rc rv,
    spmd size (fun r => sub_allreduce (calls (sub_init nset0 ndata0 n (start r)) (map Add (ms r)))
                  (fun s => Ret (snd (get_mean_n_cov idx bd b s), snd (get_mean_n_var b s))))
    = Done (repeat (Finished (rc, rv)) size).
Proof.
  intros Hs Hn Hw.
  set (st := rank_state nset0 ndata0 n start ms).
  set (s0 := set_data (reduced_meas size st) (fun i k => reduced_wts size st i 0 k) (st 0)).
  exists (snd (get_mean_n_cov idx bd b s0)), (snd (get_mean_n_var b s0)).
  rewrite (allreduce_run size st) by easy. rewrite spmd_ret. f_equal.
  apply map_seq_const. intros r Hr.
  assert (same_data (set_data (reduced_meas size st) (fun i k => reduced_wts size st i 0 k) (st r)) s0) as Sd.
  { apply open_same; [easy|apply adds_nonneg, Hw; lia|apply adds_nonneg, Hw; lia|..];
      unfold closed; now rewrite history_adds. }
  now rewrite (cov_same_data idx bd b _ _ Sd), (var_same_data b _ _ Sd).
Qed.

(** ** life cycle *)
Lemma add_after_getter nset0 ndata0 n start h x w :
  1 <= n -> nonneg_history h -> closed h = true ->
  exists e, add_measurement x w (calls (sub_init nset0 ndata0 n start) h)
            = (calls (sub_init nset0 ndata0 n start) h, Err (OtherExn e)).
Proof.
  intros Hn Hh Hc. pose proof (history_state nset0 ndata0 n start h Hn Hh) as H. cbn zeta in H. rewrite Hc in H.
  destruct H as (_ & _ & H & _). unfold add_measurement. rewrite H. eauto.
Qed.
Lemma add_while_open nset0 ndata0 n start h x w :
  1 <= n -> nonneg_history h -> closed h = false ->
  snd (add_measurement x w (calls (sub_init nset0 ndata0 n start) h)) = Ok tt.
Proof.
  intros Hn Hh Hc. pose proof (history_state nset0 ndata0 n start h Hn Hh) as H. cbn zeta in H. rewrite Hc in H.
  destruct H as (_ & _ & H & _). unfold add_measurement. now rewrite H.
Qed.
Lemma reset_fresh nset0 ndata0 n start h :
  sub_reset (calls (sub_init nset0 ndata0 n start) h) = sub_init nset0 ndata0 n start.
Proof.
  destruct (calls_shape nset0 ndata0 n start h) as (E1 & E2 & E3 & E4). unfold sub_reset. rewrite E1, E2, E3, E4. reflexivity.
Qed.
Lemma mean_then_cov_fails nset0 ndata0 n start ms bd b :
  1 <= n -> 1 <= nset0 -> nonneg_weights ms -> (bd = None \/ exists d, bd = Some d /\ 1 <= d /\ ndata0 mod d = 0) ->
  let s := fst (get_mean (calls (sub_init nset0 ndata0 n start) (map Add ms))) in
  (exists e, snd (get_mean_n_cov None bd b s) = Err (OtherExn e)) /\
  (exists e, snd (get_mean_n_var b s) = Err (OtherExn e)).
Proof.
  intros Hn Hns Hw Hbd s.
  pose proof (history_state nset0 ndata0 n start (map Add ms) Hn (adds_nonneg _ Hw)) as H. cbn zeta in H.
  unfold closed, accepted in H. rewrite history_adds in H. cbn [fst snd] in H.
  assert (s_xdiff s = None /\ s_mean s <> None /\ nset s = nset0 /\ ndata s = ndata0) as (E1 & E2 & E3 & E4).
  { destruct (calls_shape nset0 ndata0 n start (map Add ms)) as (S1 & S2 & S3 & S4).
    unfold s, get_mean. destruct H as (_ & _ & H1 & _ & _ & _ & H2 & _).
    destruct (normalized (calls (sub_init nset0 ndata0 n start) (map Add ms))); cbn; (split; [exact H2|split; [discriminate|split; [exact S1|exact S2]]]). }
  assert (ensure_mean b s = s) as E5 by (unfold ensure_mean; now destruct (s_mean s)).
  split.
  - unfold get_mean_n_cov. rewrite E5, E3, E4.
    assert (match bd with Some b0 => Nat.eqb b0 0 || negb (Nat.eqb (ndata0 mod b0) 0) | None => false end = false) as ->.
    { destruct Hbd as [->|(d & -> & Hd & Hm)]; [easy|]. rewrite Hm. destruct d; [lia|reflexivity]. }
    destruct nset0 as [|m]; [lia|]. cbn [seq cov_loop]. rewrite E1. cbn. eauto.
  - unfold get_mean_n_var. rewrite E5, E1. cbn. eauto.
Qed.

(** ** jackknife *)
Lemma list_set_length {A} (l : list A) i x : length (list_set l i x) = length l.
Proof. revert i. induction l as [|y l IH]; intros [|i]; cbn; auto. Qed.
Lemma nth_error_list_set {A} (l : list A) i x k :
  nth_error (list_set l i x) k = if Nat.eqb k i then option_map (fun _ => x) (nth_error l k) else nth_error l k.
Proof.
  revert i k. induction l as [|y l IH]; intros [|i] [|k]; cbn; auto.
  - now destruct (Nat.eqb k i).
Qed.
Definition cov_entry (bd : option nat) (s : sub) (xd : arr3) (jj : nat) : covar :=
  match bd with
  | None => FullCov (jack_cov (nsamples s) (fun i k => xd i jj k))
  | Some b => get_block_covariance s (fun i k => xd i jj k) b
  end.
Lemma cov_loop_ok bd idx s xd acc :
  s_xdiff s = Some xd -> (forall j, In j idx -> j < nset s) ->
  exists c, cov_loop bd idx s acc = (set_cov c s, Ok tt) /\ length c = length acc /\
    forall j, nth_error c j =
      if existsb (Nat.eqb j) idx then option_map (fun _ => Some (cov_entry bd s xd j)) (nth_error acc j)
      else nth_error acc j.
Proof.
  intro E. revert acc. induction idx as [|jj idx IH]; intros acc Hi; cbn [cov_loop].
  - exists acc. auto.
  - rewrite E. destruct (Nat.ltb_spec jj (nset s)) as [L|L]; [|specialize (Hi jj (or_introl eq_refl)); lia].
    cbn [negb]. fold (cov_entry bd s xd jj).
    destruct (IH (list_set acc jj (Some (cov_entry bd s xd jj)))) as (c & E1 & E2 & E3); [intros; apply Hi; now right|].
    exists c. split; [exact E1|]. split; [now rewrite E2, list_set_length|].
    intro j. rewrite E3, nth_error_list_set. cbn [existsb].
    destruct (Nat.eqb_spec j jj) as [->|N]; cbn [orb]; [|reflexivity].
    destruct (nth_error acc jj); cbn; now destruct (existsb _ idx).
Qed.
Lemma existsb_seq j n : j < n -> existsb (Nat.eqb j) (seq 0 n) = true.
Proof. intro H. apply existsb_exists. exists j. split; [apply in_seq; lia|apply Nat.eqb_refl]. Qed.

(** the object can be asked for covariances: fresh data, or a first covariance
    request since the last reset *)
Lemma get_cov_ok bd b s xd :
  s_xdiff (ensure_mean b s) = Some xd -> s_mean (ensure_mean b s) <> None ->
  (bd = None \/ exists d, bd = Some d /\ 1 <= d /\ ndata (ensure_mean b s) mod d = 0) ->
  exists m c, get_mean_n_cov None bd b s = (set_cov c (ensure_mean b s), Ok (m, c)) /\
    s_mean (ensure_mean b s) = Some m /\
    length c = nset (ensure_mean b s) /\
    forall j, j < nset (ensure_mean b s) -> nth_error c j = Some (Some (cov_entry bd (ensure_mean b s) xd j)).
Proof.
  intros E1 E2 Hbd. unfold get_mean_n_cov. set (s' := ensure_mean b s) in *. clearbody s'. clear s.
  assert (match bd with Some b0 => Nat.eqb b0 0 || negb (Nat.eqb (ndata s' mod b0) 0) | None => false end = false) as ->.
  { destruct Hbd as [->|(d & -> & Hd & Hm)]; [easy|]. rewrite Hm. destruct d; [lia|reflexivity]. }
  destruct (cov_loop_ok bd (seq 0 (nset s')) s' xd (repeat None (nset s')) E1) as (c & Ec & L & N).
  { intros j Hj. apply in_seq in Hj. lia. }
  destruct (s_mean s') as [m|] eqn:Em; [|easy].
  exists m, c. rewrite Ec. cbn [s_mean s_cov set_cov]. rewrite Em. split; [easy|]. split; [easy|].
  rewrite repeat_length in L. split; [exact L|]. intros j Hj. rewrite N, existsb_seq by easy.
  rewrite (nth_error_nth' _ None) by (rewrite repeat_length; lia). reflexivity.
Qed.

Lemma jack_cov_symmetric n x a b : jack_cov n x a b = jack_cov n x b a.
Proof.
  unfold jack_cov. do 2 f_equal. apply sumn_ext. intros; ring.
Qed.
Lemma jack_cov_psd n x : 1 <= n -> forall d, positive_semidefinite d (jack_cov n x).
Proof.
  intros Hn d v. change (0 <= sumn d (fun a => sumn d (fun b => v a * jack_cov n x a b * v b)))%Qc.
  assert (sumn d (fun a => sumn d (fun b => v a * jack_cov n x a b * v b)) =
          (qnat n - 1) / qnat n * sumn n (fun i => sumn d (fun a => v a * x i a) * sumn d (fun a => v a * x i a)))%Qc as ->.
  { rewrite <- sumn_mult.
    transitivity (sumn d (fun a => sumn n (fun i => (qnat n - 1) / qnat n * (v a * x i a) * sumn d (fun b => v b * x i b)))%Qc).
    - apply sumn_ext. intros a _. unfold jack_cov.
      transitivity (sumn d (fun b => sumn n (fun i => (qnat n - 1) / qnat n * (v a * x i a) * (v b * x i b)))%Qc).
      + apply sumn_ext. intros b _.
        replace (v a * (sumn n (fun i => x i a * x i b) * (qnat n - 1) / qnat n) * v b)%Qc
          with ((v a * v b * ((qnat n - 1) / qnat n)) * sumn n (fun i => x i a * x i b))%Qc by (unfold Qcdiv; ring).
        rewrite <- sumn_mult. apply sumn_ext. intros i _. ring.
      + rewrite sumn_exchange. apply sumn_ext. intros i _. now rewrite sumn_mult.
    - rewrite sumn_exchange. apply sumn_ext. intros i _. rewrite sumn_mult_r, sumn_mult. ring. }
  apply Qcmult_nonneg.
  - apply Qcdiv_nonneg; [|now apply qnat_pos]. pose proof (qnat_ge1 n Hn). qlra.
  - apply sumn_nonneg. intros i _. set (y := sumn d _). clearbody y. qnra.
Qed.

Definition fresh_or_cov (s : sub) : Prop := s_mean s = None \/ s_xdiff s <> None.
Lemma mean_none_open nset0 ndata0 n start h :
  1 <= n -> nonneg_history h -> s_mean (calls (sub_init nset0 ndata0 n start) h) = None ->
  open_state n (start mod n) (accepted h) (calls (sub_init nset0 ndata0 n start) h).
Proof.
  intros Hn Hh E. pose proof (history_state nset0 ndata0 n start h Hn Hh) as H. cbn zeta in H.
  destruct (closed h); [|exact H]. destruct H as (_ & _ & _ & H & _). congruence.
Qed.
Lemma ensured nset0 ndata0 n start h b :
  1 <= n -> nonneg_history h ->
  let s := calls (sub_init nset0 ndata0 n start) h in
  fresh_or_cov s ->
  let s' := ensure_mean b s in
  closed_state n (start mod n) (accepted h) s' /\ nset s' = nset0 /\ ndata s' = ndata0 /\
  s_mean s' <> None /\ exists xd, s_xdiff s' = Some xd.
Proof.
  intros Hn Hh s F s'. destruct (calls_shape nset0 ndata0 n start h) as (S1 & S2 & S3 & S4).
  fold s in S1, S2, S3, S4.
  destruct (s_mean s) as [m|] eqn:Em.
  - assert (s' = s) as -> by (unfold s', ensure_mean; now rewrite Em).
    destruct F as [F|F]; [congruence|].
    pose proof (history_state nset0 ndata0 n start h Hn Hh) as H. cbn zeta in H. fold s in H.
    destruct (closed h).
    + split; [exact H|]. split; [easy|]. split; [easy|]. split; [congruence|]. destruct (s_xdiff s); [eauto|easy].
    + destruct H as (_ & _ & _ & H & _). congruence.
  - pose proof (mean_none_open nset0 ndata0 n start h Hn Hh Em) as O. fold s in O.
    destruct (ensure_mean_open n (start mod n) (accepted h) b s Hn (accepted_nonneg _ Hh) O) as (C & N1 & N2 & X & m & M & _).
    fold s' in C, N1, N2, X, M. split; [exact C|]. split; [congruence|]. split; [congruence|]. split; [congruence|exact X].
Qed.

Lemma jack_cov_jackknife n start ms xd j a b :
  1 <= n ->
  (forall i j k, i < n -> xd i j k = (delete_one n start ms i j k - average n (fun i => delete_one n start ms i j k))%Qc) ->
  jack_cov n (fun i k => xd i j k) a b = jackknife n start ms j a b.
Proof.
  intros Hn H. unfold jack_cov, jackknife.
  rewrite (sumn_ext n (fun i => xd i j a * xd i j b)%Qc
    (fun i => (delete_one n start ms i j a - average n (fun i => delete_one n start ms i j a)) *
              (delete_one n start ms i j b - average n (fun i => delete_one n start ms i j b)))%Qc).
  - fold (sumn n (fun i => (delete_one n start ms i j a - average n (fun i => delete_one n start ms i j a)) *
              (delete_one n start ms i j b - average n (fun i => delete_one n start ms i j b)))%Qc).
    unfold Qcdiv. ring.
  - intros i Hi. now rewrite !H.
Qed.

Lemma cov_is_jackknife nset0 ndata0 n start h b :
  1 <= n -> nonneg_history h -> closed h = false ->
  let s := calls (sub_init nset0 ndata0 n start) h in
  exists m covs, snd (get_mean_n_cov None None b s) = Ok (m, covs) /\
    length covs = nset0 /\
    (forall j, j < nset0 -> exists c, nth_error covs j = Some (Some (FullCov c)) /\
       forall a a', c a a' = jackknife n (start mod n) (accepted h) j a a') /\
    forall j k, m j k = if b then (weighted_mean (accepted h) j k - (qnat n - 1) *
         (average n (fun i => delete_one n (start mod n) (accepted h) i j k) - weighted_mean (accepted h) j k))%Qc
       else weighted_mean (accepted h) j k.
Proof.
  intros Hn Hh Hc s. pose proof (history_state nset0 ndata0 n start h Hn Hh) as H. cbn zeta in H. rewrite Hc in H. fold s in H.
  destruct (calls_shape nset0 ndata0 n start h) as (S1 & S2 & S3 & S4). fold s in S1, S2, S3, S4.
  destruct (ensure_mean_open n (start mod n) (accepted h) b s Hn (accepted_nonneg _ Hh) H) as (C & N1 & N2 & (xd & X) & m & M & Mv).
  destruct (get_cov_ok None b s xd X) as (m' & covs & E & Em & L & N); [congruence|now left|].
  exists m', covs. rewrite E. split; [easy|]. split; [congruence|]. split.
  - intros j Hj. eexists. split; [apply N; congruence|]. intros a a'.
    destruct C as (E1 & _ & _ & _ & _ & _ & D). rewrite E1. apply jack_cov_jackknife; [easy|]. now apply D.
  - intros j k. replace m' with m by congruence. apply Mv.
Qed.

Lemma cov_ok_fresh nset0 ndata0 n start h b m covs :
  1 <= n -> 1 <= nset0 -> nonneg_history h ->
  let s := calls (sub_init nset0 ndata0 n start) h in
  snd (get_mean_n_cov None None b s) = Ok (m, covs) -> fresh_or_cov s.
Proof.
  intros Hn H1 Hh s H. unfold fresh_or_cov. destruct (s_mean s) as [m'|] eqn:Em; [|now left].
  right. intro E. unfold get_mean_n_cov in H.
  assert (ensure_mean b s = s) as E5 by (unfold ensure_mean; now rewrite Em). rewrite E5 in H.
  destruct (calls_shape nset0 ndata0 n start h) as (S1 & _). fold s in S1. rewrite S1 in H.
  destruct nset0 as [|k]; [lia|]. cbn [seq cov_loop] in H. rewrite E in H. discriminate.
Qed.

Lemma cov_properties nset0 ndata0 n start h b m covs :
  1 <= n -> 1 <= nset0 -> nonneg_history h ->
  let s := calls (sub_init nset0 ndata0 n start) h in
  snd (get_mean_n_cov None None b s) = Ok (m, covs) ->
  length covs = nset0 /\
  exists v, snd (get_mean_n_var b s) = Ok (m, v) /\
  forall j, j < nset0 -> exists c, nth_error covs j = Some (Some (FullCov c)) /\
    symmetric ndata0 c /\ positive_semidefinite ndata0 c /\
    (forall a, c a a = v j a) /\
    forall d, 1 <= d -> ndata0 mod d = 0 ->
      exists bcovs bl, snd (get_mean_n_cov None (Some d) b s) = Ok (m, bcovs) /\
        nth_error bcovs j = Some (Some (BlockCov (ndata0 / d) d bl)) /\
        forall kk a a', bl kk a a' = c (kk * d + a) (kk * d + a').
Proof.
  intros Hn H1 Hh s H. pose proof (cov_ok_fresh nset0 ndata0 n start h b m covs Hn H1 Hh H) as F. fold s in F.
  destruct (ensured nset0 ndata0 n start h b Hn Hh F) as (C & N1 & N2 & M & xd & X). fold s in C, N1, N2, M, X.
  destruct (get_cov_ok None b s xd X M) as (m' & covs' & E & Em & L & N); [now left|].
  rewrite E in H. cbn in H. injection H as -> ->.
  split; [congruence|].
  unfold get_mean_n_var. rewrite X. cbn [s_mean set_var]. rewrite Em. eexists. split; [reflexivity|].
  intros j Hj. eexists. split; [apply N; congruence|]. cbn [cov_entry].
  split; [|split; [|split]].
  - intros a a' _ _. apply jack_cov_symmetric.
  - apply jack_cov_psd. destruct C as (-> & _). easy.
  - intro a. unfold jack_cov. reflexivity.
  - intros d Hd Hm.
    destruct (get_cov_ok (Some d) b s xd X M) as (m2 & covs2 & E2 & Em2 & L2 & N2').
    + right. exists d. rewrite N2. auto.
    + exists covs2. eexists. rewrite E2. replace m2 with m by congruence. split; [reflexivity|]. split.
      * rewrite N2' by congruence. cbn [cov_entry]. unfold get_block_covariance. rewrite N2. reflexivity.
      * reflexivity.
Qed.

(** ** block_covariance_of_square *)
Lemma bcs_symmetric n mean var cov jj :
  symmetric n (cov jj) -> symmetric n (block_covariance_of_square n mean var cov jj).
Proof.
  intros H a b Ha Hb. unfold block_covariance_of_square. rewrite (H a b) by easy. ring.
Qed.
Lemma bcs_diagonal n mean var cov jj a :
  cov jj a a = var (jj * n + a) ->
  (block_covariance_of_square n mean var cov jj a a
   = zq 2 * (var (jj * n + a)%nat * var (jj * n + a)%nat)
     + zq 4 * (mean (jj * n + a)%nat * mean (jj * n + a)%nat) * var (jj * n + a)%nat)%Qc.
Proof.
  intro H. unfold block_covariance_of_square. rewrite H.
  replace (zq 4) with (zq 2 + zq 2)%Qc by (rewrite <- zq_plus; reflexivity).
  replace (zq 2) with (1 + 1)%Qc by reflexivity. ring.
Qed.
Lemma bcs_excess n mean var cov jj a b :
  (block_covariance_of_square n mean var cov jj a b
   = (zq 2 * (cov jj a b * cov jj a b) + zq 4 * cov jj a b * (mean (jj * n + a)%nat * mean (jj * n + b)%nat))
     + ((var (jj * n + a)%nat * var (jj * n + b)%nat - cov jj a b * cov jj a b)
        + (var (jj * n + a)%nat * (mean (jj * n + b)%nat * mean (jj * n + b)%nat)
           + var (jj * n + b)%nat * (mean (jj * n + a)%nat * mean (jj * n + a)%nat)
           - zq 2 * cov jj a b * (mean (jj * n + a)%nat * mean (jj * n + b)%nat))))%Qc.
Proof.
  unfold block_covariance_of_square.
  replace (zq 4) with (zq 2 + zq 2)%Qc by (rewrite <- zq_plus; reflexivity).
  replace (zq 2) with (1 + 1)%Qc by reflexivity. ring.
Qed.
Lemma bcs_independent n mean var cov jj a b :
  cov jj a b = 0%Qc -> (0 < var (jj * n + a)%nat)%Qc -> (0 < var (jj * n + b)%nat)%Qc ->
  (0 < block_covariance_of_square n mean var cov jj a b)%Qc.
Proof.
  intros H Ha Hb. unfold block_covariance_of_square. rewrite H.
  set (x := var (jj * n + a)) in *. set (y := var (jj * n + b)) in *.
  set (p := mean (jj * n + a)). set (q := mean (jj * n + b)). clearbody x y p q.
  assert (0 < x * y)%Qc by now apply Qcmult_pos.
  assert (0 <= x * (q * q))%Qc by (apply Qcmult_nonneg; [now apply Qclt_le_weak|qnra]).
  assert (0 <= y * (p * p))%Qc by (apply Qcmult_nonneg; [now apply Qclt_le_weak|qnra]).
  replace (x * y + 0 * 0 + zq 2 * 0 * (p * q) + (x * (q * q) + y * (p * p)))%Qc
    with (x * y + (x * (q * q) + y * (p * p)))%Qc by ring.
  qlra.
Qed.
