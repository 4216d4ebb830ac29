(** Proofs about SubsampleCov. *)
From Coq Require Import String ZArith List Bool Arith Lia Permutation Field Qcanon.
From Verif Require Import Num Exn Mpi NpList NpListFacts ModelSubsample SpecSubsample.
Import ListNotations.
Local Open Scope nat_scope.

(** ** sums *)
Lemma sumn_ext n f g : (forall i, i < n -> f i = g i) -> sumn n f = sumn n g.
Proof.
  intro H. unfold sumn. f_equal. apply map_ext_in. intros i Hi. apply in_seq in Hi. apply H. lia.
Qed.
Lemma sumn_plus n f g : sumn n (fun i => f i + g i)%Qc = (sumn n f + sumn n g)%Qc.
Proof. apply qsum_map_plus. Qed.
Lemma sumn_mult n c f : sumn n (fun i => c * f i)%Qc = (c * sumn n f)%Qc.
Proof. apply qsum_map_mult. Qed.
Lemma sumn_mult_r n c f : sumn n (fun i => f i * c)%Qc = (sumn n f * c)%Qc.
Proof.
  rewrite Qcmult_comm, <- sumn_mult. apply sumn_ext. intros; apply Qcmult_comm.
Qed.
Lemma sumn_0 n : sumn n (fun _ => 0%Qc) = 0%Qc.
Proof. apply qsum_map_0. Qed.
Lemma sumn_S n f : sumn (S n) f = (sumn n f + f n)%Qc.
Proof. unfold sumn. rewrite seq_S, map_app, qsum_app. cbn. ring. Qed.
Lemma sumn_exchange n m (f : nat -> nat -> Qc) :
  sumn n (fun i => sumn m (fun j => f i j)) = sumn m (fun j => sumn n (fun i => f i j)).
Proof.
  induction n as [|n IH].
  - unfold sumn at 1. cbn. symmetry. erewrite sumn_ext; [apply sumn_0|]. reflexivity.
  - rewrite sumn_S, IH, <- sumn_plus. apply sumn_ext. intros j _. now rewrite sumn_S.
Qed.
Lemma sumn_nonneg n f : (forall i, i < n -> (0 <= f i)%Qc) -> (0 <= sumn n f)%Qc.
Proof.
  intro H. apply qsum_nonneg. rewrite Forall_forall. intros x Hx. apply in_map_iff in Hx.
  destruct Hx as (i & <- & Hi). apply in_seq in Hi. apply H. lia.
Qed.
Lemma sumn_nonneg_0 n f :
  (forall i, i < n -> (0 <= f i)%Qc) -> sumn n f = 0%Qc -> forall i, i < n -> f i = 0%Qc.
Proof.
  induction n as [|n IH]; intros H E i Hi; [lia|]. rewrite sumn_S in E.
  assert (0 <= sumn n f)%Qc as H1 by (apply sumn_nonneg; auto).
  assert (0 <= f n)%Qc as H2 by auto.
  destruct (Nat.eq_dec i n) as [->|Hn].
  - qlra.
  - apply IH; [auto| |lia]. qlra.
Qed.
Lemma sumn_split n f i :
  i < n -> sumn n f = (f i + sumn n (fun l => if Nat.eqb l i then 0 else f l))%Qc.
Proof.
  induction n as [|n IH]; intro H; [lia|]. rewrite !sumn_S.
  destruct (Nat.eqb_spec n i) as [->|E].
  - rewrite (sumn_ext i (fun l => if Nat.eqb l i then 0%Qc else f l) f).
    + ring.
    + intros l Hl. destruct (Nat.eqb_spec l i); [lia|easy].
  - rewrite IH by lia. ring.
Qed.
Lemma sumn_single n f i :
  i < n -> sumn n (fun l => if Nat.eqb l i then f l else 0%Qc) = f i.
Proof.
  intro H. rewrite (sumn_split n _ i H), Nat.eqb_refl.
  erewrite sumn_ext; [rewrite sumn_0; ring|]. intros l _. cbn. now destruct (Nat.eqb l i).
Qed.
Lemma qnat_pos n : 1 <= n -> (0 < qnat n)%Qc.
Proof. intro H. unfold qnat. rewrite <- zq_0. apply zq_lt. lia. Qed.
Lemma qnat_ge1 n : 1 <= n -> (1 <= qnat n)%Qc.
Proof. intro H. unfold qnat. rewrite <- zq_1. apply zq_le. lia. Qed.
Lemma eps_pos : (0 < eps)%Qc. Proof. reflexivity. Qed.

(** ** weighted sums *)
Lemma total_weight_app a b k : total_weight (a ++ b) k = (total_weight a k + total_weight b k)%Qc.
Proof. unfold total_weight. now rewrite map_app, qsum_app. Qed.
Lemma weighted_sum_app a b j k : weighted_sum (a ++ b) j k = (weighted_sum a j k + weighted_sum b j k)%Qc.
Proof. unfold weighted_sum. now rewrite map_app, qsum_app. Qed.
Lemma total_weight_perm a b k : Permutation a b -> total_weight a k = total_weight b k.
Proof. intro H. unfold total_weight. now apply qsum_perm, Permutation_map. Qed.
Lemma weighted_sum_perm a b j k : Permutation a b -> weighted_sum a j k = weighted_sum b j k.
Proof. intro H. unfold weighted_sum. now apply qsum_perm, Permutation_map. Qed.
Lemma weighted_mean_perm a b j k : Permutation a b -> weighted_mean a j k = weighted_mean b j k.
Proof.
  intro H. unfold weighted_mean. now rewrite (total_weight_perm _ _ _ H), (weighted_sum_perm _ _ _ _ H).
Qed.
Lemma total_weight_nonneg ms k : nonneg_weights ms -> (0 <= total_weight ms k)%Qc.
Proof.
  intro H. apply qsum_nonneg. rewrite Forall_forall. intros x Hx. apply in_map_iff in Hx.
  destruct Hx as (m & <- & Hm). auto.
Qed.
Lemma zero_weight_zero_sum ms j k :
  nonneg_weights ms -> total_weight ms k = 0%Qc -> weighted_sum ms j k = 0%Qc.
Proof.
  induction ms as [|m ms IH]; intros Hn E; [easy|].
  unfold total_weight, weighted_sum in *. cbn [map] in *. rewrite qsum_cons in *.
  assert (0 <= weight m k)%Qc as H1 by (apply Hn; now left).
  assert (nonneg_weights ms) as Hn' by (intros x y Hx; apply Hn; now right).
  assert (0 <= qsum (map (fun m => weight m k) ms))%Qc as H2 by (apply total_weight_nonneg; easy).
  rewrite IH; [|easy|qlra]. replace (weight m k) with 0%Qc by qlra. ring.
Qed.

(** ** slots *)
(** measurements of slot i *)
Definition in_slot (n start i : nat) (ms : list measurement) : list measurement :=
  map snd (filter (fun p => Nat.eqb ((start + fst p) mod n) i) (combine (seq 0 (length ms)) ms)).

Lemma combine_app {A B} (a1 a2 : list A) (b1 b2 : list B) :
  length a1 = length b1 -> combine (a1 ++ a2) (b1 ++ b2) = combine a1 b1 ++ combine a2 b2.
Proof.
  revert b1. induction a1 as [|x a1 IH]; intros [|y b1] H; cbn in *; try discriminate; [easy|].
  f_equal. apply IH. now injection H.
Qed.
Lemma in_slot_snoc n start i ms m :
  in_slot n start i (ms ++ [m]) =
  in_slot n start i ms ++ (if Nat.eqb ((start + length ms) mod n) i then [m] else []).
Proof.
  unfold in_slot. rewrite app_length, Nat.add_1_r, seq_S, combine_app by apply seq_length.
  cbn [combine Nat.add]. rewrite filter_app, map_app. f_equal. cbn.
  now destruct (Nat.eqb _ i).
Qed.
Lemma filter_negb_perm {A} (p : A -> bool) l :
  Permutation (filter p l ++ filter (fun x => negb (p x)) l) l.
Proof.
  induction l as [|x l IH]; cbn; [easy|]. destruct (p x); cbn.
  - now constructor.
  - rewrite <- Permutation_middle. now constructor.
Qed.
Lemma map_snd_combine_seq {A} s (l : list A) : map snd (combine (seq s (length l)) l) = l.
Proof. revert s. induction l as [|x l IH]; intro s; cbn; [easy|]. now rewrite IH. Qed.
Lemma in_slot_others n start i ms : Permutation (in_slot n start i ms ++ others n start i ms) ms.
Proof.
  unfold in_slot, others. rewrite <- map_app, filter_negb_perm, map_snd_combine_seq. easy.
Qed.
Lemma in_slot_nonneg n start i ms : nonneg_weights ms -> nonneg_weights (in_slot n start i ms).
Proof.
  intros H m k Hm. apply H. eapply Permutation_in; [apply (in_slot_others n start i)|].
  apply in_app_iff. now left.
Qed.
Lemma others_nonneg n start i ms : nonneg_weights ms -> nonneg_weights (others n start i ms).
Proof.
  intros H m k Hm. apply H. eapply Permutation_in; [apply (in_slot_others n start i)|].
  apply in_app_iff. now right.
Qed.
Lemma slots_sum_weight n start ms k :
  1 <= n -> sumn n (fun i => total_weight (in_slot n start i ms) k) = total_weight ms k.
Proof.
  intro Hn. induction ms as [|m ms IH] using rev_ind.
  - erewrite sumn_ext; [apply sumn_0|]. reflexivity.
  - rewrite total_weight_app, <- IH.
    erewrite sumn_ext; [|intros i _; rewrite in_slot_snoc, total_weight_app; reflexivity].
    rewrite sumn_plus. f_equal.
    erewrite sumn_ext; [apply (sumn_single n (fun _ => total_weight [m] k) ((start + length ms) mod n))|].
    + apply Nat.mod_upper_bound. lia.
    + intros i _. cbn beta. rewrite (Nat.eqb_sym i). now destruct (Nat.eqb _ i).
Qed.
Lemma slots_sum_weighted n start ms j k :
  1 <= n -> sumn n (fun i => weighted_sum (in_slot n start i ms) j k) = weighted_sum ms j k.
Proof.
  intro Hn. induction ms as [|m ms IH] using rev_ind.
  - erewrite sumn_ext; [apply sumn_0|]. reflexivity.
  - rewrite weighted_sum_app, <- IH.
    erewrite sumn_ext; [|intros i _; rewrite in_slot_snoc, weighted_sum_app; reflexivity].
    rewrite sumn_plus. f_equal.
    erewrite sumn_ext; [apply (sumn_single n (fun _ => weighted_sum [m] j k) ((start + length ms) mod n))|].
    + apply Nat.mod_upper_bound. lia.
    + intros i _. cbn beta. rewrite (Nat.eqb_sym i). now destruct (Nat.eqb _ i).
Qed.

(** ** open states: the arrays hold the slot sums *)
Definition open_state (n start : nat) (ms : list measurement) (s : sub) : Prop :=
  nsamples s = n /\ istart s = start /\
  normalized s = false /\ s_mean s = None /\ s_cov s = None /\ s_var s = None /\ s_xdiff s = None /\
  isample s = (start + length ms) mod n /\
  (forall i j k, i < n -> meas s i j k = weighted_sum (in_slot n start i ms) j k) /\
  (forall i k, (i < n)%nat -> wts s i k = total_weight (in_slot n start i ms) k).

Lemma init_open nset ndata n start :
  1 <= n -> open_state n (start mod n) [] (sub_init nset ndata n start).
Proof.
  intro Hn. unfold open_state; cbn. repeat (split; [easy|]). split; [|easy].
  rewrite Nat.add_0_r, Nat.mod_mod by lia. easy.
Qed.
Lemma reset_open n start ms s :
  1 <= n -> start < n -> nsamples s = n -> istart s = start -> open_state n start ms s ->
  open_state n start [] (sub_reset s).
Proof.
  intros Hn Hs E1 E2 _. unfold open_state; cbn. repeat (split; [easy|]). split; [|easy].
  rewrite Nat.add_0_r, Nat.mod_small by lia. easy.
Qed.
Lemma add_open n start ms s m :
  1 <= n -> open_state n start ms s ->
  snd (add_measurement (fun j k => weight m k * value m j k)%Qc (weight m) s) = Ok tt /\
  open_state n start (ms ++ [m])
    (fst (add_measurement (fun j k => weight m k * value m j k)%Qc (weight m) s)).
Proof.
  intros Hn (E1 & E2 & E3 & E4 & E5 & E6 & E7 & E8 & E9 & E10).
  unfold add_measurement. rewrite E3. split; [easy|].
  unfold open_state; cbn. repeat (split; [easy|]).
  split; [|split].
  - rewrite E1, E8, app_length. cbn. rewrite Nat.add_mod_idemp_l by lia. f_equal. lia.
  - intros i j k Hi. rewrite in_slot_snoc, weighted_sum_app, E9 by easy. rewrite E8, Nat.eqb_sym.
    destruct (Nat.eqb _ i); cbn; unfold weighted_sum; cbn; ring.
  - intros i k Hi. rewrite in_slot_snoc, total_weight_app, E10 by easy. rewrite E8, Nat.eqb_sym.
    destruct (Nat.eqb _ i); cbn; unfold total_weight; cbn; ring.
Qed.

(** ** normalised states *)
(** product of normalised measurement and weight *)
Lemma normalized_product x w norm :
  (w = 0 -> x = 0)%Qc -> (norm = 0 -> w = 0)%Qc ->
  ((if qeqb w 0 then x else x / w) * (if qeqb norm 0 then w else w / norm)
   = if qeqb norm 0 then 0 else x / norm)%Qc.
Proof.
  intros H1 H2. destruct (qeqb norm 0) eqn:En; qcase_in En.
  - rewrite (H2 En), (H1 (H2 En)). cbn. unfold qeqb. cbn. ring.
  - destruct (qeqb w 0) eqn:Ew; qcase_in Ew.
    + rewrite (H1 Ew), Ew. field. easy.
    + field. auto.
Qed.

(** Generic: slots i < n hold sums X i j k, W i k. *)
Section Norm.
Variables (n : nat) (X : nat -> nat -> nat -> Qc) (W : nat -> nat -> Qc) (s : sub).
Hypothesis Hns : nsamples s = n.
Hypothesis HX : forall i j k, i < n -> meas s i j k = X i j k.
Hypothesis HW : forall i k, (i < n)%nat -> wts s i k = W i k.
Hypothesis HW0 : forall i k, i < n -> (0 <= W i k)%Qc.
Hypothesis HX0 : forall i j k, i < n -> W i k = 0%Qc -> X i j k = 0%Qc.
Definition tot k := sumn n (fun i => W i k).
Definition totx j k := sumn n (fun i => X i j k).

Lemma norm_eq k : sumn (nsamples s) (fun i => wts s i k) = tot k.
Proof. rewrite Hns. apply sumn_ext. auto. Qed.
Lemma tot_0 k : tot k = 0%Qc -> forall i, i < n -> W i k = 0%Qc.
Proof. intros H i Hi. eapply (sumn_nonneg_0 n (fun i => W i k)); auto. Qed.

Lemma normalize_product i j k :
  i < n -> (meas (normalize s) i j k * wts (normalize s) i k
            = if qeqb (tot k) 0 then 0 else X i j k / tot k)%Qc.
Proof.
  intro Hi. cbn [normalize meas wts]. rewrite norm_eq, HX, HW by easy.
  apply normalized_product; [auto|]. intro E. now apply tot_0.
Qed.
Lemma normalize_weight i k :
  i < n -> (wts (normalize s) i k = if qeqb (tot k) 0 then 0 else W i k / tot k)%Qc.
Proof.
  intro Hi. cbn [normalize wts]. rewrite norm_eq, HW by easy.
  destruct (qeqb (tot k) 0) eqn:E; [|easy]. qcase_in E. now apply tot_0.
Qed.
Lemma mean_generic j k :
  (sumn n (fun i => meas (normalize s) i j k * wts (normalize s) i k)
   = if qeqb (tot k) 0 then 0 else totx j k / tot k)%Qc.
Proof.
  erewrite sumn_ext; [|intros i Hi; apply normalize_product, Hi].
  destruct (qeqb (tot k) 0); [apply sumn_0|].
  unfold Qcdiv. now rewrite sumn_mult_r.
Qed.
(** the delete-one estimate *)
Lemma jack_generic i j k :
  i < n ->
  (((if qeqb (tot k) 0 then 0 else totx j k / tot k)
    - meas (normalize s) i j k * wts (normalize s) i k) / (1 - wts (normalize s) i k + eps)
   = if qeqb (tot k) 0 then 0
     else (totx j k - X i j k) / (tot k - W i k + eps * tot k))%Qc.
Proof.
  intro Hi. rewrite normalize_product, normalize_weight by easy.
  destruct (qeqb (tot k) 0) eqn:E; qcase_in E.
  - unfold Qcdiv. ring.
  - assert (0 <= W i k)%Qc as H1 by auto.
    assert (0 <= tot k)%Qc as H2 by (apply sumn_nonneg; auto).
    assert (W i k <= tot k)%Qc as H3.
    { unfold tot. rewrite (sumn_split n _ i Hi).
      assert (0 <= sumn n (fun l => if Nat.eqb l i then 0 else W l k))%Qc; [|qlra].
      apply sumn_nonneg. intros l Hl. destruct (Nat.eqb l i); [apply Qcle_refl|auto]. }
    assert (0 < tot k)%Qc as H4 by (destruct (Qc_dec 0 (tot k)); [congruence|]; apply Qcnot_le_lt; intro; apply E; apply Qcle_antisym; easy).
    pose proof eps_pos as He.
    assert (0 < tot k - W i k + eps * tot k)%Qc as H5.
    { assert (0 < eps * tot k)%Qc by now apply Qcmult_pos. qlra. }
    assert (0 < 1 - W i k / tot k + eps)%Qc as H6.
    { replace (1 - W i k / tot k + eps)%Qc with ((tot k - W i k + eps * tot k) / tot k)%Qc by (field; easy).
      now apply Qcdiv_pos. }
    field. repeat split; try easy; intro C.
    apply (Qc_pos_neq _ H5). rewrite <- C. ring.
Qed.
End Norm.

Lemma tot_slots n start ms k : 1 <= n ->
  tot n (fun i k => total_weight (in_slot n start i ms) k) k = total_weight ms k.
Proof. intro Hn. unfold tot. now apply slots_sum_weight. Qed.
Lemma totx_slots n start ms j k : 1 <= n ->
  totx n (fun i j k => weighted_sum (in_slot n start i ms) j k) j k = weighted_sum ms j k.
Proof. intro Hn. unfold totx. now apply slots_sum_weighted. Qed.

(** the state after the first getter *)
Definition closed_state (n start : nat) (ms : list measurement) (s : sub) : Prop :=
  nsamples s = n /\ istart s = start /\ normalized s = true /\ s_mean s <> None /\
  (forall i k, (i < n)%nat -> wts s i k = if qeqb (total_weight ms k) 0 then 0
                 else total_weight (in_slot n start i ms) k / total_weight ms k)%Qc /\
  (forall i j k, (i < n)%nat -> (meas s i j k * wts s i k)%Qc
                 = if qeqb (total_weight ms k) 0 then 0
                   else weighted_sum (in_slot n start i ms) j k / total_weight ms k)%Qc /\
  (forall xd, s_xdiff s = Some xd -> forall i j k, (i < n)%nat ->
      xd i j k = delete_one n start ms i j k - average n (fun i => delete_one n start ms i j k))%Qc.

Lemma normalize_closed_data n start ms s :
  1 <= n -> nonneg_weights ms -> open_state n start ms s ->
  let s' := normalize s in
  (forall i k, (i < n)%nat -> wts s' i k = if qeqb (total_weight ms k) 0 then 0
                 else total_weight (in_slot n start i ms) k / total_weight ms k)%Qc /\
  (forall i j k, (i < n)%nat -> (meas s' i j k * wts s' i k)%Qc
                 = if qeqb (total_weight ms k) 0 then 0
                   else weighted_sum (in_slot n start i ms) j k / total_weight ms k)%Qc.
Proof.
  intros Hn Hw (E1 & E2 & E3 & E4 & E5 & E6 & E7 & E8 & E9 & E10) s'.
  assert (forall i k, i < n -> (0 <= total_weight (in_slot n start i ms) k)%Qc) as P1
    by (intros; apply total_weight_nonneg, in_slot_nonneg; easy).
  assert (forall i j k, i < n -> total_weight (in_slot n start i ms) k = 0%Qc ->
            weighted_sum (in_slot n start i ms) j k = 0%Qc) as P2
    by (intros; apply zero_weight_zero_sum; [apply in_slot_nonneg|]; easy).
  split.
  - intros i k Hi. unfold s'.
    rewrite (normalize_weight n (fun i k => total_weight (in_slot n start i ms) k) s E1 E10 P1 i k Hi).
    now rewrite tot_slots.
  - intros i j k Hi. unfold s'.
    rewrite (normalize_product n _ _ s E1 E9 E10 P1 P2 i j k Hi).
    now rewrite tot_slots.
Qed.

Lemma mean_of_data n start ms s j k :
  1 <= n ->
  (forall i j k, (i < n)%nat -> (meas s i j k * wts s i k)%Qc
                 = if qeqb (total_weight ms k) 0 then 0
                   else weighted_sum (in_slot n start i ms) j k / total_weight ms k)%Qc ->
  sumn n (fun i => meas s i j k * wts s i k)%Qc = weighted_mean ms j k.
Proof.
  intros Hn H. erewrite sumn_ext; [|intros i Hi; apply H, Hi]. unfold weighted_mean.
  destruct (qeqb (total_weight ms k) 0); [apply sumn_0|].
  unfold Qcdiv. rewrite sumn_mult_r, slots_sum_weighted by easy. easy.
Qed.

Lemma jack_of_data n start ms s i j k :
  1 <= n -> nonneg_weights ms -> i < n ->
  (forall i k, (i < n)%nat -> wts s i k = if qeqb (total_weight ms k) 0 then 0
                 else total_weight (in_slot n start i ms) k / total_weight ms k)%Qc ->
  (forall i j k, (i < n)%nat -> (meas s i j k * wts s i k)%Qc
                 = if qeqb (total_weight ms k) 0 then 0
                   else weighted_sum (in_slot n start i ms) j k / total_weight ms k)%Qc ->
  ((weighted_mean ms j k - meas s i j k * wts s i k) / (1 - wts s i k + eps)
   = delete_one n start ms i j k)%Qc.
Proof.
  intros Hn Hw Hi HW HX. rewrite HX, HW by easy. unfold weighted_mean, delete_one.
  destruct (qeqb (total_weight ms k) 0) eqn:E; qcase_in E.
  - unfold Qcdiv. ring.
  - assert (total_weight (in_slot n start i ms) k + total_weight (others n start i ms) k = total_weight ms k)%Qc as E1.
    { rewrite <- total_weight_app. apply total_weight_perm, in_slot_others. }
    assert (weighted_sum (in_slot n start i ms) j k + weighted_sum (others n start i ms) j k = weighted_sum ms j k)%Qc as E2.
    { rewrite <- weighted_sum_app. apply weighted_sum_perm, in_slot_others. }
    assert (0 <= total_weight (others n start i ms) k)%Qc as H1 by (apply total_weight_nonneg, others_nonneg; easy).
    assert (0 <= total_weight ms k)%Qc as H2 by (apply total_weight_nonneg; easy).
    assert (0 < total_weight ms k)%Qc as H4 by (apply Qcnot_le_lt; intro; apply E; apply Qcle_antisym; easy).
    pose proof eps_pos as He.
    assert (0 < total_weight (others n start i ms) k + eps * total_weight ms k)%Qc as H5.
    { assert (0 < eps * total_weight ms k)%Qc by now apply Qcmult_pos. qlra. }
    rewrite <- E2.
    replace (total_weight (in_slot n start i ms) k) with (total_weight ms k - total_weight (others n start i ms) k)%Qc
      by (rewrite <- E1; ring).
    generalize dependent (total_weight (others n start i ms) k). intros wo E1 H1 H5.
    clear E1 E2. generalize dependent (total_weight ms k). intros T E H2 H4 H5.
    assert (1 - (T - wo) / T + eps = (wo + eps * T) / T)%Qc as E3.
    { field. exact E. }
    rewrite E3. field. split; [apply Qc_pos_neq, H5|exact E].
Qed.

Lemma get_mean_value n start ms s j k :
  1 <= n -> nonneg_weights ms -> open_state n start ms s \/ closed_state n start ms s ->
  snd (get_mean s) j k = weighted_mean ms j k.
Proof.
  intros Hn Hw [H|H].
  - pose proof (normalize_closed_data _ _ _ _ Hn Hw H) as [_ D].
    destruct H as (E1 & E2 & E3 & _). unfold get_mean. rewrite E3. cbn [snd].
    change (nsamples (normalize s)) with (nsamples s). rewrite E1. now apply (mean_of_data n start).
  - destruct H as (E1 & E2 & E3 & E4 & D1 & D2 & _). unfold get_mean. rewrite E3. cbn [snd].
    rewrite E1. now apply (mean_of_data n start).
Qed.

Lemma get_mean_closed n start ms s :
  1 <= n -> nonneg_weights ms -> open_state n start ms s \/ closed_state n start ms s ->
  closed_state n start ms (fst (get_mean s)).
Proof.
  intros Hn Hw [H|H].
  - pose proof (normalize_closed_data _ _ _ _ Hn Hw H) as [D1 D2].
    destruct H as (E1 & E2 & E3 & E4 & E5 & E6 & E7 & _). unfold get_mean. rewrite E3.
    unfold closed_state; cbn [fst nsamples istart normalized s_mean wts meas s_xdiff set_mean].
    split; [exact E1|]. split; [exact E2|]. split; [easy|]. split; [easy|].
    split; [exact D1|]. split; [exact D2|]. intros xd E. cbn in E. rewrite E7 in E. discriminate.
  - destruct H as (E1 & E2 & E3 & E4 & D1 & D2 & D3). unfold get_mean. rewrite E3.
    unfold closed_state; cbn [fst nsamples istart normalized s_mean wts meas s_xdiff set_mean].
    repeat (split; [easy|]). exact D3.
Qed.

(** ensure_mean *)
Lemma ensure_mean_open n start ms b s :
  1 <= n -> nonneg_weights ms -> open_state n start ms s ->
  let s' := ensure_mean b s in
  closed_state n start ms s' /\ nset s' = nset s /\ ndata s' = ndata s /\
  (exists xd, s_xdiff s' = Some xd) /\
  exists m, s_mean s' = Some m /\
    forall j k, m j k = if b then (weighted_mean ms j k - (qnat n - 1) *
                                   (average n (fun i => delete_one n start ms i j k) - weighted_mean ms j k))%Qc
                        else weighted_mean ms j k.
Proof.
  intros Hn Hw H s'. pose proof (get_mean_closed _ _ _ _ Hn Hw (or_introl H)) as C.
  pose proof (fun j k => get_mean_value _ _ _ _ j k Hn Hw (or_introl H)) as V.
  assert (nset (fst (get_mean s)) = nset s /\ ndata (fst (get_mean s)) = ndata s) as [En Ed].
  { unfold get_mean. now destruct (normalized s). }
  unfold s', ensure_mean. destruct H as (_ & _ & _ & E4 & _). rewrite E4.
  destruct (get_mean s) as [t m] eqn:Eg. cbn [fst snd] in *.
  destruct C as (E1 & E2 & E3 & E5 & D1 & D2 & _).
  assert (forall i j k, i < n ->
     ((m j k - meas t i j k * wts t i k) / (1 - wts t i k + eps) = delete_one n start ms i j k)%Qc) as J.
  { intros i j k Hi. rewrite V. now apply jack_of_data. }
  assert (forall j k, (sumn (nsamples t) (fun i => (m j k - meas t i j k * wts t i k) / (1 - wts t i k + eps))
                       / qnat (nsamples t) = average n (fun i => delete_one n start ms i j k))%Qc) as A.
  { intros j k. rewrite E1. unfold average. f_equal. apply sumn_ext. intros i Hi. now apply J. }
  unfold get_xdiff. cbn [set_mean_xdiff fst].
  split; [|split; [exact En|split; [exact Ed|split; [eexists; reflexivity|]]]].
  - unfold closed_state. cbn [fst nsamples istart normalized s_mean wts meas s_xdiff set_mean_xdiff].
    repeat (split; [easy|]). intros xd [= <-] i j k Hi. rewrite A. f_equal. now apply J.
  - eexists. split; [reflexivity|]. intros j k. destruct b; [|apply V].
    rewrite A, V, E1. reflexivity.
Qed.

Lemma ensure_mean_closed n start ms b s :
  closed_state n start ms s -> ensure_mean b s = s.
Proof.
  intros (_ & _ & _ & H & _). unfold ensure_mean. now destruct (s_mean s).
Qed.

Lemma set_cov_closed n start ms c s :
  closed_state n start ms s -> closed_state n start ms (set_cov c s).
Proof. intro H; exact H. Qed.
Lemma set_var_closed n start ms c s :
  closed_state n start ms s -> closed_state n start ms (set_var c s).
Proof. intro H; exact H. Qed.

Lemma cov_loop_state bd idx s acc : exists c, fst (cov_loop bd idx s acc) = set_cov c s.
Proof.
  revert acc. induction idx as [|jj idx IH]; intro acc; cbn [cov_loop]; [cbn; eauto|].
  destruct (s_xdiff s) as [xd|]; [|cbn; eauto]. destruct (Nat.ltb jj (nset s)); cbn [negb]; [|cbn; eauto]. apply IH.
Qed.

Lemma ensure_mean_any n start ms b s :
  1 <= n -> nonneg_weights ms -> open_state n start ms s \/ closed_state n start ms s ->
  closed_state n start ms (ensure_mean b s).
Proof.
  intros Hn Hw [H|H].
  - now apply ensure_mean_open.
  - now rewrite (ensure_mean_closed n start ms).
Qed.

Lemma getter_closed n start ms s c :
  1 <= n -> nonneg_weights ms -> open_state n start ms s \/ closed_state n start ms s ->
  is_getter c = true -> closed_state n start ms (sub_call s (to_op c)).
Proof.
  intros Hn Hw H. destruct c as [m| |idx bd b|b|]; try discriminate; intros _; cbn [to_op sub_call].
  - now apply get_mean_closed.
  - pose proof (ensure_mean_any n start ms b s Hn Hw H) as C.
    unfold get_mean_n_cov. destruct (match bd with None => _ | Some _ => _ end); [exact C|].
    destruct (cov_loop bd _ (ensure_mean b s) _) as [s1 r] eqn:El.
    destruct (cov_loop_state bd (match idx with Some l => l | None => seq 0 (nset (ensure_mean b s)) end)
                (ensure_mean b s) (repeat None (nset (ensure_mean b s)))) as [cv Ec].
    rewrite El in Ec. cbn in Ec. subst s1.
    destruct r; [|now apply set_cov_closed].
    cbn [s_mean s_cov set_cov]. destruct (s_mean (ensure_mean b s)); now apply set_cov_closed.
  - pose proof (ensure_mean_any n start ms b s Hn Hw H) as C.
    unfold get_mean_n_var. destruct (s_xdiff (ensure_mean b s)); [|exact C].
    cbn [s_mean set_var]. destruct (s_mean (ensure_mean b s)); now apply set_var_closed.
Qed.

(** ** histories *)
Lemma history_snoc h c : history (h ++ [c]) = history_step (history h) c.
Proof. unfold history. now rewrite fold_left_app. Qed.
Lemma accepted_nonneg h : nonneg_history h -> nonneg_weights (accepted h).
Proof.
  induction h as [|c h IH] using rev_ind; intros H m k; [easy|].
  unfold accepted. rewrite history_snoc. specialize (IH (fun m k Hm => H m k ltac:(apply in_app_iff; now left))).
  destruct c; cbn; auto.
  - fold (closed h). destruct (closed h); [apply IH|]. cbn. intro Hm. apply in_app_iff in Hm.
    destruct Hm as [Hm|[<-|[]]]; [now apply IH|]. apply H. apply in_app_iff. right. now left.
  - intros [].
Qed.

Lemma calls_snoc s h c : calls s (h ++ [c]) = sub_call (calls s h) (to_op c).
Proof. unfold calls, sub_calls. rewrite map_app, fold_left_app. easy. Qed.

Lemma history_state nset ndata n istart0 h :
  1 <= n -> nonneg_history h ->
  let s := calls (sub_init nset ndata n istart0) h in
  let start := istart0 mod n in
  if closed h then closed_state n start (accepted h) s else open_state n start (accepted h) s.
Proof.
  intros Hn. cbn zeta. induction h as [|c h IH] using rev_ind; intro Hh.
  - cbn. now apply init_open.
  - assert (nonneg_history h) as Hh' by (intros m k Hm; apply Hh; apply in_app_iff; now left).
    specialize (IH Hh'). pose proof (accepted_nonneg h Hh') as Hw.
    rewrite calls_snoc. unfold closed, accepted. rewrite history_snoc.
    fold (closed h) (accepted h) in *. unfold closed, accepted in *.
    assert (open_state n (istart0 mod n) (fst (history h)) (calls (sub_init nset ndata n istart0) h) \/
            closed_state n (istart0 mod n) (fst (history h)) (calls (sub_init nset ndata n istart0) h)) as G
      by (destruct (snd (history h)); auto).
    destruct c; cbn [history_step].
    + cbn [to_op sub_call]. destruct (snd (history h)) eqn:Ec; rewrite ?Ec.
      * destruct IH as (E1 & E2 & E3 & ?). unfold add_measurement. rewrite E3. cbn. now repeat split.
      * cbn. now apply add_open.
    + cbn [snd fst]. now apply (getter_closed n _ _ _ Mean).
    + cbn [snd fst]. now apply (getter_closed n _ _ _ (Cov indices blockdim bias_correct)).
    + cbn [snd fst]. now apply (getter_closed n _ _ _ (Var bias_correct)).
    + cbn [snd fst to_op sub_call].
      assert (nsamples (calls (sub_init nset ndata n istart0) h) = n /\
              istart (calls (sub_init nset ndata n istart0) h) = istart0 mod n) as [E1 E2]
        by (destruct G as [G|G]; destruct G as (? & ? & _); easy).
      unfold open_state; cbn. repeat (split; [easy|]). split; [|easy].
      rewrite E2, Nat.add_0_r, Nat.mod_mod by lia. easy.
Qed.

Lemma calls_shape nset0 ndata0 n istart0 h :
  let s := calls (sub_init nset0 ndata0 n istart0) h in
  nset s = nset0 /\ ndata s = ndata0 /\ nsamples s = n /\ istart s = istart0 mod n.
Proof.
  cbn zeta. induction h as [|c h IH] using rev_ind; [easy|].
  rewrite calls_snoc. set (s := calls (sub_init nset0 ndata0 n istart0) h) in *. clearbody s.
  assert (forall b, nset (ensure_mean b s) = nset s /\ ndata (ensure_mean b s) = ndata s /\
            nsamples (ensure_mean b s) = nsamples s /\ istart (ensure_mean b s) = istart s) as G.
  { intro b. unfold ensure_mean. destruct (s_mean s); [easy|]. unfold get_mean. now destruct (normalized s). }
  destruct c; cbn [to_op sub_call].
  - unfold add_measurement. now destruct (normalized s).
  - unfold get_mean. now destruct (normalized s).
  - specialize (G bias_correct). unfold get_mean_n_cov.
    destruct (match blockdim with None => _ | Some _ => _ end); [cbn; intuition congruence|].
    set (idx := match indices with Some l => l | None => seq 0 (nset (ensure_mean bias_correct s)) end).
    destruct (cov_loop blockdim idx (ensure_mean bias_correct s) (repeat None (nset (ensure_mean bias_correct s)))) as [s1 r] eqn:El.
    destruct (cov_loop_state blockdim idx (ensure_mean bias_correct s) (repeat None (nset (ensure_mean bias_correct s)))) as [cv Ec].
    rewrite El in Ec. cbn in Ec. subst s1.
    cbn [s_mean s_cov set_cov]. destruct r; [destruct (s_mean (ensure_mean bias_correct s))|]; cbn; intuition congruence.
  - specialize (G bias_correct). unfold get_mean_n_var.
    cbn [s_mean set_var]. destruct (s_xdiff (ensure_mean bias_correct s)); [destruct (s_mean (ensure_mean bias_correct s))|]; cbn; intuition congruence.
  - easy.
Qed.
