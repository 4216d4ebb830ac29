(** Reading, calibrating and masking do not depend on the number of ranks (C69). *)
From Coq Require Import ZArith String List Bool Arith Lia Qcanon Permutation.
From Verif Require Import Num NpList NpListFacts Exn Dict Mpi ModelMpiUtils ModelSpectrum ModelMasks SpecMasks SpecMpi SpecFinal SpecRanks
  ProofMpi ProofMpi2 ProofLock ProofMasks2 ProofRanks.
Import ListNotations.
Local Open Scope nat_scope.

(** ** Programs that end together *)
Lemma bind_inv {V A B} n (p : nat -> prog V A) Q (K : nat -> A -> prog V B) f : 1 <= n -> together n p Q ->
  finishes n (fun r => pbind (p r) (K r)) f -> exists y, Q y /\ finishes n p y /\ finishes n (fun r => K r (y r)) f.
Proof.
  intros Hn H F. destruct n as [|m]; [lia|]. unfold together in H. unfold finishes in F.
  pose proof (run_bind (p 0) (map p (seq 1 m)) (K 0) (map K (seq 1 m)) ltac:(now rewrite !map_length)) as Hr.
  rewrite map2_map_l in Hr. change (run (p 0) (map p (seq 1 m))) with (spmd (S m) p) in Hr.
  change (run (pbind (p 0) (K 0)) _) with (spmd (S m) (fun r => pbind (p r) (K r))) in Hr.
  assert (forall e, ~ In (Failed e) (map (fun r => Finished (f r)) (seq 0 (S m)))) as NF.
  { intros e I. apply in_map_iff in I as (r & I & _). discriminate. }
  destruct (spmd (S m) p) as [l| |] eqn:E.
  - cbn [related] in Hr. rewrite map_length, seq_length in Hr. destruct Hr as (_ & H1 & H2 & H3).
    destruct H as [H|[(e & He & El)|(g & El & HQ)]].
    + destruct (H1 H) as [C|(l' & e & C & I)]; [congruence|]. rewrite F in C. injection C as <-. now apply NF in I.
    + pose proof (H2 e He El) as C. rewrite F in C. injection C as C _. discriminate C.
    + subst l. exists g. split; [assumption|]. split; [exact E|]. unfold finishes. now rewrite <- (spmd_bind _ _ _ _ E).
  - destruct H.
  - exfalso. destruct Hr as [C|(l' & e & C & I)]; [congruence|]. rewrite F in C. injection C as <-. now apply NF in I.
Qed.
Lemma finishes_unique {V A} n (p : nat -> prog V A) f f' : finishes n p f -> finishes n p f' -> forall r, r < n -> f r = f' r.
Proof.
  unfold finishes. intros -> [= E] r Hr.
  assert (nth_error (map (fun r => Finished (f r)) (seq 0 n)) r = nth_error (map (fun r => Finished (f' r)) (seq 0 n)) r) as K by now rewrite E.
  rewrite !nth_error_map in K. rewrite (nth_error_nth' (seq 0 n) 0) in K by now rewrite seq_length. rewrite seq_nth in K by lia. cbn in K. congruence.
Qed.

(** ** Products *)
Lemma nmul_comm a b : nmul a b = nmul b a.
Proof. destruct a, b; cbn; try reflexivity. f_equal. ring. Qed.
Lemma infsgn_0 p n : infsgn 0 p n = NaN. Proof. reflexivity. Qed.
Lemma infsgn_pos q p n : (0 < q)%Qc -> infsgn q p n = p.
Proof.
  intro H. unfold infsgn. destruct (qeqb q 0) eqn:E; [apply qeqb_true in E; subst; now apply Qclt_not_eq in H|].
  destruct (qltb 0 q) eqn:E2; [reflexivity|]. exfalso. apply qltb_false in E2. now apply Qcle_not_lt in E2.
Qed.
Lemma infsgn_neg q p n : (q < 0)%Qc -> infsgn q p n = n.
Proof.
  intro H. unfold infsgn. destruct (qeqb q 0) eqn:E; [apply qeqb_true in E; subst; now apply Qclt_not_eq in H|].
  destruct (qltb 0 q) eqn:E2; [|reflexivity]. exfalso. apply qltb_true in E2. apply (Qclt_not_le _ _ H). now apply Qclt_le_weak.
Qed.
Lemma qc_tri (q : Qc) : q = 0%Qc \/ (0 < q)%Qc \/ (q < 0)%Qc.
Proof.
  destruct (Qclt_le_dec q 0) as [H|H]; [auto|]. destruct (Qcle_lt_or_eq _ _ H) as [K|K]; auto.
Qed.
Lemma mul_pn x y : (0 < x)%Qc -> (y < 0)%Qc -> (x * y < 0)%Qc.
Proof. intros; qnra. Qed.
Lemma mul_np x y : (x < 0)%Qc -> (0 < y)%Qc -> (x * y < 0)%Qc.
Proof. intros; qnra. Qed.
Lemma mul_nn x y : (x < 0)%Qc -> (y < 0)%Qc -> (0 < x * y)%Qc.
Proof. intros; qnra. Qed.
Ltac signs := repeat match goal with
  | |- context [infsgn (?a * ?b) _ _] => first
      [rewrite (infsgn_pos (a * b)) by (first [apply Qcmult_pos; assumption | apply mul_nn; assumption])
      |rewrite (infsgn_neg (a * b)) by (first [apply mul_pn; assumption | apply mul_np; assumption])]
  | |- context [infsgn ?a _ _] => first [rewrite (infsgn_pos a) by assumption | rewrite (infsgn_neg a) by assumption]
  end.
Lemma nmul_assoc a b c : nmul a (nmul b c) = nmul (nmul a b) c.
Proof.
  destruct a as [x| | |], b as [y| | |], c as [z| | |]; cbn [nmul]; try reflexivity; try (f_equal; ring);
    try (destruct (qc_tri x) as [->|[? | ?]]); try (destruct (qc_tri y) as [->|[? | ?]]); try (destruct (qc_tri z) as [->|[? | ?]]);
    rewrite ?Qcmult_0_l, ?Qcmult_0_r, ?infsgn_0; signs; cbn [nmul]; rewrite ?infsgn_0; signs; reflexivity.
Qed.
Lemma nmul_1 a : nmul n1 a = a.
Proof. destruct a; cbn; try reflexivity. f_equal. ring. Qed.

Section Dlas.
Variable dla_flux : Qc -> Qc -> Qc -> num.
Lemma all_dlas_fold dlas w : forall t, fold_left (fun t d => nmul t (dla_flux w (d_z d) (d_nhi d))) dlas t = nmul t (all_dlas dla_flux dlas w).
Proof.
  unfold all_dlas. induction dlas as [|d dlas IH]; intro t; cbn [fold_left].
  - now rewrite nmul_comm, nmul_1.
  - rewrite IH, (IH (nmul n1 _)). rewrite <- !nmul_assoc. f_equal. now rewrite nmul_assoc, nmul_1.
Qed.
Lemma all_dlas_perm dlas dlas' w : Permutation dlas dlas' -> all_dlas dla_flux dlas w = all_dlas dla_flux dlas' w.
Proof.
  assert (forall d l, all_dlas dla_flux (d :: l) w = nmul (dla_flux w (d_z d) (d_nhi d)) (all_dlas dla_flux l w)) as C.
  { intros d l. unfold all_dlas at 1. cbn [fold_left]. rewrite all_dlas_fold. now rewrite nmul_1. }
  induction 1 as [|d l l' H IH|d d' l|l l' l'' H1 IH1 H2 IH2]; [reflexivity| | |congruence].
  - now rewrite !C, IH.
  - rewrite !C, !nmul_assoc. f_equal. apply nmul_comm.
Qed.
Lemma for_each_ext {X S} (f f' : X -> S -> res S) l : (forall x s, f x s = f' x s) -> forall s, for_each l f s = for_each l f' s.
Proof. intros H. induction l as [|x l IH]; intro s; cbn; [reflexivity|]. rewrite H. now destruct (f' x s); cbn. Qed.
(** the DLAs of the other ranks do not matter *)
Lemma dlamask_local cat ids limit s : In (c_targetid (s_cat s)) ids ->
  dlamask_apply dla_flux (dlamask_init cat (Some ids) limit) s = dlamask_apply dla_flux (dlamask_init cat None limit) s.
Proof.
  intro H. set (tid := c_targetid (s_cat s)) in *.
  pose proof (dlamask_lookup cat (Some ids) limit tid) as L1. pose proof (dlamask_lookup cat None limit tid) as L2. cbv beta iota zeta in L1, L2.
  rewrite target_local in L1 by assumption. unfold dlamask_apply. fold tid.
  destruct (nonzero (map _ (dm_ids (dlamask_init cat (Some ids) limit)))) as [|i1 r1], (nonzero (map _ (dm_ids (dlamask_init cat None limit)))) as [|i2 r2].
  - reflexivity.
  - destruct L2 as (d & _ & _ & L2). contradiction.
  - destruct L1 as (d & _ & _ & L1). contradiction.
  - destruct L1 as (d1 & E1 & P1 & _), L2 as (d2 & E2 & P2 & _). rewrite E1, E2. cbn [of_option rbind]. f_equal.
    apply for_each_ext. intros aw f. f_equal. cbn [dlamask_init dm_limit]. f_equal. unfold dla_transmission.
    replace (map (all_dlas dla_flux d1) (snd aw)) with (map (all_dlas dla_flux d2) (snd aw)); [reflexivity|].
    apply map_ext. intro. apply all_dlas_perm. now rewrite P1, P2.
Qed.
End Dlas.

(** ** Lists *)
Lemma concat_perm {A} (l l' : list (list A)) : Permutation l l' -> Permutation (concat l) (concat l').
Proof.
  induction 1 as [|x l l' H IH|x y l|l l' l'' H1 IH1 H2 IH2]; cbn; [constructor| | |now transitivity (concat l')].
  - now apply Permutation_app_head.
  - rewrite !app_assoc. apply Permutation_app_tail, Permutation_app_comm.
Qed.
Lemma gathered_concat {A} n (l : nat -> list (list A)) : gathered n (fun r => concat (l r)) = concat (gathered n l).
Proof. unfold gathered. induction (seq 0 n) as [|r rs IH]; cbn; [reflexivity|]. now rewrite concat_app, IH. Qed.
Lemma gathered_filter {A} (p : A -> bool) n l : gathered n (fun r => filter p (l r)) = filter p (gathered n l).
Proof. unfold gathered. induction (seq 0 n) as [|r rs IH]; cbn; [reflexivity|]. now rewrite filter_app, IH. Qed.
