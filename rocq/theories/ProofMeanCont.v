From Coq Require Import ZArith QArith String List Bool Arith Lia Qcanon Field.
From Verif Require Import Num NpList NpListFacts Exn Dict ModelSpectrum ModelStack ModelVarFit ModelFitter SpecMeanCont ProofCoadd ProofWeights ProofStack.
Import ListNotations.
Local Open Scope nat_scope.

Lemma map2_len {A B C} (f : A -> B -> C) a b n : length a = n -> length b = n -> length (map2 f a b) = n.
Proof. revert b n. induction a as [|x a IH]; intros [|y b] n; cbn; intros; subst; try discriminate; [reflexivity|]. injection H0 as E. f_equal. now apply IH. Qed.
Lemma map2_self {A B C} (f : A -> B -> C) (h : A -> B) a : map2 f a (map h a) = map (fun x => f x (h x)) a.
Proof. induction a; cbn; congruence. Qed.

Section P.
Variable xs : list Qc.
Variable quad : list Qc -> Qc.
Variable n : nat.
Hypothesis Hx : length xs = n.
Notation P i := (map (fun x => legendre i ((1 + 1) * x - 1)%Qc) xs).
Definition dot (u v : list Qc) : Qc := quad (map2 Qcmult u v).
Definition proj (i : nat) (v : list Qc) : list Qc :=
  map2 (fun a l => a - (zq (2 * Z.of_nat i + 1) * dot v (P i)) * l)%Qc v (P i).
Lemma P_len i : length (P i) = n.
Proof. now rewrite map_length. Qed.
Lemma finite_map (v : list Qc) : forallb nfinite (map Fin v) = true.
Proof. now induction v. Qed.
Lemma nval_map (v : list Qc) : map nval (map Fin v) = v.
Proof. induction v; cbn; congruence. Qed.
Lemma integrate_fin (v : list Qc) : integrate quad (map Fin v) = Ok (Fin (quad v)).
Proof. unfold integrate. now rewrite finite_map, nval_map. Qed.
Lemma zip2_fin (h : num -> num -> num) (f : Qc -> Qc -> Qc) a b :
  (forall x y, h (Fin x) (Fin y) = Fin (f x y)) -> length a = length b ->
  zip2 h (map Fin a) (map Fin b) = Ok (map Fin (map2 f a b)).
Proof.
  intros H L. unfold zip2. rewrite !map_length, (proj2 (Nat.eqb_eq _ _) L). f_equal.
  revert b L. induction a as [|x a IH]; intros [|y b] L; try discriminate; [reflexivity|]. cbn. rewrite H. f_equal. apply IH. now injection L.
Qed.
Lemma project_order_fin i v : length v = n -> project_order xs quad i (map Fin v) = Ok (map Fin (proj i v)).
Proof.
  intro L. unfold project_order. rewrite <- (map_map (fun x => legendre i ((1 + 1) * x - 1)%Qc) Fin).
  rewrite (zip2_fin nmul Qcmult) by (try reflexivity; now rewrite P_len). cbn [rbind]. rewrite integrate_fin. cbn [rbind].
  unfold proj. fold (dot v (P i)). apply zip2_fin; [|now rewrite P_len]. intros x y. reflexivity.
Qed.
Lemma proj_len i v : length v = n -> length (proj i v) = n.
Proof. intro L. unfold proj. apply map2_len; [assumption|apply P_len]. Qed.
Fixpoint projs (l : list nat) (v : list Qc) : list Qc := match l with [] => v | i :: r => projs r (proj i v) end.
Lemma projs_len l v : length v = n -> length (projs l v) = n.
Proof. revert v. induction l as [|i l IH]; intros v L; [assumption|]. apply IH. now apply proj_len. Qed.
Lemma projs_fin l v : length v = n -> for_each l (project_order xs quad) (map Fin v) = Ok (map Fin (projs l v)).
Proof.
  revert v. induction l as [|i l IH]; intros v L; [reflexivity|]. cbn [for_each projs].
  rewrite project_order_fin by assumption. cbn [rbind]. apply IH. now apply proj_len.
Qed.
Lemma project_normalize_fin order v : length v = n ->
  let u := projs (seq 1 order) v in
  project_normalize xs quad order (map Fin v) = Ok (map (fun a => ndiv (Fin a) (Fin (quad u))) u, Fin (quad u)).
Proof.
  intro L. cbv zeta. unfold project_normalize. rewrite projs_fin by assumption. cbn [rbind]. rewrite integrate_fin. cbn [rbind].
  now rewrite map_map.
Qed.

Hypothesis Hl : linear n quad.
Lemma scale_as (m : Qc) u : map (fun a => a / m)%Qc u = map2 (fun x y => (1 / m) * x + 0 * y)%Qc u u.
Proof. induction u as [|x u IH]; [reflexivity|]. cbn. f_equal; [|exact IH]. unfold Qcdiv. ring. Qed.
Lemma quad_scale m u : length u = n -> quad (map (fun a => a / m)%Qc u) = (quad u / m)%Qc.
Proof. intro L. rewrite scale_as, Hl by assumption. unfold Qcdiv. ring. Qed.
Lemma ndiv_map m u : m <> 0%Qc -> map (fun a => ndiv (Fin a) (Fin m)) u = map Fin (map (fun a => a / m)%Qc u).
Proof. intro H. rewrite map_map. apply map_ext. intro a. now apply ndiv_fin. Qed.

Theorem unit_average order v : length v = n ->
  exists m w, project_normalize xs quad order (map Fin v) = Ok (w, Fin m) /\
    (m <> 0%Qc -> exists u, w = map Fin u /\ length u = n /\ quad u = 1%Qc) /\
    (m = 0%Qc -> forall x, In x w -> nfinite x = false).
Proof.
  intro L. pose proof (project_normalize_fin order v L) as E. cbv zeta in E.
  set (u := projs (seq 1 order) v) in *. assert (length u = n) as Lu by now apply projs_len.
  eexists. eexists. split; [exact E|]. split.
  - intro Hm. rewrite ndiv_map by assumption. eexists. split; [reflexivity|]. split; [now rewrite map_length|].
    rewrite quad_scale by assumption. unfold Qcdiv. now apply Qcmult_inv_r.
  - intros -> x H. apply in_map_iff in H as (a & <- & _). cbn. unfold infsgn.
    change (qeqb 0 0) with true. cbn [negb]. destruct (qeqb a 0); [reflexivity|]. destruct (qltb 0 a); reflexivity.
Qed.

Variable order : nat.
Hypothesis Ho : orthogonal legendre xs quad order.
Lemma dot_PP i j : 1 <= i <= order -> 1 <= j <= order -> dot (P i) (P j) = if Nat.eqb i j then (1 / zq (2 * Z.of_nat i + 1))%Qc else 0%Qc.
Proof. intros Hi Hj. rewrite <- (Ho i j Hi Hj). unfold dot. f_equal. clear. induction xs; cbn; congruence. Qed.
Lemma dot_proj i j v : length v = n ->
  dot (proj i v) (P j) = (dot v (P j) - (zq (2 * Z.of_nat i + 1) * dot v (P i)) * dot (P i) (P j))%Qc.
Proof.
  intro L. unfold dot at 1. set (B := (zq (2 * Z.of_nat i + 1) * dot v (P i))%Qc).
  replace (map2 Qcmult (proj i v) (P j)) with
    (map2 (fun x y => 1 * x + (- B) * y)%Qc (map2 Qcmult v (P j)) (map2 Qcmult (P i) (P j))).
  - rewrite Hl by (apply map2_len; try apply P_len; assumption). unfold dot. ring.
  - unfold proj. fold B. clearbody B. clear - L Hx. subst n. revert v L. induction xs as [|x l IH]; intros [|a v] L; try discriminate; [reflexivity|].
    cbn in *. f_equal; [ring|]. apply IH. now injection L.
Qed.
Lemma zq_odd_neq i : zq (2 * Z.of_nat i + 1) <> 0%Qc.
Proof. apply Qc_pos_neq. rewrite <- zq_0. apply zq_lt. lia. Qed.
Lemma dot_proj_same i v : 1 <= i <= order -> length v = n -> dot (proj i v) (P i) = 0%Qc.
Proof.
  intros Hi L. rewrite dot_proj by assumption. rewrite dot_PP, Nat.eqb_refl by assumption. pose proof (zq_odd_neq i) as Hz.
  set (z := zq _) in *. clearbody z. field. assumption.
Qed.
Lemma dot_proj_other i j v : 1 <= i <= order -> 1 <= j <= order -> i <> j -> length v = n -> dot (proj i v) (P j) = dot v (P j).
Proof.
  intros Hi Hj N L. rewrite dot_proj by assumption. rewrite dot_PP by assumption.
  destruct (Nat.eqb_spec i j); [contradiction|]. ring.
Qed.
Lemma dot_projs_keep l j v : (forall i, In i l -> 1 <= i <= order) -> 1 <= j <= order -> ~ In j l -> length v = n ->
  dot (projs l v) (P j) = dot v (P j).
Proof.
  revert v. induction l as [|i l IH]; intros v Hl' Hj N L; [reflexivity|]. cbn [projs].
  rewrite IH; [|intros; apply Hl'; now right|assumption|intro K; apply N; now right|now apply proj_len].
  apply dot_proj_other; [apply Hl'; now left|assumption|intro; apply N; now left|assumption].
Qed.
Lemma dot_projs l j v : NoDup l -> (forall i, In i l -> 1 <= i <= order) -> In j l -> length v = n -> dot (projs l v) (P j) = 0%Qc.
Proof.
  revert v. induction l as [|i l IH]; intros v D Hl' Hj L; [destruct Hj|]. apply NoDup_cons_iff in D as [Ni D']. cbn [projs].
  destruct Hj as [->|Hj].
  - rewrite dot_projs_keep; [|intros; apply Hl'; now right|apply Hl'; now left|assumption|now apply proj_len].
    apply dot_proj_same; [apply Hl'; now left|assumption].
  - apply IH; [assumption|intros; apply Hl'; now right|assumption|now apply proj_len].
Qed.
Lemma dot_scale m u j : length u = n -> dot (map (fun a => a / m)%Qc u) (P j) = (dot u (P j) / m)%Qc.
Proof.
  intro L. unfold dot. rewrite <- quad_scale by (apply map2_len; [assumption|apply P_len]). f_equal.
  clear - L Hx. subst n. revert u L. induction xs as [|x l IH]; intros [|a u] L; try discriminate; [reflexivity|].
  cbn in *. f_equal; [unfold Qcdiv; ring|]. apply IH. now injection L.
Qed.
Lemma proj_id i v : length v = n -> dot v (P i) = 0%Qc -> proj i v = v.
Proof.
  intros L H. unfold proj. rewrite H. clear - L Hx. subst n. revert v L. induction xs as [|x l IH]; intros [|a v] L; try discriminate; [reflexivity|].
  cbn in *. f_equal; [ring|]. apply IH. now injection L.
Qed.
Lemma projs_id l v : length v = n -> (forall i, In i l -> dot v (P i) = 0%Qc) -> projs l v = v.
Proof.
  intros L. induction l as [|i l IH]; intro H; [reflexivity|]. cbn [projs]. rewrite proj_id; [|assumption|apply H; now left].
  apply IH. intros; apply H; now right.
Qed.

Theorem orthogonal_to v w m : length v = n -> project_normalize xs quad order (map Fin v) = Ok (w, Fin m) -> m <> 0%Qc ->
  exists u, w = map Fin u /\ forall i, 1 <= i <= order ->
    quad (map2 (fun a x => a * legendre i ((1 + 1) * x - 1))%Qc u xs) = 0%Qc.
Proof.
  intros L E Hm. pose proof (project_normalize_fin order v L) as E'. cbv zeta in E'.
  set (u := projs (seq 1 order) v) in *. assert (length u = n) as Lu by now apply projs_len.
  assert (quad u = m) as Em by congruence. assert (w = map (fun a => ndiv (Fin a) (Fin m)) u) as Ew by (rewrite <- Em; congruence). rewrite ndiv_map in Ew by assumption.
  exists (map (fun a => a / m)%Qc u). split; [assumption|]. intros i Hi.
  pose proof (dot_scale m u i Lu) as D.
  assert (dot u (P i) = 0%Qc) as Z by (apply dot_projs; [apply seq_NoDup|intros j Hj; apply in_seq in Hj; lia|apply in_seq; lia|assumption]).
  rewrite Z in D. unfold dot in D. transitivity (0 / m)%Qc; [|unfold Qcdiv; ring]. rewrite <- D. f_equal.
  generalize (map (fun a => a / m)%Qc u). clear. induction xs as [|x l IH]; intros [|b q]; try reflexivity. cbn. f_equal. apply IH.
Qed.
Theorem idempotent v w m : length v = n -> project_normalize xs quad order (map Fin v) = Ok (w, Fin m) -> m <> 0%Qc ->
  project_normalize xs quad order w = Ok (w, Fin 1).
Proof.
  intros L E Hm. pose proof (project_normalize_fin order v L) as E'. cbv zeta in E'.
  set (u := projs (seq 1 order) v) in *. assert (length u = n) as Lu by now apply projs_len.
  assert (quad u = m) as Em by congruence. assert (w = map (fun a => ndiv (Fin a) (Fin m)) u) as Ew by (rewrite <- Em; congruence). rewrite ndiv_map in Ew by assumption. subst w.
  set (u1 := map (fun a => a / m)%Qc u). assert (length u1 = n) as L1 by (unfold u1; now rewrite map_length).
  rewrite project_normalize_fin by assumption. cbv zeta.
  assert (projs (seq 1 order) u1 = u1) as ->.
  { apply projs_id; [assumption|]. intros i Hi. unfold u1. rewrite dot_scale by assumption. unfold u. rewrite dot_projs;
      [unfold Qcdiv; ring|apply seq_NoDup|intros j Hj; apply in_seq in Hj; lia|assumption|assumption]. }
  assert (quad u1 = 1%Qc) as -> by (unfold u1; rewrite quad_scale by assumption; rewrite Em; unfold Qcdiv; now apply Qcmult_inv_r).
  f_equal. f_equal. apply map_ext. intro a. rewrite ndiv_fin by discriminate. f_equal. field. discriminate.
Qed.
End P.
Lemma orthogonal_0 xs quad : orthogonal legendre xs quad 0.
Proof. intros i j Hi. lia. Qed.
Lemma legendre_0 t : legendre 0 t = 1%Qc. Proof. reflexivity. Qed.
Lemma legendre_1 t : legendre 1 t = t.
Proof. unfold legendre. cbn [legendre2 fst]. change (zq (2 * Z.of_nat 0 + 1)) with 1%Qc. change (zq (Z.of_nat 0)) with 0%Qc.
  change (zq (Z.of_nat 0 + 1)) with 1%Qc. field. discriminate. Qed.
Lemma legendre_S m t :
  (zq (Z.of_nat m + 1) * legendre (S m) t
   = zq (2 * Z.of_nat m + 1) * t * legendre m t - zq (Z.of_nat m) * match m with O => 0 | S k => legendre k t end)%Qc.
Proof.
  unfold legendre. cbn [legendre2]. destruct (legendre2 m t) as [p q] eqn:E. cbn [fst].
  assert (match m with O => 0%Qc | S k => fst (legendre2 k t) end = q) as ->.
  { destruct m; cbn [legendre2] in E; [now injection E|]. destruct (legendre2 m t). now injection E. }
  assert (zq (Z.of_nat m + 1) <> 0%Qc) as Hz by (apply Qc_pos_neq; rewrite <- zq_0; apply zq_lt; lia).
  set (z := zq (Z.of_nat m + 1)) in *. clearbody z. field. assumption.
Qed.
