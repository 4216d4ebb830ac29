(** Exact rational numbers, the extended number type used for numpy float64
    values, and python's int()/round().

    Idealisation: float64 arithmetic is modelled by exact rational arithmetic
    ([Qc], canonical rationals with Leibniz equality).  Where IEEE special
    values are observable the type [num] is used.  Rounding, overflow and the
    sign of zero are not modelled. *)
From Coq Require Import ZArith QArith Qcanon Qround Lia Lqa Bool List.
Import ListNotations.
Local Open Scope Qc_scope.

(** ** Literals *)
Definition zq (z : Z) : Qc := Q2Qc (inject_Z z).
Definition fq (n : Z) (d : positive) : Qc := Q2Qc (n # d).

(** ** Decidable comparisons (numpy ==, <, <= on finite values) *)
Definition qeqb (a b : Qc) : bool := Qeq_bool (this a) (this b).
Definition qleb (a b : Qc) : bool := Qle_bool (this a) (this b).
Definition qltb (a b : Qc) : bool := negb (Qle_bool (this b) (this a)).
Definition qmax (a b : Qc) : Qc := if qleb a b then b else a.
Definition qmin (a b : Qc) : Qc := if qleb a b then a else b.

(** python int(x) / ndarray.astype(int): truncation toward zero. *)
Definition qfloor (a : Qc) : Z := Qfloor (this a).
Definition qtrunc (a : Qc) : Z :=
  if qleb 0 a then qfloor a else (- qfloor (- a))%Z.

(** python round(x) and np.round: nearest integer, ties to even. *)
Definition qround (a : Qc) : Z :=
  let f := qfloor a in
  let d := (a - zq f) in
  if qltb d (fq 1 2) then f
  else if qltb (fq 1 2) d then (f + 1)%Z
  else if Z.even f then f else (f + 1)%Z.

Definition qsum (l : list Qc) : Qc := fold_right Qcplus 0 l.

(** ** Transfer to Q, where [lra]/[nra] work *)
Lemma this_plus a b : (this (a + b) == this a + this b)%Q.
Proof. apply Qred_correct. Qed.
Lemma this_mult a b : (this (a * b) == this a * this b)%Q.
Proof. apply Qred_correct. Qed.
Lemma this_opp a : (this (- a) == - this a)%Q.
Proof. apply Qred_correct. Qed.
Lemma this_minus a b : (this (a - b) == this a - this b)%Q.
Proof.
  unfold Qcminus. rewrite this_plus, this_opp. reflexivity.
Qed.
Lemma this_inv a : (this (/ a) == / this a)%Q.
Proof. apply Qred_correct. Qed.
Lemma this_div a b : (this (a / b) == this a / this b)%Q.
Proof. unfold Qcdiv. rewrite this_mult, this_inv. reflexivity. Qed.
Lemma this_Q2Qc q : (this (Q2Qc q) == q)%Q.
Proof. apply Qred_correct. Qed.
Lemma this_zq z : (this (zq z) == inject_Z z)%Q.
Proof. apply Qred_correct. Qed.
Lemma this_fq n d : (this (fq n d) == n # d)%Q.
Proof. apply Qred_correct. Qed.
Lemma this_0 : (this 0 == 0)%Q.
Proof. reflexivity. Qed.
Lemma this_1 : (this 1 == 1)%Q.
Proof. reflexivity. Qed.

Lemma Qc_eq_this a b : a = b <-> (this a == this b)%Q.
Proof.
  split; [intros ->; reflexivity | apply Qc_is_canon].
Qed.
Lemma Qc_lt_this a b : a < b <-> (this a < this b)%Q.
Proof. reflexivity. Qed.
Lemma Qc_le_this a b : a <= b <-> (this a <= this b)%Q.
Proof. reflexivity. Qed.

Create HintDb qcdb discriminated.
#[export] Hint Rewrite this_plus this_mult this_opp this_minus this_inv
  this_div this_zq this_fq this_Q2Qc this_0 this_1 : qcdb.

Ltac qc2q_step :=
  match goal with
  | H : @eq Qc _ _ |- _ => rewrite Qc_eq_this in H
  | H : ~ (@eq Qc _ _) |- _ => rewrite Qc_eq_this in H
  | H : (_ < _)%Qc |- _ => unfold Qclt in H
  | H : (_ <= _)%Qc |- _ => unfold Qcle in H
  | H : ~ (_ < _)%Qc |- _ => unfold Qclt in H
  | H : ~ (_ <= _)%Qc |- _ => unfold Qcle in H
  end.
Ltac qc2q_goal :=
  match goal with
  | |- @eq Qc _ _ => apply Qc_eq_this
  | |- ~ (@eq Qc _ _) => rewrite Qc_eq_this
  | |- (_ < _)%Qc => unfold Qclt
  | |- (_ <= _)%Qc => unfold Qcle
  | |- ~ (_ < _)%Qc => unfold Qclt
  | |- ~ (_ <= _)%Qc => unfold Qcle
  | |- _ => idtac
  end.
Ltac qc2q :=
  repeat qc2q_step; qc2q_goal;
  repeat match goal with
  | H : context [this (_ + _)] |- _ => rewrite this_plus in H
  | H : context [this (_ * _)] |- _ => rewrite this_mult in H
  | H : context [this (_ - _)] |- _ => rewrite this_minus in H
  | H : context [this (- _)] |- _ => rewrite this_opp in H
  | H : context [this (_ / _)] |- _ => rewrite this_div in H
  | H : context [this (/ _)] |- _ => rewrite this_inv in H
  | H : context [this (zq _)] |- _ => rewrite this_zq in H
  | H : context [this (fq _ _)] |- _ => rewrite this_fq in H
  | H : context [this 0] |- _ => change (this 0) with 0%Q in H
  | H : context [this 1] |- _ => change (this 1) with 1%Q in H
  end;
  repeat first
  [ rewrite this_plus | rewrite this_mult | rewrite this_minus
  | rewrite this_opp | rewrite this_div | rewrite this_inv
  | rewrite this_zq | rewrite this_fq
  | progress change (this 0) with 0%Q | progress change (this 1) with 1%Q ].
Ltac qlra := qc2q; unfold inject_Z in *; lra.
Ltac qnra := qc2q; unfold inject_Z in *; nra.

Lemma qeqb_true a b : qeqb a b = true <-> a = b.
Proof. unfold qeqb. rewrite Qeq_bool_iff, Qc_eq_this. reflexivity. Qed.
Lemma qeqb_false a b : qeqb a b = false <-> a <> b.
Proof.
  rewrite <- qeqb_true. destruct (qeqb a b); split; congruence.
Qed.
Lemma qleb_true a b : qleb a b = true <-> a <= b.
Proof. unfold qleb. rewrite Qle_bool_iff. reflexivity. Qed.
Lemma qleb_false a b : qleb a b = false <-> b < a.
Proof.
  split; intro H.
  - apply Qcnot_le_lt. intro C. apply qleb_true in C. congruence.
  - apply not_true_is_false. rewrite qleb_true. apply Qclt_not_le, H.
Qed.
Lemma qltb_true a b : qltb a b = true <-> a < b.
Proof.
  unfold qltb. fold (qleb b a). rewrite negb_true_iff. apply qleb_false.
Qed.
Lemma qltb_false a b : qltb a b = false <-> b <= a.
Proof.
  unfold qltb. fold (qleb b a). rewrite negb_false_iff. apply qleb_true.
Qed.

Ltac qcase_in H :=
  first [ rewrite qeqb_true in H | rewrite qeqb_false in H
        | rewrite qleb_true in H | rewrite qleb_false in H
        | rewrite qltb_true in H | rewrite qltb_false in H ].
(** Destruct the first comparison found in the goal. *)
Ltac qcase :=
  match goal with
  | |- context [qeqb ?a ?b] =>
      let E := fresh "E" in destruct (qeqb a b) eqn:E; qcase_in E
  | |- context [qleb ?a ?b] =>
      let E := fresh "E" in destruct (qleb a b) eqn:E; qcase_in E
  | |- context [qltb ?a ?b] =>
      let E := fresh "E" in destruct (qltb a b) eqn:E; qcase_in E
  end.

Lemma qeqb_refl a : qeqb a a = true.
Proof. now apply qeqb_true. Qed.
Lemma Qc_dec (a b : Qc) : {a = b} + {a <> b}.
Proof. apply Qc_eq_dec. Qed.

(** ** floor / trunc / round *)
Lemma inject_Z_lt a b : (inject_Z a < inject_Z b)%Q <-> (a < b)%Z.
Proof. rewrite <- Zlt_Qlt. reflexivity. Qed.
Lemma inject_Z_le a b : (inject_Z a <= inject_Z b)%Q <-> (a <= b)%Z.
Proof. rewrite <- Zle_Qle. reflexivity. Qed.

Lemma zq_lt a b : zq a < zq b <-> (a < b)%Z.
Proof. rewrite Qc_lt_this, !this_zq. apply inject_Z_lt. Qed.
Lemma zq_le a b : zq a <= zq b <-> (a <= b)%Z.
Proof. rewrite Qc_le_this, !this_zq. apply inject_Z_le. Qed.
Lemma zq_inj a b : zq a = zq b -> a = b.
Proof.
  intro H. apply Qc_eq_this in H. rewrite !this_zq in H.
  exact (proj1 (inject_Z_injective a b) H).
Qed.
Lemma zq_plus a b : zq (a + b) = zq a + zq b.
Proof. qc2q. rewrite inject_Z_plus. reflexivity. Qed.
Lemma zq_mult a b : zq (a * b) = zq a * zq b.
Proof. qc2q. rewrite inject_Z_mult. reflexivity. Qed.
Lemma zq_opp a : zq (- a) = - zq a.
Proof. qc2q. rewrite inject_Z_opp. reflexivity. Qed.
Lemma zq_minus a b : zq (a - b) = zq a - zq b.
Proof. unfold Z.sub. rewrite zq_plus, zq_opp. reflexivity. Qed.
Lemma zq_0 : zq 0 = 0. Proof. reflexivity. Qed.
Lemma zq_1 : zq 1 = 1. Proof. reflexivity. Qed.
Lemma zq_succ n : zq (Z.of_nat (S n)) = zq (Z.of_nat n) + 1.
Proof. rewrite Nat2Z.inj_succ, <- Z.add_1_r, zq_plus. reflexivity. Qed.

Lemma qfloor_spec a : zq (qfloor a) <= a /\ a < zq (qfloor a) + 1.
Proof.
  unfold qfloor. split; qc2q.
  - apply Qfloor_le.
  - generalize (Qlt_floor (this a)). rewrite inject_Z_plus. auto.
Qed.
Lemma qfloor_unique a z : zq z <= a -> a < zq z + 1 -> qfloor a = z.
Proof.
  intros H1 H2. destruct (qfloor_spec a) as [H3 H4].
  assert (zq (qfloor a) < zq (z + 1)) as A
    by (rewrite zq_plus, zq_1; eapply Qcle_lt_trans; eauto).
  assert (zq z < zq (qfloor a + 1)) as B
    by (rewrite zq_plus, zq_1; eapply Qcle_lt_trans; eauto).
  rewrite zq_lt in A, B. lia.
Qed.
Lemma qfloor_zq z : qfloor (zq z) = z.
Proof.
  apply qfloor_unique; [apply Qcle_refl|].
  rewrite <- zq_1, <- zq_plus. apply zq_lt. lia.
Qed.
Lemma qfloor_mono a b : a <= b -> (qfloor a <= qfloor b)%Z.
Proof. intro H. apply Qfloor_resp_le. exact H. Qed.
Lemma qtrunc_nonneg a : 0 <= a -> qtrunc a = qfloor a.
Proof. intro H. unfold qtrunc. apply qleb_true in H. now rewrite H. Qed.
Lemma qtrunc_spec_nonneg a :
  0 <= a -> zq (qtrunc a) <= a /\ a < zq (qtrunc a) + 1.
Proof. intro H. rewrite qtrunc_nonneg by easy. apply qfloor_spec. Qed.
Lemma qtrunc_unique a z :
  (0 <= z)%Z -> zq z <= a -> a < zq z + 1 -> qtrunc a = z.
Proof.
  intros H0 H1 H2. rewrite qtrunc_nonneg.
  - now apply qfloor_unique.
  - eapply Qcle_trans; [|exact H1]. rewrite <- zq_0. now apply zq_le.
Qed.
Lemma qtrunc_zq z : qtrunc (zq z) = z.
Proof.
  unfold qtrunc. qcase.
  - apply qfloor_zq.
  - rewrite <- zq_opp, qfloor_zq. lia.
Qed.
(** values in (-1, 0) truncate to 0 *)
Lemma qtrunc_neg_small a : - (1) < a -> a < 0 -> qtrunc a = 0%Z.
Proof.
  intros H1 H2. unfold qtrunc.
  replace (qleb 0 a) with false by (symmetry; now apply qleb_false).
  rewrite (qfloor_unique (- a) 0); [reflexivity| |].
  - rewrite zq_0. qlra.
  - rewrite zq_0. qlra.
Qed.
Lemma qtrunc_nonpos a : a < 0 -> (qtrunc a <= 0)%Z.
Proof.
  intro H. unfold qtrunc.
  replace (qleb 0 a) with false by (symmetry; now apply qleb_false).
  assert (0 <= qfloor (- a))%Z; [|lia].
  rewrite <- (qfloor_zq 0). apply qfloor_mono. rewrite zq_0. qlra.
Qed.

Lemma qround_spec a :
  zq (qround a) - fq 1 2 <= a /\ a <= zq (qround a) + fq 1 2.
Proof.
  destruct (qfloor_spec a) as [H1 H2]. unfold qround.
  repeat qcase; [..| destruct (Z.even (qfloor a))];
    rewrite ?zq_plus, ?zq_1; split; qlra.
Qed.
Lemma qround_near a z :
  zq z - fq 1 2 < a -> a < zq z + fq 1 2 -> qround a = z.
Proof.
  intros H1 H2. destruct (qround_spec a) as [H3 H4].
  assert (zq (qround a) < zq (z + 1)) as A
    by (rewrite zq_plus, zq_1; qlra).
  assert (zq z < zq (qround a + 1)) as B by (rewrite zq_plus, zq_1; qlra).
  rewrite zq_lt in A, B. lia.
Qed.
Lemma qround_ge_floor a : (qfloor a <= qround a)%Z.
Proof.
  unfold qround. repeat qcase; [lia|lia|]. destruct (Z.even _); lia.
Qed.

(** ** sums *)
Lemma qsum_app l1 l2 : qsum (l1 ++ l2) = qsum l1 + qsum l2.
Proof.
  induction l1 as [|x l1 IH]; cbn [app qsum fold_right].
  - fold (qsum l2). ring.
  - fold (qsum (l1 ++ l2)) (qsum l1). rewrite IH. ring.
Qed.
Lemma qsum_cons x l : qsum (x :: l) = x + qsum l.
Proof. reflexivity. Qed.
Lemma qsum_nonneg l : Forall (fun x => 0 <= x) l -> 0 <= qsum l.
Proof.
  induction 1 as [|x l Hx Hl IH]; [apply Qcle_refl|].
  rewrite qsum_cons. qlra.
Qed.
Lemma qsum_map_mult {A} (f : A -> Qc) c l :
  qsum (map (fun x => c * f x) l) = c * qsum (map f l).
Proof.
  induction l as [|x l IH]; cbn [map]; rewrite ?qsum_cons.
  - cbn. ring.
  - rewrite IH. ring.
Qed.
Lemma qsum_map_plus {A} (f g : A -> Qc) l :
  qsum (map (fun x => f x + g x) l) = qsum (map f l) + qsum (map g l).
Proof.
  induction l as [|x l IH]; cbn [map]; rewrite ?qsum_cons.
  - cbn. ring.
  - rewrite IH. ring.
Qed.
Lemma qsum_map_0 {A} (l : list A) : qsum (map (fun _ => 0) l) = 0.
Proof.
  induction l as [|x l IH]; cbn [map]; rewrite ?qsum_cons; [easy|].
  rewrite IH. ring.
Qed.
Lemma Qcdiv_def a b : a / b = a * / b. Proof. reflexivity. Qed.
Lemma Qcinv_pos a : 0 < a -> 0 < / a.
Proof.
  intro H. qc2q. now apply Qinv_lt_0_compat.
Qed.
Lemma Qc_pos_neq a : 0 < a -> a <> 0.
Proof. intros H E. rewrite E in H. revert H. apply Qlt_irrefl. Qed.
Lemma Qcmult_pos a b : 0 < a -> 0 < b -> 0 < a * b.
Proof. intros; qnra. Qed.
Lemma Qcmult_nonneg a b : 0 <= a -> 0 <= b -> 0 <= a * b.
Proof. intros; qnra. Qed.
Lemma Qcdiv_nonneg a b : 0 <= a -> 0 < b -> 0 <= a / b.
Proof.
  intros H1 H2. apply Qcmult_nonneg; [easy|]. apply Qclt_le_weak.
  now apply Qcinv_pos.
Qed.
Lemma Qcdiv_pos a b : 0 < a -> 0 < b -> 0 < a / b.
Proof. intros H1 H2. apply Qcmult_pos; [easy|]. now apply Qcinv_pos. Qed.
Lemma Qcdiv_le a b c : 0 < b -> a <= c * b -> a / b <= c.
Proof.
  intros Hb H. apply Qcmult_lt_0_le_reg_r with b; [easy|].
  replace (a / b * b) with a; [easy|]. field. now apply Qc_pos_neq.
Qed.
Lemma Qcle_div a b c : 0 < b -> c * b <= a -> c <= a / b.
Proof.
  intros Hb H. apply Qcmult_lt_0_le_reg_r with b; [easy|].
  replace (a / b * b) with a; [easy|]. field. now apply Qc_pos_neq.
Qed.
Lemma Qcdiv_lt a b c : 0 < b -> a < c * b -> a / b < c.
Proof.
  intros Hb H. apply Qcnot_le_lt. intro C. apply (Qclt_not_le _ _ H).
  replace a with (a / b * b) by (field; now apply Qc_pos_neq).
  apply Qcmult_le_compat_r; [easy|]. now apply Qclt_le_weak.
Qed.
Lemma Qclt_div a b c : 0 < b -> c * b < a -> c < a / b.
Proof.
  intros Hb H. apply Qcnot_le_lt. intro C. apply (Qclt_not_le _ _ H).
  replace a with (a / b * b) by (field; now apply Qc_pos_neq).
  apply Qcmult_le_compat_r; [easy|]. now apply Qclt_le_weak.
Qed.

(** ** Extended numbers: numpy float64 without rounding and signed zero *)
Inductive num := Fin (q : Qc) | NaN | PInf | NInf.

Definition nneg (a : num) : num :=
  match a with Fin q => Fin (- q) | NaN => NaN | PInf => NInf | NInf => PInf end.
Definition nadd (a b : num) : num :=
  match a, b with
  | Fin x, Fin y => Fin (x + y)
  | NaN, _ | _, NaN => NaN
  | PInf, NInf | NInf, PInf => NaN
  | PInf, _ | _, PInf => PInf
  | NInf, _ | _, NInf => NInf
  end.
Definition nsub a b := nadd a (nneg b).
(** sign: 0, 1, -1 *)
Definition infsgn (q : Qc) (pos : num) (neg : num) : num :=
  if qeqb q 0 then NaN else if qltb 0 q then pos else neg.
Definition nmul (a b : num) : num :=
  match a, b with
  | Fin x, Fin y => Fin (x * y)
  | NaN, _ | _, NaN => NaN
  | Fin x, PInf | PInf, Fin x => infsgn x PInf NInf
  | Fin x, NInf | NInf, Fin x => infsgn x NInf PInf
  | PInf, PInf | NInf, NInf => PInf
  | PInf, NInf | NInf, PInf => NInf
  end.
(** x/0 = +-inf by the sign of x, 0/0 = nan. *)
Definition ndiv (a b : num) : num :=
  match a, b with
  | Fin x, Fin y => if qeqb y 0 then infsgn x PInf NInf else Fin (x / y)
  | NaN, _ | _, NaN => NaN
  | Fin _, PInf | Fin _, NInf => Fin 0
  | PInf, Fin y => if qltb y 0 then NInf else PInf
  | NInf, Fin y => if qltb y 0 then PInf else NInf
  | _, _ => NaN
  end.
(** comparisons: false as soon as nan is involved *)
Definition nltb (a b : num) : bool :=
  match a, b with
  | Fin x, Fin y => qltb x y
  | NaN, _ | _, NaN => false
  | NInf, NInf => false
  | NInf, _ => true
  | _, PInf => match a with PInf => false | _ => true end
  | _, _ => false
  end.
Definition neqb (a b : num) : bool :=
  match a, b with
  | Fin x, Fin y => qeqb x y
  | PInf, PInf | NInf, NInf => true
  | _, _ => false
  end.
Definition nleb (a b : num) : bool := nltb a b || neqb a b.
Definition nisnan (a : num) : bool := match a with NaN => true | _ => false end.
Definition nfinite (a : num) : bool := match a with Fin _ => true | _ => false end.
Definition n0 : num := Fin 0.
Definition n1 : num := Fin 1.
Definition nsum (l : list num) : num := fold_right nadd n0 l.
Definition nval (a : num) : Qc := match a with Fin q => q | _ => 0 end.

Lemma ndiv_fin a b : b <> 0 -> ndiv (Fin a) (Fin b) = Fin (a / b).
Proof. intro H. apply qeqb_false in H. cbn. now rewrite H. Qed.
Lemma nsum_fin l : nsum (map Fin l) = Fin (qsum l).
Proof. induction l as [|x l IH]; cbn; [easy|]. fold (nsum (map Fin l)). now rewrite IH. Qed.
Lemma nleb_fin a b : nleb (Fin a) (Fin b) = qleb a b.
Proof.
  unfold nleb. cbn. destruct (qltb a b) eqn:E1, (qeqb a b) eqn:E2, (qleb a b) eqn:E3;
    cbn; auto; qcase_in E1; qcase_in E2; qcase_in E3; exfalso; try subst; try qlra.
Qed.
