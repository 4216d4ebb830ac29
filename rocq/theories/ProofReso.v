(** C62: coadded resolution matrices. *)
From Coq Require Import Field ZArith String List Bool Arith Lia Sorted Permutation Qcanon.
From Verif Require Import Num NpList NpListFacts Exn Dict ModelSpectrum SpecSpectrum SpecMasks SpecWeights SpecCoadd SpecReso
  ProofSpectrum1 ProofSpectrum2 ProofMasks ProofWeights ProofCoadd ProofCoadd2 ProofCoadd3.
Import ListNotations.
Local Open Scope nat_scope.

Lemma land_sum_seq {A} (f : A -> nat) x : forall v j, length v = length x ->
  land_sum (map f x) v j =
  qsum (map (fun k => nth k v 0%Qc) (filter (fun k => match nth_error x k with Some y => f y =? j | None => false end) (seq 0 (length x)))).
Proof.
  induction x as [|a x IH]; intros [|b v] j L; try discriminate L; [reflexivity|]. injection L as L.
  cbn [map]. rewrite land_sum_cons, (IH v j L). cbn [length seq filter].
  assert (E : map (fun k => nth k (b :: v) 0%Qc) (filter (fun k => match nth_error (a :: x) k with Some y => f y =? j | None => false end) (seq 1 (length x)))
    = map (fun k => nth k v 0%Qc) (filter (fun k => match nth_error x k with Some y => f y =? j | None => false end) (seq 0 (length x)))).
  { clear IH L. rewrite <- seq_shift. induction (seq 0 (length x)) as [|i l IHl]; [reflexivity|]. cbn [map filter nth_error].
    destruct (match nth_error x i with Some y => f y =? j | None => false end); cbn [map nth]; [f_equal|]; exact IHl. }
  change (nth_error (a :: x) 0) with (Some a). cbv iota beta.
  destruct (f a =? j); cbn [map]; rewrite E, ?qsum_cons; cbn [nth]; ring.
Qed.
Lemma rseq_oks {A B} (f : A -> B) l : rseq (map (fun x => Ok (f x)) l) = Ok (map f l).
Proof. induction l as [|x l IH]; [reflexivity|]. cbn. now rewrite IH. Qed.

(** one padded row *)
Definition prow (m : mat) (mx nc d : nat) : list Qc := map (fun k => diagonal m k (Z.of_nat d - Z.of_nat ((mx - 1) / 2))) (seq 0 nc).
Lemma half_diff a b : a <= b -> Nat.even a = Nat.even b -> 1 <= a -> (b - 1) / 2 = (a - 1) / 2 + (b - a) / 2.
Proof.
  intros H E P. assert (Nat.even (b - a) = true) as Ev by (rewrite Nat.even_sub by lia; rewrite E; now destruct (Nat.even b)).
  apply Nat.even_spec in Ev as (q & Eq). replace (b - 1) with ((a - 1) + q * 2) by lia. rewrite Nat.div_add by lia.
  rewrite Eq, Nat.mul_comm, Nat.div_mul by lia. reflexivity.
Qed.
Lemma nth_error_seq0 n d : d < n -> nth_error (seq 0 n) d = Some d.
Proof. intro H. rewrite (nth_error_nth' _ 0) by (rewrite seq_length; lia). now rewrite seq_nth. Qed.
Lemma pad_spec mx nc (m : mat) : length m <= mx -> Nat.even (length m) = Nat.even mx ->
  Forall (fun row => length row = nc /\ Forall (fun x => nfinite x = true) row) m ->
  pad_rows mx nc m = map (fun d => map Fin (prow m mx nc d)) (seq 0 mx).
Proof.
  intros H E F. apply list_eq_nth_error. intro d. rewrite nth_error_map.
  pose proof (pad_rows_length mx nc m H E) as L. destruct (Nat.lt_ge_cases d mx) as [Hd|Hd].
  2: { rewrite (proj2 (nth_error_None _ d)) by lia. rewrite (proj2 (nth_error_None _ d)) by (rewrite seq_length; lia). reflexivity. }
  rewrite nth_error_seq0 by easy. cbn [option_map].
  assert (Z0 : forall o, (middle m + o < 0)%Z \/ (Z.of_nat (length m) <= middle m + o)%Z -> forall k, diagonal m k o = 0%Qc).
  { intros o Ho k. unfold diagonal. destruct (Z.ltb_spec (middle m + o) 0); [reflexivity|]. destruct Ho as [Ho|Ho]; [lia|].
    rewrite (proj2 (nth_error_None _ _)) by lia. reflexivity. }
  assert (ZR : forall o, (middle m + o < 0)%Z \/ (Z.of_nat (length m) <= middle m + o)%Z ->
     map Fin (map (fun k => diagonal m k o) (seq 0 nc)) = repeat n0 nc).
  { intros o Ho. rewrite map_map. apply list_eq_nth_error. intro k. rewrite nth_error_map.
    destruct (Nat.lt_ge_cases k nc) as [Hk|Hk].
    - rewrite nth_error_seq0 by easy. cbn. rewrite (Z0 o Ho). rewrite nth_error_repeat. now rewrite (proj2 (Nat.ltb_lt _ _) Hk).
    - rewrite (proj2 (nth_error_None _ _)) by (rewrite seq_length; lia). symmetry. apply nth_error_None. now rewrite repeat_length. }
  unfold pad_rows in *. set (dd := (mx - length m) / 2) in *. rewrite !app_length, !repeat_length in L. unfold prow.
  destruct (Nat.eq_dec (length m) 0) as [Em|Em].
  { destruct m; [|discriminate Em]. rewrite ZR by (unfold middle; cbn; lia). cbn [app] in *. rewrite <- repeat_app, nth_error_repeat.
    cbn [length] in L. destruct (Nat.ltb_spec d (dd + dd)); [reflexivity|lia]. }
  pose proof (half_diff (length m) mx H E ltac:(lia)) as Hh. fold dd in Hh.
  destruct (Nat.lt_ge_cases d dd) as [H1|H1].
  - rewrite nth_error_app1 by (rewrite repeat_length; lia). rewrite nth_error_repeat, (proj2 (Nat.ltb_lt _ _) H1). f_equal. symmetry.
    apply ZR. unfold middle. lia.
  - rewrite nth_error_app2 by (rewrite repeat_length; lia). rewrite repeat_length.
    destruct (Nat.lt_ge_cases (d - dd) (length m)) as [H2|H2].
    + rewrite nth_error_app1 by easy. destruct (nth_error m (d - dd)) as [row|] eqn:Er; [|apply nth_error_None in Er; lia]. f_equal.
      rewrite Forall_forall in F. destruct (F row (nth_error_In _ _ Er)) as (Lr & Fr). rewrite (fin_map row Fr) at 1. f_equal.
      apply list_eq_nth_error. intro k. rewrite !nth_error_map. destruct (Nat.lt_ge_cases k nc) as [Hk|Hk].
      * rewrite nth_error_seq0 by easy. cbn [option_map]. unfold diagonal, middle.
        replace (Z.of_nat ((length m - 1) / 2) + (Z.of_nat d - Z.of_nat ((mx - 1) / 2)))%Z with (Z.of_nat (d - dd)) by lia.
        destruct (Z.ltb_spec (Z.of_nat (d - dd)) 0); [lia|]. rewrite Nat2Z.id, Er.
        destruct (nth_error row k) as [v|] eqn:Ev; [|apply nth_error_None in Ev; lia]. reflexivity.
      * rewrite (proj2 (nth_error_None row k)) by lia. rewrite (proj2 (nth_error_None (seq 0 nc) k)) by (rewrite seq_length; lia). reflexivity.
    + rewrite nth_error_app2 by easy. rewrite nth_error_repeat.
      destruct (Nat.ltb_spec (d - dd - length m) dd) as [H3|H3]; [|lia]. f_equal. symmetry. apply ZR. unfold middle. lia.
Qed.

Section Core.
Variables (s : spec) (mn dw : Qc) (n : nat) (p : bool).
Hypothesis Hdw : (0 < dw)%Qc.
Definition arm_fit (arm : string) (m : mat) : Prop :=
  Nat.even (length m) = p /\ exists x w, dget arm (fw (s_f s)) = Some x /\ dget arm (fweight (s_f s)) = Some (map Fin w) /\
    length w = length x /\ Forall (fun v => (0 <= v)%Qc) w /\ uniform dw x /\
    (forall y, In y x -> (mn <= y)%Qc /\ (pix_idx mn dw y < Z.of_nat n)%Z) /\
    Forall (fun row => length row = length x /\ Forall (fun x => nfinite x = true) row) m.

Definition contrib (d : dict mat) (j : nat) : list (Qc * (Z -> Qc)) :=
  flat_map (fun am => map (fun k => (used_weight s (fst am) k, diagonal (snd am) k))
                          (filter (lands s mn dw j (fst am)) (seq 0 (length (dlist (fst am) (fw (s_f s))))))) d.
Definition uw (q : Qc) : Qc := if Qc_eq_dec q 0 then fq 1 100000000 else q.
Lemma reso_weight_fin q : reso_weight (Fin q) = Fin (uw q).
Proof.
  unfold reso_weight, uw. cbn [neqb n0]. destruct (Qc_eq_dec q 0) as [->|H].
  - reflexivity.
  - destruct (qeqb q 0) eqn:E; [|reflexivity]. apply qeqb_true in E. contradiction.
Qed.
Lemma fq_tiny : (0 < fq 1 100000000)%Qc.
Proof. reflexivity. Qed.
Lemma uw_pos q : (0 <= q)%Qc -> (0 < uw q)%Qc.
Proof.
  intro H. unfold uw. destruct (Qc_eq_dec q 0); [apply fq_tiny|]. apply Qcle_lt_or_eq in H as [H|H]; [exact H|]. now subst.
Qed.

Lemma arm_land arm (m : mat) x w : dget arm (fw (s_f s)) = Some x -> dget arm (fweight (s_f s)) = Some (map Fin w) -> length w = length x ->
  (forall y, In y x -> (mn <= y)%Qc) -> forall (c : nat -> Qc) j,
  land_sum (map Z.to_nat (map (pix_idx mn dw) x)) (map2 Qcmult (map uw w) (map c (seq 0 (length x)))) j =
  qsum (map (fun k => used_weight s arm k * c k)%Qc (filter (lands s mn dw j arm) (seq 0 (length x)))).
Proof.
  intros Ex Ew L B c j. rewrite map_map, land_sum_seq by (rewrite map2_length, !map_length, seq_length; lia). f_equal.
  assert (filter (lands s mn dw j arm) (seq 0 (length x)) =
    filter (fun k => match nth_error x k with Some y => Z.to_nat (pix_idx mn dw y) =? j | None => false end) (seq 0 (length x))) as ->.
  { apply filter_ext. intro k. unfold lands, at_pix. rewrite Ex. destruct (nth_error x k) as [y|] eqn:E; [|reflexivity].
    apply on_pixel_idx; [exact Hdw|]. apply B. now apply nth_error_In in E. }
  apply map_ext_in. intros k Hk. apply filter_In in Hk as (Hk & _). apply in_seq in Hk.
  assert (k < length w) as Hw by lia.
  destruct (nth_error w k) as [q|] eqn:Eq; [|apply nth_error_None in Eq; lia].
  unfold used_weight, at_pix. rewrite Ew, nth_error_map, Eq. cbn [option_map]. fold (uw q).
  apply nth_error_nth. rewrite nth_error_map2, !nth_error_map, Eq, nth_error_seq0 by lia. reflexivity.
Qed.

Variable mx : nat.
Let ctr : Z := Z.of_nat ((mx - 1) / 2).
Lemma reso_loop d : (forall arm m, In (arm, m) d -> arm_fit arm m /\ length m <= mx /\ Nat.even (length m) = Nat.even mx) ->
  forall (R : nat -> nat -> Qc) (N : nat -> Qc),
  for_each d (fun am (acc : mat * arr) =>
    rbind (rget (fst am) (fweight (s_f s))) (fun w0 =>
    rbind (rget (fst am) (dmap (map (pix_idx mn dw)) (fw (s_f s)))) (fun idx =>
    let w := map reso_weight w0 in
    let m := pad_rows mx (length w) (snd am) in
    if Nat.eqb (length m) mx then
      rbind (rseq (map2 (fun crow row =>
               rbind (zip2 nmul w row) (fun v => fancy_add crow idx v)) (fst acc) m)) (fun cr =>
      rbind (fancy_add (snd acc) idx w) (fun cn => Ok (cr, cn)))
    else Err (OtherExn "ValueError: shapes"))))
    (map (fun i => repr n (R i)) (seq 0 mx), repr n N) =
  Ok (map (fun i => repr n (fun j => R i j + qsum (map (fun c => fst c * snd c (Z.of_nat i - ctr)%Z) (contrib d j)))%Qc) (seq 0 mx),
      repr n (fun j => N j + qsum (map fst (contrib d j)))%Qc).
Proof.
  induction d as [|(arm, m) d IH]; intros H R N; cbn [for_each].
  - f_equal. f_equal; [apply map_ext; intro i|]; apply repr_ext; intros j _; cbn; ring.
  - destruct (H arm m (or_introl eq_refl)) as ((Hp & x & w & Ex & Ew & Lw & Wp & U & B & F) & Hm & He). cbn [fst snd].
    unfold rget at 1 2. rewrite Ew, dget_dmap, Ex. cbn [of_option option_map rbind]. cbn zeta.
    rewrite pad_rows_length, Nat.eqb_refl by easy.
    assert (map reso_weight (map Fin w) = map Fin (map uw w)) as -> by (rewrite !map_map; apply map_ext; intro; apply reso_weight_fin).
    rewrite !map_length, Lw, pad_spec by easy.
    destruct (arm_indices mn dw n x Hdw U B) as (Nd & Rg).
    assert (forall i, rbind (zip2 nmul (map Fin (map uw w)) (map Fin (prow m mx (length x) i))) (fun v => fancy_add (repr n (R i)) (map (pix_idx mn dw) x) v)
      = Ok (repr n (fun j => R i j + qsum (map (fun k => used_weight s arm k * diagonal m k (Z.of_nat i - ctr))%Qc (filter (lands s mn dw j arm) (seq 0 (length x)))))%Qc)) as Row.
    { intro i. rewrite zip2_eq by (unfold prow; rewrite !map_length, seq_length; lia). cbn [rbind].
      rewrite (map2_Fin nmul Qcmult) by reflexivity. rewrite fancy_add_repr; auto.
      2: unfold prow; rewrite map2_length, !map_length, seq_length; lia.
      f_equal. apply repr_ext. intros j _. f_equal. unfold prow. apply (arm_land arm m x w Ex Ew Lw). intros y Hy. now apply B. }
    assert (map2 (fun crow row => rbind (zip2 nmul (map Fin (map uw w)) row) (fun v => fancy_add crow (map (pix_idx mn dw) x) v))
       (map (fun i => repr n (R i)) (seq 0 mx)) (map (fun d0 => map Fin (prow m mx (length x) d0)) (seq 0 mx))
      = map (fun i => Ok (repr n (fun j => R i j + qsum (map (fun k => used_weight s arm k * diagonal m k (Z.of_nat i - ctr))%Qc (filter (lands s mn dw j arm) (seq 0 (length x)))))%Qc)) (seq 0 mx)) as ->.
    { generalize (seq 0 mx). induction l as [|i l IHl]; [reflexivity|]. cbn [map map2]. now rewrite Row, IHl. }
    rewrite rseq_oks. cbn [rbind]. rewrite fancy_add_repr; auto; [|rewrite !map_length; lia]. cbn [rbind].
    rewrite (IH (fun a m' Hi => H a m' (or_intror Hi))). f_equal.
    assert (forall j, land_sum (map Z.to_nat (map (pix_idx mn dw) x)) (map uw w) j = qsum (map (fun k => used_weight s arm k) (filter (lands s mn dw j arm) (seq 0 (length x))))) as Nj.
    { intro j. rewrite <- (map_ext (fun k => used_weight s arm k * 1)%Qc) by (intro; ring).
      rewrite <- (arm_land arm m x w Ex Ew Lw (fun y Hy => proj1 (B y Hy)) (fun _ => 1%Qc)). f_equal.
      apply list_eq_nth_error. intro k. rewrite nth_error_map2, !nth_error_map. destruct (nth_error w k) as [q|] eqn:Eq; cbn [option_map]; [|reflexivity].
      rewrite nth_error_seq0 by (rewrite <- Lw; apply nth_error_Some; congruence). cbn. f_equal. ring. }
    assert (forall j, contrib ((arm, m) :: d) j = map (fun k => (used_weight s arm k, diagonal m k)) (filter (lands s mn dw j arm) (seq 0 (length x))) ++ contrib d j) as Cc
      by (intro j; unfold contrib; cbn [flat_map fst snd]; unfold dlist; now rewrite Ex).
    f_equal; [apply map_ext; intro i|]; apply repr_ext; intros j _; rewrite Cc, map_app, qsum_app.
    + rewrite map_map. cbn [fst snd]. ring.
    + rewrite Nj, (map_map (fun k => (used_weight s arm k, diagonal m k)) fst). cbn [fst]. ring.
Qed.
End Core.

Lemma contrib_pos s mn dw n p d j : (forall arm m, In (arm, m) d -> arm_fit s mn dw n p arm m) ->
  Forall (fun c => (0 < fst c)%Qc) (contrib s mn dw d j).
Proof.
  intro H. apply Forall_forall. intros c Hc. unfold contrib in Hc. apply in_flat_map in Hc as ((arm, m) & Hin & Hc).
  apply in_map_iff in Hc as (k & <- & Hk). cbn [fst snd] in *. destruct (H arm m Hin) as (_ & x & w & Ex & Ew & Lw & Wp & _).
  apply filter_In in Hk as (Hk & _). unfold dlist in Hk. rewrite Ex in Hk. apply in_seq in Hk.
  destruct (nth_error w k) as [q|] eqn:Eq; [|apply nth_error_None in Eq; lia].
  unfold used_weight, at_pix. rewrite Ew, nth_error_map, Eq. cbn [option_map]. fold (uw q). apply uw_pos.
  rewrite Forall_forall in Wp. apply Wp. now apply nth_error_In in Eq.
Qed.
Lemma qsum_pos l : l <> [] -> Forall (fun x => (0 < x)%Qc) l -> (0 < qsum l)%Qc.
Proof.
  destruct l as [|x l]; [easy|]. intros _ F. inversion F as [|? ? H1 H2]; subst. rewrite qsum_cons.
  assert (0 <= qsum l)%Qc as H3 by (apply qsum_nonneg; eapply Forall_impl; [|exact H2]; intros; now apply Qclt_le_weak).
  apply Qclt_le_trans with (x + 0)%Qc; [now rewrite Qcplus_0_r|]. now apply Qcplus_le_compat; [apply Qcle_refl|].
Qed.

Lemma reso_core s mn dw n p : (0 < dw)%Qc -> fr (s_f s) <> [] ->
  (forall arm m, In (arm, m) (fr (s_f s)) -> arm_fit s mn dw n p arm m) ->
  exists M, coadd_reso n (dmap (map (pix_idx mn dw)) (fw (s_f s))) (fweight (s_f s)) (fr (s_f s)) = Ok M /\ coadded_reso s mn dw n M.
Proof.
  intros Hd Hn H. unfold coadd_reso. set (reso := fr (s_f s)) in *. set (mx := fold_left Nat.max (map (length (A:=list num)) (dvals reso)) 0).
  destruct (fold_max_spec (map (length (A:=list num)) (dvals reso)) 0) as (_ & M2 & M3). fold mx in M2, M3.
  assert (forall arm m, In (arm, m) reso -> length m <= mx) as Le.
  { intros arm m Hin. apply M2. apply in_map. unfold dvals. now apply (in_map snd) in Hin. }
  assert (exists arm m, In (arm, m) reso /\ length m = mx) as Ex.
  { destruct M3 as [M3|M3].
    - destruct reso as [|(arm, m) r]; [easy|]. exists arm, m. split; [now left|]. specialize (Le arm m (or_introl eq_refl)). lia.
    - apply in_map_iff in M3 as (m & E & Hm). unfold dvals in Hm. apply in_map_iff in Hm as ((arm, m') & Em & Hin). cbn in Em. subst m'. eauto. }
  assert (Nat.even mx = p) as Ep by (destruct Ex as (arm & m & Hin & <-); now destruct (H arm m Hin)).
  rewrite repr_zero. replace (repeat (repr n (fun _ => 0%Qc)) mx) with (map (fun _ : nat => repr n (fun _ => 0%Qc)) (seq 0 mx)).
  2: { generalize (repr n (fun _ => 0%Qc)). clear. intro r. generalize 0. induction mx as [|k IH]; intro a; [reflexivity|]. cbn. now rewrite IH. }
  assert (forall arm m, In (arm, m) reso -> arm_fit s mn dw n p arm m /\ length m <= mx /\ Nat.even (length m) = Nat.even mx) as Hh
    by (intros arm m Hin; split; [now apply H|]; split; [now apply (Le arm)|]; rewrite Ep; now destruct (H arm m Hin)).
  pose proof (reso_loop s mn dw n p Hd mx reso Hh (fun _ _ => 0%Qc) (fun _ => 0%Qc)) as RL. cbv zeta beta in RL |- *. rewrite RL. clear RL.
  cbn [rbind]. eexists. split; [reflexivity|].
  assert (L : forall f : nat -> arr, length (map (fun r => map2 ndiv r (snd (map f (seq 0 mx), repr n (fun j => 0 + qsum (map fst (contrib s mn dw reso j)))%Qc)))
     (map f (seq 0 mx))) = mx) by (intro; now rewrite !map_length, seq_length).
  unfold coadded_reso. cbn [fst snd]. rewrite map_map. fold reso. unfold middle. rewrite map_length, seq_length.
  split; [exact Le|]. split; [exact Ex|]. split.
  - apply Forall_map, Forall_forall. intros i _. rewrite map2_length, !repr_length. lia.
  - intros j d Hj Hdm. unfold entry_at. rewrite nth_error_map, nth_error_seq0 by easy. cbn [option_map].
    rewrite nth_error_map2, !repr_nth, (proj2 (Nat.ltb_lt _ _) Hj). unfold contributions. fold reso. fold (contrib s mn dw reso j).
    split.
    + intro C. assert (0 < qsum (map fst (contrib s mn dw reso j)))%Qc as Hq.
      { apply qsum_pos; [now destruct (contrib s mn dw reso j)|]. apply Forall_map. now apply contrib_pos with n p. }
      unfold mean_at. f_equal. unfold ndiv. rewrite !Qcplus_0_l.
      destruct (qeqb (qsum (map fst (contrib s mn dw reso j))) 0) eqn:E; [|reflexivity].
      apply qeqb_true in E. rewrite E in Hq. discriminate Hq.
    + intros ->. cbn. reflexivity.
Qed.

Lemma map_add_seq a l : map (fun i => a + i) (seq 0 l) = seq a l.
Proof.
  apply list_eq_nth_error. intro k. rewrite nth_error_map. destruct (Nat.lt_ge_cases k l) as [H|H].
  - rewrite nth_error_seq0 by easy. cbn. rewrite (nth_error_nth' _ 0) by (rewrite seq_length; lia). now rewrite seq_nth.
  - rewrite !(proj2 (nth_error_None _ k)) by (rewrite seq_length; lia). reflexivity.
Qed.
(** the columns keep their sums *)
Lemma padded_sum m mx k : length m <= mx -> Nat.even (length m) = Nat.even mx ->
  qsum (map (fun d => diagonal m k (Z.of_nat d - Z.of_nat ((mx - 1) / 2))) (seq 0 mx)) = column_sum m k.
Proof.
  intros H E. unfold column_sum, middle.
  assert (Z0 : forall o, (middle m + o < 0)%Z \/ (Z.of_nat (length m) <= middle m + o)%Z -> diagonal m k o = 0%Qc).
  { intros o Ho. unfold diagonal. destruct (Z.ltb_spec (middle m + o) 0); [reflexivity|]. destruct Ho as [Ho|Ho]; [lia|].
    rewrite (proj2 (nth_error_None _ _)) by lia. reflexivity. }
  assert (Zs : forall a l, (forall d, a <= d < a + l -> diagonal m k (Z.of_nat d - Z.of_nat ((mx - 1) / 2)) = 0%Qc) ->
     qsum (map (fun d => diagonal m k (Z.of_nat d - Z.of_nat ((mx - 1) / 2))) (seq a l)) = 0%Qc).
  { intros a l Hz. rewrite (map_ext_in _ (fun _ => 0%Qc)); [apply qsum_map_0|]. intros d Hd. apply in_seq in Hd. now apply Hz. }
  destruct (Nat.eq_dec (length m) 0) as [Em|Em].
  { rewrite Em. cbn [seq map]. rewrite Zs; [reflexivity|]. intros d _. apply Z0. unfold middle. rewrite Em. cbn. lia. }
  pose proof (half_diff (length m) mx H E ltac:(lia)) as Hh. set (dd := (mx - length m) / 2) in *.
  assert (2 * dd = mx - length m) as Hdd.
  { assert (Nat.even (mx - length m) = true) as Ev by (rewrite Nat.even_sub by lia; rewrite E; now destruct (Nat.even mx)).
    apply Nat.even_spec in Ev as (q & Eq). unfold dd. rewrite Eq, (Nat.mul_comm 2 q), Nat.div_mul by lia. lia. }
  assert (seq 0 mx = seq 0 dd ++ seq dd (length m) ++ seq (dd + length m) dd) as -> by (rewrite <- !seq_app; f_equal; lia).
  rewrite !map_app, !qsum_app.
  rewrite (Zs 0 dd) by (intros d Hd; apply Z0; unfold middle; lia).
  rewrite (Zs (dd + length m) dd) by (intros d Hd; apply Z0; unfold middle; lia).
  rewrite Qcplus_0_l, Qcplus_0_r. f_equal.
  replace (seq dd (length m)) with (map (fun i => dd + i) (seq 0 (length m))) by apply map_add_seq.
  rewrite map_map. apply map_ext. intro i. f_equal. lia.
Qed.

Lemma set_forest_weight_fr varlss eta s s' : set_forest_weight varlss eta s = Ok s' -> fr (s_f s') = fr (s_f s).
Proof.
  unfold set_forest_weight. destruct (_ || _).
  - intro E. assert (s' = set_f (alias_weight_to_sm (s_f s)) s) as -> by congruence. reflexivity.
  - intro E. apply rbind_Ok in E as (w & _ & E). match type of E with Ok ?t = _ => assert (s' = t) as -> by congruence end. reflexivity.
Qed.
Lemma smooth_fr smooth dw sc s : fr (s_f (set_smooth_forestivar smooth dw sc s)) = fr (s_f s).
Proof. unfold set_smooth_forestivar. destruct (qleb _ _); reflexivity. Qed.

Lemma entries_nonneg s arm x : proper s -> all_finite (ff (s_f s)) -> all_finite (fivar (s_f s)) -> all_finite (fweight (s_f s)) ->
  weights_ok (all_entries s) -> dget arm (fw (s_f s)) = Some x ->
  exists w, dget arm (fweight (s_f s)) = Some (map Fin w) /\ length w = length x /\ Forall (fun v => (0 <= v)%Qc) w.
Proof.
  intros P F1 F2 F3 Wk Ex. destruct (arm_entries_parts s arm x P F1 F2 F3 Ex) as (E1 & E2 & _).
  exists (map e_weight (arm_entries s arm)). split; [exact E2|]. split; [rewrite <- E1; now rewrite !map_length|].
  apply Forall_map, Forall_forall. intros e He. apply (Wk e). unfold all_entries. apply in_flat_map. exists (arm, x). split; [now apply dget_In|exact He].
Qed.
Lemma fit_of s mn dw n p : proper s -> all_finite (ff (s_f s)) -> all_finite (fivar (s_f s)) -> all_finite (fweight (s_f s)) ->
  uniform_arms dw s -> weights_ok (all_entries s) -> reso_finite s ->
  (forall arm m, In (arm, m) (fr (s_f s)) -> Nat.even (length m) = p /\
    exists x, dget arm (fw (s_f s)) = Some x /\ Forall (fun row => length row = length x) m) ->
  (forall e, In e (all_entries s) -> (mn <= e_wave e)%Qc /\ (pix_idx mn dw (e_wave e) < Z.of_nat n)%Z) ->
  forall arm m, In (arm, m) (fr (s_f s)) -> arm_fit s mn dw n p arm m.
Proof.
  intros P F1 F2 F3 U Wk Rf Hr B arm m Hin. destruct (Hr arm m Hin) as (Hp & x & Ex & Fm). split; [exact Hp|].
  destruct (entries_nonneg s arm x P F1 F2 F3 Wk Ex) as (w & Ew & Lw & Wp). exists x, w.
  split; [exact Ex|]. split; [exact Ew|]. split; [exact Lw|]. split; [exact Wp|]. split; [exact (proj2 (proj2 U arm x Ex))|]. split.
  - intros y Hy. destruct (proj1 (wave_of_entry s P F1 F2 F3 y)) as (e & He & <-); [exists arm, x; split; [now apply dget_In|exact Hy]|]. now apply B.
  - apply Forall_forall. intros row Hrow. split; [rewrite Forall_forall in Fm; now apply Fm|]. now apply (Rf arm m row).
Qed.

Lemma reso_thm nsqrt smooth junk dw varlss eta s :
  (forall l q, length (smooth l q) = length l) -> (0 < dw)%Qc -> coaddable dw s -> fr (s_f s) <> [] -> reso_finite s ->
  exists s' mn mx M, coadd_arms_forest nsqrt smooth junk dw varlss eta s = Ok s' /\ smallest s mn /\ largest s mx /\
    fw (s_f s') = [("brz"%string, linspace mn mx (grid_n mn mx dw))] /\
    fr (s_f s') = [("brz"%string, M)] /\ coadded_reso s mn dw (grid_n mn mx dw) M.
Proof.
  intros Hs Hd (P & F1 & F2 & F3 & U & Wk & Hc & Hr) Hn Rf.
  destruct (coadd_spec nsqrt smooth Hs junk dw varlss eta s P F1 F2 F3 Hd U Wk Hc Hr) as (s' & mn' & mx' & E & Smn' & Smx' & _ & _ & _ & Efw & _).
  destruct (coadd_limits s dw P F1 F2 F3 U) as (fs & ls & mn & mx & Efs & Els & Emn & Emx & Smn & Smx).
  assert (mn' = mn) as ->.
  { destruct Smn' as ((e1 & G1 & <-) & G2), Smn as ((e2 & G3 & <-) & G4). apply Qcle_antisym; auto. }
  assert (mx' = mx) as ->.
  { destruct Smx' as ((e1 & G1 & <-) & G2), Smx as ((e2 & G3 & <-) & G4). apply Qcle_antisym; auto. }
  destruct Hr as (par & Hr).
  destruct (reso_core s mn dw (grid_n mn mx dw) par Hd Hn) as (M & EM & HM).
  { apply fit_of; auto. intros e He. split; [now apply Smn|]. apply grid_bound; auto; [now apply Smn|now apply Smx]. }
  exists s', mn, mx, M. repeat (split; [assumption|]). split; [|exact HM].
  unfold coadd_arms_forest in E. rewrite Efs, Els in E. cbn [rbind] in E. rewrite Emn, Emx in E. cbn [rbind] in E.
  apply rbind_Ok in E as (a & _ & E). destruct (coadd_finish a) as (cf & ci).
  apply rbind_Ok in E as (c1 & _ & E). unfold grid_n in EM. rewrite EM in E.
  destruct (fr (s_f s)) as [|r0 r1] eqn:Er; [easy|]. cbn [dtrue rmap rbind] in E.
  apply rbind_Ok in E as (s3 & E3 & E). apply rbind_Ok in E as (d & _ & E).
  apply set_forest_weight_fr in E3. rewrite smooth_fr in E3. cbn in E3.
  match type of E with Ok ?t = _ => assert (s' = t) as -> by congruence end. exact E3.
Qed.

Lemma qsum_swap {A B} (f : A -> B -> Qc) la lb :
  qsum (map (fun a => qsum (map (f a) lb)) la) = qsum (map (fun b => qsum (map (fun a => f a b) la)) lb).
Proof.
  induction la as [|a la IH]; [cbn [map]; symmetry; apply qsum_map_0|]. cbn [map]. rewrite qsum_cons, IH.
  rewrite <- (qsum_map_plus (f a) (fun b => qsum (map (fun a0 => f a0 b) la))). reflexivity.
Qed.
Lemma sums_thm s mn dw n p M t j : (forall arm m, In (arm, m) (fr (s_f s)) -> arm_fit s mn dw n p arm m) ->
  coadded_reso s mn dw n M -> j < n -> contributions s mn dw j <> [] ->
  (forall arm m k, In (arm, m) (fr (s_f s)) -> lands s mn dw j arm k = true -> column_sum m k = t) -> column_sum M j = t.
Proof.
  intros Hf (Le & (arm0 & m0 & Hin0 & L0) & _ & He) Hj Hc Ht. unfold column_sum.
  set (C := contributions s mn dw j) in *.
  assert (0 < qsum (map fst C))%Qc as W.
  { apply qsum_pos; [now destruct C|]. apply Forall_map. exact (contrib_pos s mn dw n p (fr (s_f s)) j Hf). }
  assert (qsum (map fst C) <> 0)%Qc as W0 by (intro E; rewrite E in W; discriminate W).
  rewrite (map_ext_in _ (fun d => (/ qsum (map fst C)) * qsum (map (fun c => fst c * snd c (Z.of_nat d - middle M)%Z) C)))%Qc.
  2: { intros d Hd. apply in_seq in Hd. destruct (He j d Hj ltac:(lia)) as (E & _). specialize (E Hc). fold C in E.
       unfold diagonal. replace (middle M + (Z.of_nat d - middle M))%Z with (Z.of_nat d) by lia.
       destruct (Z.ltb_spec (Z.of_nat d) 0); [lia|]. rewrite Nat2Z.id. unfold entry_at in E.
       destruct (nth_error M d) as [row|]; [|discriminate E]. rewrite E. unfold mean_at, Qcdiv. ring. }
  rewrite qsum_map_mult, qsum_swap.
  rewrite (map_ext_in (fun b : Qc * (Z -> Qc) => qsum (map (fun a : nat => fst b * snd b (Z.of_nat a - middle M)%Z)%Qc (seq 0 (length M)))) (fun c => t * fst c)%Qc).
  - rewrite (qsum_map_mult fst t). field. exact W0.
  - intros c Hin. rewrite (qsum_map_mult (fun d => snd c (Z.of_nat d - middle M)%Z) (fst c)). rewrite Qcmult_comm. f_equal.
    unfold C, contributions in Hin. apply in_flat_map in Hin as ((arm, m) & Ham & Hin). apply in_map_iff in Hin as (k & <- & Hk). cbn [fst snd] in *.
    apply filter_In in Hk as (Hk & Hl). rewrite <- (Ht arm m k Ham Hl). unfold middle. apply padded_sum; [now apply (Le arm)|].
    destruct (Hf _ _ Ham) as (-> & _). rewrite <- L0. now destruct (Hf _ _ Hin0) as (-> & _).
Qed.

Lemma reso_sums nsqrt smooth junk dw varlss eta s t :
  (forall l q, length (smooth l q) = length l) -> (0 < dw)%Qc -> coaddable dw s -> fr (s_f s) <> [] -> reso_finite s ->
  exists s' mn mx M, coadd_arms_forest nsqrt smooth junk dw varlss eta s = Ok s' /\ smallest s mn /\ largest s mx /\
    fr (s_f s') = [("brz"%string, M)] /\
    forall j, j < grid_n mn mx dw -> contributions s mn dw j <> [] ->
      (forall arm m k, In (arm, m) (fr (s_f s)) -> lands s mn dw j arm k = true -> column_sum m k = t) -> column_sum M j = t.
Proof.
  intros Hs Hd C Hn Rf. destruct (reso_thm nsqrt smooth junk dw varlss eta s Hs Hd C Hn Rf) as (s' & mn & mx & M & E & Smn & Smx & _ & Em & HM).
  destruct C as (P & F1 & F2 & F3 & U & Wk & Hc & (par & Hr)).
  exists s', mn, mx, M. repeat (split; [assumption|]). intros j Hj Hne Ht.
  apply (sums_thm s mn dw (grid_n mn mx dw) par M t j); auto.
  apply fit_of; auto. intros e He. split; [now apply Smn|]. apply grid_bound; auto; [now apply Smn|now apply Smx].
Qed.

(** full spectra *)
Lemma simple_reso st s :
  s_wave s = st_wave st -> coadd_grid_fresh st ->
  NoDup (dkeys (s_wave s)) -> data_matches_grid s ->
  (forall arm w, dget arm (s_wave s) = Some w -> ascending w) ->
  all_finite (s_flux s) -> all_finite (s_ivar s) ->
  (0 < st_dwave st)%Qc -> uniform_arms (st_dwave st) (full_spectrum s) ->
  (forall e, In e (all_entries (full_spectrum s)) -> (0 <= e_ivar e)%Qc) ->
  reso_fits (full_spectrum s) -> s_reso s <> [] -> reso_finite (full_spectrum s) ->
  exists st' s' mn n M, simple_coadd st s = Ok (st', s') /\ smallest (full_spectrum s) mn /\
    s_wave s' = [("brz"%string, map (fun j => mn + zq (Z.of_nat j) * st_dwave st)%Qc (seq 0 n))] /\
    s_reso s' = [("brz"%string, M)] /\ coadded_reso (full_spectrum s) mn (st_dwave st) n M.
Proof.
  intros Ew Fr Nd Dm Asc Ff Fi Hd U I0 Hr Hn Rf.
  destruct (simple_coadd_spec st s Ew Fr Nd Dm Asc Ff Fi Hd U I0 Hr) as (st' & s' & mn & n & E & Smn & Sw & Ewv & Land & _).
  destruct Hr as (par & Hr). set (t := full_spectrum s) in *.
  assert (proper t) as P.
  { split; [|split; [|split]]; [|exact Nd|exact Asc|repeat split; cbn; lia].
    intro arm. destruct (Dm arm) as (D1 & D2). repeat split; auto. }
  change (s_flux s) with (ff (s_f t)) in Ff. change (s_ivar s) with (fivar (s_f t)) in Fi.
  assert (all_finite (fweight (s_f t))) as Fw by exact Fi.
  assert (ivar_weights (all_entries t)) as Iw.
  { intros e He. apply in_all_entries in He as (arm & x & Hin & He); auto.
    unfold arm_entries in He. unfold dlist in He.
    change (fweight (s_f t)) with (fivar (s_f t)) in He. revert He. clear.
    generalize (match dget arm (fw (s_f t)) with Some l => l | None => [] end).
    generalize (match dget arm (fivar (s_f t)) with Some l => l | None => [] end).
    generalize (match dget arm (ff (s_f t)) with Some l => l | None => [] end).
    intros f i w. revert f w. induction i as [|a i IH]; intros f w He; destruct w as [|b w], f as [|c f]; try easy.
    cbn in He. destruct He as [<-|He]; [easy|]. eapply IH; eauto. }
  assert (weights_ok (all_entries t)) as Wk.
  { intros e He. rewrite (Iw e He). auto. }
  destruct (reso_core t mn (st_dwave st) n par Hd Hn) as (M & EM & HM).
  { apply fit_of; auto. intros e He. split; [now apply Smn|]. destruct (Land e He) as (j & Hj & Hin & _).
    unfold landing in Hin. apply filter_In in Hin as (_ & Hin). rewrite on_pixel_idx in Hin; [|exact Hd|now apply Smn].
    apply Nat.eqb_eq in Hin. pose proof (pix_idx_nonneg mn (st_dwave st) (e_wave e) Hd (proj2 Smn e He)). lia. }
  exists st', s', mn, n, M. repeat (split; [assumption|]). split; [|exact HM].
  assert (0 < n) as Hn0 by (destruct Smn as ((e & He & _) & _); destruct (Land e He) as (j & Hj & _); lia).
  unfold simple_coadd in E. apply rbind_Ok in E as (st1 & E1 & E).
  assert (st_dwave st1 = st_dwave st) as Ed.
  { unfold set_coadd_wave in E1. destruct (dtrue (st_coadd st)); [congruence|].
    apply rbind_Ok in E1 as (? & _ & E1). apply rbind_Ok in E1 as (? & _ & E1). apply rbind_Ok in E1 as (? & _ & E1). apply rbind_Ok in E1 as (? & _ & E1).
    match type of E1 with Ok ?t = _ => assert (st1 = t) as -> by congruence end. reflexivity. }
  apply rbind_Ok in E as (cw & E2 & E). apply rbind_Ok in E as (mw & E3 & E). apply rbind_Ok in E as (a & _ & E).
  destruct (coadd_finish a) as (cf & ci). apply rbind_Ok in E as (r1 & E4 & E).
  match type of E with Ok (_, ?t) = _ => assert (s' = t) as -> by congruence end. cbn [s_wave s_reso] in *.
  rewrite Ewv in E2. unfold rget in E2. cbn in E2. assert (cw = map (fun j => mn + zq (Z.of_nat j) * st_dwave st)%Qc (seq 0 n)) as -> by congruence.
  assert (mw = mn) as ->.
  { destruct n as [|n]; [lia|]. cbn in E3. assert (mw = mn + zq 0 * st_dwave st)%Qc as -> by (cbn; congruence). change (zq 0) with 0%Qc. ring. }
  rewrite map_length, seq_length, Ed in E4. change (fw (s_f t)) with (s_wave s) in EM. change (fweight (s_f t)) with (s_ivar s) in EM. change (fr (s_f t)) with (s_reso s) in EM. rewrite EM in E4.
  destruct (s_reso s); [easy|]. cbn in E4. congruence.
Qed.
