(** The stack of the fluxes in qsonic-calib. *)
From Coq Require Import ZArith String List Bool Arith Lia Qcanon Field.
From Verif Require Import Num NpList NpListFacts Exn Dict Mpi ModelSpectrum ModelDelta ModelStack ModelCalib SpecCalib ProofCoadd ProofStack SpecMpi ProofLock.
Import ListNotations.
Local Open Scope nat_scope.

Lemma zq_half_lt a b : (zq a - fq 1 2 < b)%Qc <-> (zq a < b + fq 1 2)%Qc.
Proof. split; intro H; qlra. Qed.

(** a pixel that is not halfway falls on index z iff it is around w1 + z step *)
Lemma index_around w1 step w z : (0 < step)%Qc -> w <> (w1 + (zq z + fq 1 2) * step)%Qc -> w <> (w1 + (zq (z - 1) + fq 1 2) * step)%Qc ->
  (pix_index w1 step w =? z)%Z = qltb (w1 + zq z * step - step * fq 1 2)%Qc w && qltb w (w1 + zq z * step + step * fq 1 2)%Qc.
Proof.
  intros P N1 N2. unfold pix_index. set (x := ((w - w1) / step)%Qc).
  assert (step <> 0)%Qc as Hne by now apply Qc_pos_neq.
  assert (w = w1 + x * step)%Qc as Ew by (unfold x; field; exact Hne).
  assert (forall u v : Qc, (u < v)%Qc <-> (w1 + u * step < w1 + v * step)%Qc) as M.
  { intros u v. split; intro H.
    - apply (Qcmult_lt_compat_r _ _ step P) in H. qlra.
    - apply Qcnot_le_lt. intro C. apply (Qcmult_le_compat_r _ _ step) in C; [|now apply Qclt_le_weak].
      apply (Qclt_not_le _ _ H). qlra. }
  assert (qltb (w1 + zq z * step - step * fq 1 2)%Qc w = qltb (zq z - fq 1 2)%Qc x) as ->.
  { replace (w1 + zq z * step - step * fq 1 2)%Qc with (w1 + (zq z - fq 1 2) * step)%Qc by ring. rewrite Ew at 1.
    apply eq_true_iff_eq. rewrite !qltb_true. symmetry. apply M. }
  assert (qltb w (w1 + zq z * step + step * fq 1 2)%Qc = qltb x (zq z + fq 1 2)%Qc) as ->.
  { replace (w1 + zq z * step + step * fq 1 2)%Qc with (w1 + (zq z + fq 1 2) * step)%Qc by ring. rewrite Ew at 1.
    apply eq_true_iff_eq. rewrite !qltb_true. symmetry. apply M. }
  apply eq_true_iff_eq. rewrite Z.eqb_eq, andb_true_iff, !qltb_true. split.
  - intros <-. destruct (qround_spec x) as [H1 H2]. split; apply Qcnot_le_lt; intro C.
    + apply N2. assert (x = zq (qround x) - fq 1 2)%Qc as E by (apply Qcle_antisym; assumption).
      rewrite Ew. f_equal. f_equal. rewrite E at 1. replace (zq (qround x - 1)) with (zq (qround x) - 1)%Qc.
      * assert (fq 1 2 + fq 1 2 = 1)%Qc as E2 by (apply Qc_is_canon; reflexivity). rewrite <- E2. ring.
      * replace (qround x) with ((qround x - 1) + 1)%Z at 1 by lia. rewrite zq_plus, zq_1. ring.
    + apply N1. assert (x = zq (qround x) + fq 1 2)%Qc as E by (apply Qcle_antisym; assumption).
      rewrite Ew. f_equal. f_equal. exact E.
  - intros [H1 H2]. now apply qround_near.
Qed.
Lemma on_grid_index w1 step d p z : (0 < step)%Qc -> on_grid w1 step d -> In (f_wave p) (d_wave d) ->
  (pix_index w1 step (f_wave p) =? z)%Z = around step (w1 + zq z * step)%Qc p.
Proof. intros P (_ & _ & H) Hp. apply index_around; [exact P|now apply H..]. Qed.

(** the pixels of a delta fall on different indices *)
Lemma index_close w1 step u v : (0 < step)%Qc -> pix_index w1 step u = pix_index w1 step v -> (v - u <= step)%Qc.
Proof.
  intros P E. unfold pix_index in E.
  destruct (qround_spec ((u - w1) / step)%Qc) as [H1 _]. destruct (qround_spec ((v - w1) / step)%Qc) as [_ H2].
  rewrite E in H1. set (z := zq (qround ((v - w1) / step)%Qc)) in *.
  assert ((v - w1) / step - (u - w1) / step <= 1)%Qc as H.
  { assert (fq 1 2 + fq 1 2 = 1)%Qc as E2 by (apply Qc_is_canon; reflexivity). rewrite <- E2. qlra. }
  apply (Qcmult_le_compat_r _ _ step) in H; [|now apply Qclt_le_weak].
  assert (step <> 0)%Qc as Hne by now apply Qc_pos_neq.
  replace (((v - w1) / step - (u - w1) / step) * step)%Qc with (v - u)%Qc in H by (field; exact Hne).
  now rewrite Qcmult_1_l in H.
Qed.
Lemma index_apart w1 step d : (0 < step)%Qc -> on_grid w1 step d -> NoDup (map (pix_index w1 step) (d_wave d)).
Proof.
  intros P (_ & S & H). set (l := d_wave d) in *.
  apply (NoDup_nth _ (pix_index w1 step 0%Qc)). rewrite map_length.
  assert (forall i j, i < j < length l -> pix_index w1 step (nth i l 0%Qc) = pix_index w1 step (nth j l 0%Qc) -> False) as K.
  { intros i j L E. pose proof (index_close _ _ _ _ P E) as C. specialize (S i j L).
    set (u := nth i l 0%Qc) in *. set (v := nth j l 0%Qc) in *.
    assert (v = u + step)%Qc as Ev by (apply Qcle_antisym; qlra).
    (* then u and v are both halfway *)
    unfold pix_index in E. destruct (qround_spec ((u - w1) / step)%Qc) as [A _]. destruct (qround_spec ((v - w1) / step)%Qc) as [_ B].
    assert (step <> 0)%Qc as Hne by now apply Qc_pos_neq.
    assert ((v - w1) / step = (u - w1) / step + 1)%Qc as D by (rewrite Ev; field; exact Hne).
    rewrite <- E, D in B. set (z := qround ((u - w1) / step)%Qc) in *.
    assert (fq 1 2 + fq 1 2 = 1)%Qc as E2 by (apply Qc_is_canon; reflexivity).
    assert ((u - w1) / step = zq z - fq 1 2)%Qc as F.
    { apply Qcle_antisym; [|exact A]. rewrite <- E2 in B. qlra. }
    apply (H u (z - 1)%Z); [apply nth_In; lia|].
    replace (zq (z - 1)) with (zq z - 1)%Qc by (replace z with ((z - 1) + 1)%Z at 1 by lia; rewrite zq_plus, zq_1; ring).
    replace (zq z - 1 + fq 1 2)%Qc with ((u - w1) / step)%Qc by (rewrite F, <- E2; ring). field. exact Hne. }
  intros i j Li Lj E. rewrite !map_nth in E.
  destruct (Nat.lt_trichotomy i j) as [L|[L|L]]; [exfalso; apply (K i j); [lia|exact E]|exact L|exfalso; apply (K j i); [lia|now symmetry]].
Qed.

(** ** one delta *)
Section Stack.
Variables (w1 step : Qc) (n : nat).
Hypothesis P : (0 < step)%Qc.
Definition fsum (g : fluxpix -> Qc) (l : list fluxpix) (j : nat) : Qc :=
  qsum (map g (filter (around step (w1 + zq (Z.of_nat j) * step)%Qc) l)).
Definition wflux (p : fluxpix) : Qc := (f_weight p * (1 + f_delta p))%Qc.
Lemma fsum_app g l m j : fsum g (l ++ m) j = (fsum g l j + fsum g m j)%Qc.
Proof. unfold fsum. now rewrite filter_app, map_app, qsum_app. Qed.

Lemma NoDup_map_filter {A B} (f : A -> B) p l : NoDup (map f l) -> NoDup (map f (filter p l)).
Proof.
  induction l as [|x l IH]; [easy|]. cbn [map]. intro H. inversion H as [|? ? H1 H2]; subst. cbn [filter].
  destruct (p x); [|now apply IH]. cbn [map]. constructor; [|now apply IH]. intro C. apply H1.
  apply in_map_iff in C as (z & E & Hz). apply filter_In in Hz. rewrite <- E. apply in_map. tauto.
Qed.
Lemma land_sum_map {A} (f : A -> nat) (g : A -> Qc) l j : land_sum (map f l) (map g l) j = qsum (map g (filter (fun x => f x =? j) l)).
Proof.
  induction l as [|x l IH]; [reflexivity|]. cbn [map]. rewrite land_sum_cons, IH. cbn [filter].
  destruct (f x =? j); cbn [map]; [rewrite qsum_cons; ring|ring].
Qed.

Lemma stack_delta_spec d F E : on_grid w1 step d ->
  stack_delta w1 step n d (repr n F, repr n E) =
  Ok (repr n (fun j => F j + fsum wflux (flux_pixels d) j)%Qc, repr n (fun j => E j + fsum f_weight (flux_pixels d) j)%Qc).
Proof.
  intro G. pose proof G as ((x & wt & Ex & Ewt & Lx & Lw) & _ & _). unfold stack_delta.
  rewrite Ex, Ewt, !map_length, Lx, Lw, Nat.eqb_refl. cbn [negb orb].
  set (idx := fun p : fluxpix => pix_index w1 step (f_wave p)).
  assert (forall p, In p (flux_pixels d) -> In (f_wave p) (d_wave d)) as Hin.
  { intros p Hp. apply in_map_iff in Hp as ((w & u & v) & <- & Hp). cbn. now apply in_combine_l in Hp. }
  assert (combine (map (pix_index w1 step) (d_wave d)) (combine (map (nadd n1) (map Fin x)) (map Fin wt))
          = map (fun p => (idx p, (Fin (1 + f_delta p)%Qc, Fin (f_weight p)))) (flux_pixels d)) as Ec.
  { unfold flux_pixels, idx. rewrite Ex, Ewt. clear - Lx Lw. revert x wt Lx Lw.
    induction (d_wave d) as [|w l IH]; intros [|a x] [|b wt] Lx Lw; try discriminate; [reflexivity|].
    cbn. f_equal. apply IH; [now injection Lx|now injection Lw]. }
  rewrite Ec. clear Ec. set (px := flux_pixels d) in *.
  set (inr := fun p => Z.leb 0 (idx p) && Z.ltb (idx p) (Z.of_nat n)).
  assert (filter (fun t : Z * (num * num) => Z.leb 0 (fst t) && Z.ltb (fst t) (Z.of_nat n))
            (map (fun p => (idx p, (Fin (1 + f_delta p)%Qc, Fin (f_weight p)))) px)
          = map (fun p => (idx p, (Fin (1 + f_delta p)%Qc, Fin (f_weight p)))) (filter inr px)) as ->.
  { clear. induction px as [|p l IH]; [reflexivity|]. cbn [map filter fst]. unfold inr at 1. fold inr.
    destruct (_ && _); cbn [map]; now rewrite IH. }
  cbn [fst snd]. rewrite !map_map. cbn [fst snd nmul].
  replace (map (fun p => Fin ((1 + f_delta p) * f_weight p)%Qc) (filter inr px)) with (map Fin (map wflux (filter inr px)))
    by (rewrite map_map; apply map_ext; intro p; unfold wflux; f_equal; ring).
  replace (map (fun p => Fin (f_weight p)) (filter inr px)) with (map Fin (map f_weight (filter inr px))) by now rewrite map_map.
  assert (NoDup (map idx px)) as N0.
  { pose proof (index_apart w1 step d P G) as N. unfold px, flux_pixels, idx. rewrite map_map. cbn [f_wave].
    rewrite Ex, Ewt. replace (map _ (combine _ _)) with (map (pix_index w1 step) (d_wave d)); [exact N|].
    clear - Lx Lw. revert x wt Lx Lw. induction (d_wave d) as [|w l IH]; intros [|a x] [|b wt] Lx Lw; try discriminate; [reflexivity|].
    cbn. f_equal. apply IH; [now injection Lx|now injection Lw]. }
  assert (NoDup (map idx (filter inr px))) as N by now apply NoDup_map_filter.
  assert (Forall (fun i => (0 <= i < Z.of_nat n)%Z) (map idx (filter inr px))) as R.
  { apply Forall_forall. intros i Hi. apply in_map_iff in Hi as (p & <- & Hp). apply filter_In in Hp as [_ Hp].
    unfold inr in Hp. lia. }
  rewrite (fancy_add_repr n F) by (auto; now rewrite !map_length). cbn [rbind].
  rewrite (fancy_add_repr n E) by (auto; now rewrite !map_length). cbn [rbind].
  assert (forall g j, j < n -> land_sum (map Z.to_nat (map idx (filter inr px))) (map g (filter inr px)) j = fsum g px j) as K.
  { intros g j Hj. rewrite map_map, land_sum_map. unfold fsum. f_equal. f_equal. rewrite ProofCatalog.filter_filter.
    apply filter_ext_in. intros p Hp. rewrite <- (on_grid_index w1 step d p (Z.of_nat j) P G (Hin p Hp)).
    unfold inr, idx. destruct (Z.eqb_spec (pix_index w1 step (f_wave p)) (Z.of_nat j)) as [->|Ne].
    - rewrite Nat2Z.id, Nat.eqb_refl. lia.
    - destruct (Z.leb_spec 0 (pix_index w1 step (f_wave p))); [|reflexivity]. cbn [andb].
      destruct (Nat.eqb_spec (Z.to_nat (pix_index w1 step (f_wave p))) j); [lia|]. apply andb_false_r. }
  f_equal. f_equal; apply repr_ext; intros j Hj; now rewrite K.
Qed.

Lemma stack_deltas_spec l : forall F E, (forall d, In d l -> on_grid w1 step d) ->
  for_each l (stack_delta w1 step n) (repr n F, repr n E) =
  Ok (repr n (fun j => F j + fsum wflux (flat_map flux_pixels l) j)%Qc,
      repr n (fun j => E j + fsum f_weight (flat_map flux_pixels l) j)%Qc).
Proof.
  induction l as [|d l IH]; intros F E H.
  - cbn. f_equal. f_equal; apply repr_ext; intros j _; unfold fsum; cbn; ring.
  - cbn [for_each]. rewrite stack_delta_spec by (apply H; now left). cbn [rbind]. rewrite IH by (intros; apply H; now right).
    f_equal. f_equal; apply repr_ext; intros j _; cbn [flat_map]; rewrite fsum_app; ring.
Qed.
End Stack.
