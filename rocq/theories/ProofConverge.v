From Coq Require Import ZArith QArith String List Bool Arith Lia Qcanon Field.
From Verif Require Import Num NpList NpListFacts Exn Dict ModelSpectrum ModelStack ModelVarFit ModelFitter SpecMeanCont ProofCoadd ProofWeights ProofStack ProofMeanCont.
Import ListNotations.
Local Open Scope nat_scope.

Definition nonneg (x : num) : Prop := x = NaN \/ x = PInf \/ exists q, x = Fin q /\ (0 <= q)%Qc.
Lemma nsq_nonneg x : nonneg (nsq x).
Proof.
  destruct x as [q| | |]; [right; right; exists (q * q)%Qc; split; [reflexivity|]|left; reflexivity|right; left; reflexivity..].
  qnra.
Qed.
Lemma nsum_nonneg l : Forall nonneg l -> nonneg (nsum l) /\
  forall q, nsum l = Fin q -> forall x, In x l -> exists p, x = Fin p /\ (0 <= p)%Qc /\ (p <= q)%Qc.
Proof.
  induction 1 as [|x l Hx Hl IH]; [split; [right; right; exists 0%Qc; split; [reflexivity|discriminate]|intros q _ x []]|].
  destruct IH as [IH1 IH2]. cbn [nsum fold_right]. fold (nsum l).
  destruct Hx as [->|[->|(p & -> & Hp)]].
  - split; [left; now destruct (nsum l)|]. intros q H. destruct (nsum l); discriminate.
  - destruct IH1 as [E|[E|(s & E & Hs)]]; rewrite E; (split; [cbn; unfold nonneg; auto|]); intros q H; discriminate.
  - destruct IH1 as [E|[E|(s & E & Hs)]]; rewrite E; cbn [nadd].
    + split; [left; reflexivity|discriminate].
    + split; [right; left; reflexivity|discriminate].
    + split; [right; right; eexists; split; [reflexivity|qlra]|]. intros q H. injection H as <-. intros x [<-|Hin].
      * exists p. repeat split; try assumption. qlra.
      * destruct (IH2 s E x Hin) as (a & -> & Ha & Hb). exists a. repeat split; try assumption. qlra.
Qed.
Lemma converged_points g norm std : length (g_rfwave g) <= 108 -> has_converged g norm std = true ->
  forall n s, In (n, s) (combine norm std) -> nltb (nabs n) (nmul (nlit 33 100) (nabs s)) = true.
Proof.
  intros HN H n s Hin. unfold has_converged in H. apply orb_true_iff in H as [H|H].
  - set (terms := map2 (fun n s => nsq (ndiv n s)) norm std) in H.
    assert (Forall nonneg terms) as F.
    { unfold terms. clear. revert std. induction norm; intros [|s std]; cbn; constructor; [apply nsq_nonneg|apply IHnorm]. }
    assert (In (nsq (ndiv n s)) terms) as Ht.
    { unfold terms. clear - Hin. revert std Hin. induction norm as [|a l IH]; intros [|b m] H; cbn in *; try easy.
      destruct H as [E|H]; [injection E as -> ->; now left|right; now apply IH]. }
    destruct (nsum_nonneg terms F) as [Hs Hall].
    set (N := length (g_rfwave g)) in *.
    assert (exists q, nsum terms = Fin q /\ (q < fq 108 1000)%Qc) as (q & Eq & Hq).
    { destruct Hs as [E|[E|(q & E & Hq)]]; rewrite E in H.
      - discriminate.
      - cbn in H. destruct (qltb (zq (Z.of_nat N)) 0) eqn:En; [|discriminate].
        apply (proj1 (qltb_true _ _)) in En. rewrite <- zq_0 in En. apply (proj1 (zq_lt _ _)) in En. lia.
      - exists q. split; [assumption|]. destruct (Nat.eq_dec N 0) as [En|En].
        + rewrite En in H. cbn in H. unfold infsgn in H. change (qeqb (zq 0) 0) with true in H. cbn in H.
          destruct (qeqb q 0) eqn:E1; [discriminate|]. destruct (qltb 0 q) eqn:E2; [discriminate|].
          apply (proj1 (qltb_false _ _)) in E2. apply (proj1 (qeqb_false _ _)) in E1. exfalso. apply E1. now apply Qcle_antisym.
        + assert (0 < zq (Z.of_nat N))%Qc as Hp by (rewrite <- zq_0; apply zq_lt; lia).
          assert (zq (Z.of_nat N) <= zq 108)%Qc as Hle by (apply zq_le; lia).
          rewrite ndiv_fin in H by now apply Qc_pos_neq. cbn in H. apply (proj1 (qltb_true _ _)) in H.
          set (z := zq (Z.of_nat N)) in *. assert (q / z * z = q)%Qc as Ez by (field; now apply Qc_pos_neq).
          set (d := (q / z)%Qc) in *. clearbody d z. change (fq 108 1000) with (fq 1 1000 * zq 108)%Qc.
          clear - H Hp Hle Ez Hq. subst q.
          assert (0 <= d)%Qc as Hd. { destruct (Qclt_le_dec d 0) as [K|K]; [|assumption]. exfalso. qnra. }
          assert (d * z < fq 1 1000 * z)%Qc as K1 by (apply Qcmult_lt_compat_r; assumption).
          assert (fq 1 1000 * z <= fq 1 1000 * zq 108)%Qc as K2.
          { rewrite (Qcmult_comm _ z), (Qcmult_comm _ (zq 108)). apply Qcmult_le_compat_r; [assumption|discriminate]. }
          now apply Qclt_le_trans with (fq 1 1000 * z)%Qc. }
    destruct (Hall q Eq _ Ht) as (p & Ep & _ & Hp).
    assert (p < fq 108 1000)%Qc as Hpp by now apply Qcle_lt_trans with q.
    clear - Ep Hpp. destruct n as [x| | |], s as [y| | |]; try discriminate.
    + cbn [ndiv] in Ep. destruct (qeqb y 0) eqn:Ey.
      { exfalso. unfold infsgn in Ep. destruct (qeqb x 0); [discriminate|]. destruct (qltb 0 x); discriminate. }
      apply (proj1 (qeqb_false _ _)) in Ey. cbn in Ep. injection Ep as Ep.
      assert (x = (x / y) * y)%Qc as Ex by (field; assumption). set (d := (x / y)%Qc) in *. clearbody d. subst x p.
      assert (d < fq 33 100 /\ - fq 33 100 < d)%Qc as [Hd1 Hd2].
      { split.
        - destruct (Qclt_le_dec d (fq 33 100)) as [K|K]; [assumption|]. exfalso. qnra.
        - destruct (Qclt_le_dec (- fq 33 100) d) as [K|K]; [assumption|]. exfalso. qnra. }
      clear Hpp. unfold nabs, n0. cbn [nltb nneg].
      destruct (qltb (d * y) 0) eqn:E1, (qltb y 0) eqn:E2; cbn [nmul nlit nltb]; apply (proj2 (qltb_true _ _));
        repeat match goal with
        | [ H : qltb _ _ = true |- _ ] => apply (proj1 (qltb_true _ _)) in H
        | [ H : qltb _ _ = false |- _ ] => apply (proj1 (qltb_false _ _)) in H end;
        (assert (0 < y \/ y < 0)%Qc as [Hy|Hy] by (destruct (Qclt_le_dec 0 y) as [K|K]; [now left|right; apply Qcle_lt_or_eq in K as [K|K]; [exact K|contradiction]]));
        try (exfalso; clear - Hy E2; qlra); clear Ey E1 E2; qnra.
    + unfold nabs. cbn. destruct (qltb x 0); reflexivity.
    + unfold nabs. cbn. destruct (qltb x 0); reflexivity.
    + cbn in Ep. destruct (qltb y 0); discriminate.
    + cbn in Ep. destruct (qltb y 0); discriminate.
  - rewrite forallb_forall in H. specialize (H _ Hin). cbn [fst snd] in H.
    assert (nabs s = s) as ->; [|assumption]. unfold nabs. destruct s as [y| | |]; cbn in *; try reflexivity.
    + destruct (qltb y 0) eqn:Ey; [|reflexivity]. exfalso. apply (proj1 (qltb_true _ _)) in Ey.
      unfold nabs, n0 in H. destruct n as [x| | |]; cbn in H; try discriminate.
      destruct (qltb x 0) eqn:Ex; cbn in H; apply (proj1 (qltb_true _ _)) in H;
        [apply (proj1 (qltb_true _ _)) in Ex|apply (proj1 (qltb_false _ _)) in Ex]; qlra.
    + exfalso. unfold nabs, n0 in H. destruct n as [x| | |]; cbn in H; try discriminate.
      destruct (qltb x 0); discriminate.
Qed.
Lemma nth_error_map2 {A B C} (f : A -> B -> C) a b i : 
  nth_error (map2 f a b) i = match nth_error a i, nth_error b i with Some x, Some y => Some (f x y) | _, _ => None end.
Proof. revert b i. induction a as [|x a IH]; intros [|y b] [|i]; cbn; try reflexivity; [now destruct (nth_error a i)|apply IH]. Qed.
Lemma nth_error_combine_In {A B} (a : list A) (b : list B) i x y : nth_error a i = Some x -> nth_error b i = Some y -> In (x, y) (combine a b).
Proof. revert b i. induction a as [|x' a IH]; intros [|y' b] [|i]; cbn; try discriminate; intros H1 H2; [left; congruence|right; eapply IH; eassumption]. Qed.
Lemma new_meancont_parts g uspline xs quad k c c' b :
  new_meancont g uspline xs quad k c = Ok (c', b) ->
  let norm := map2 (fun a o => nsub (ndiv a o) n1) (i_fp c') (i_fp c) in
  b = has_converged g norm (i_ep c') /\ length (i_fp c') = length (i_fp c).
Proof.
  unfold new_meancont. cbv zeta. intro H.
  destruct (uspline _ _ _) as [sm|]; [|discriminate]. cbn [of_option rbind] in H.
  destruct (if residual g then _ else _) as [new0|]; [|discriminate]. cbn [rbind] in H.
  destruct (project_normalize _ _ _ _) as [[new mean]|]; [|discriminate]. cbn [rbind] in H.
  unfold zip2 in H. destruct (Nat.eqb_spec (length new) (length (i_fp c))) as [L|]; [|discriminate]. cbn [rbind] in H.
  destruct (negb _); [discriminate|].
  match type of H with Ok (?a, ?d) = _ => assert (c' = a) as Ec by congruence; assert (b = d) as Eb by congruence end.
  subst c'. cbn [i_reset i_fp i_ep]. split; assumption.
Qed.
Theorem converged_small g uspline xs quad k c c' : length (g_rfwave g) <= 108 ->
  new_meancont g uspline xs quad k c = Ok (c', true) ->
  forall i old new e, nth_error (i_fp c) i = Some old -> nth_error (i_fp c') i = Some new -> nth_error (i_ep c') i = Some e ->
  nltb (nabs (nsub (ndiv new old) n1)) (nmul (nlit 33 100) (nabs e)) = true.
Proof.
  intros HN H i old new e H1 H2 H3. apply new_meancont_parts in H as [H L]. cbv zeta in H.
  apply (converged_points g _ _ HN (eq_sym H)). apply nth_error_combine_In with i; [|assumption].
  rewrite nth_error_map2, H1, H2. reflexivity.
Qed.
(** for any number of bins: either every point, or the mean square *)
Theorem converged_iff g uspline xs quad k c c' b : new_meancont g uspline xs quad k c = Ok (c', b) ->
  let norm := map2 (fun new old => nsub (ndiv new old) n1) (i_fp c') (i_fp c) in
  b = true <->
    ((forall n s, In (n, s) (combine norm (i_ep c')) -> nltb (nabs n) (nmul (nlit 33 100) s) = true) \/
     nltb (ndiv (nsum (map2 (fun n s => nsq (ndiv n s)) norm (i_ep c'))) (Fin (zq (Z.of_nat (length (g_rfwave g)))))) (nlit 1 1000) = true).
Proof.
  intro H. apply new_meancont_parts in H as [H _]. cbv zeta in *. rewrite H. unfold has_converged. rewrite orb_true_iff, forallb_forall.
  split; intros [K|K].
  - right. exact K.
  - left. intros n s Hin. exact (K (n, s) Hin).
  - right. intros [n s] Hin. now apply K.
  - left. exact K.
Qed.

(** ** more than 108 bins *)
Lemma fill_all (m : num) (y : list num) (s : list Qc) : length y = length s -> Forall (fun x => 0 < x)%Qc s ->
  fill (map npos (map Fin s)) m y = y.
Proof.
  unfold fill. intros L F. revert y L. induction F as [|x s Hx F IH]; intros [|a y] L; try discriminate; [reflexivity|].
  cbn [map map2]. assert (npos (Fin x) = true) as -> by (cbn; now apply (proj2 (qltb_true _ _))). f_equal. apply IH. now injection L.
Qed.
Lemma y_tail (r d : Qc) m :
  repeat 1%Qc m ++ [(1 + d)%Qc]
  = map2 (fun a b => 1 * a + 1 * b)%Qc (repeat 1%Qc (S m))
         (map2 (fun a b => - r * a + d * b)%Qc (repeat 0%Qc (S m)) (repeat 0%Qc m ++ [1%Qc])).
Proof.
  induction m as [|k IH]; [cbn; f_equal; ring|]. cbn [repeat app]. cbn [repeat] in IH.
  change (repeat 1%Qc k) with (repeat 1%Qc k). cbn [map2]. f_equal; [ring|]. exact IH.
Qed.
Section Refute.
Variables (m : nat) (quad : list Qc -> Qc).
Let N := S (S m).
Hypothesis Hl : linear N quad.
Hypothesis H1 : quad (repeat 1%Qc N) = 1%Qc.
Hypothesis H0 : quad (1%Qc :: repeat 0%Qc (S m)) <> 0%Qc.
Hypothesis HN : 109 <= N.
Let e0 := 1%Qc :: repeat 0%Qc (S m).
Let el := repeat 0%Qc (S m) ++ [1%Qc].
Let r := (quad el * fq 33 100 / quad e0)%Qc.
Let sg := (1 + zq 100 * (if qltb r 0 then - r else r))%Qc.
Let y := (1 - r)%Qc :: repeat 1%Qc m ++ [(1 + fq 33 100)%Qc].
Let st := sg :: repeat 1%Qc m ++ [1%Qc].
Lemma sg_pos : (0 < sg)%Qc.
Proof. unfold sg. destruct (qltb r 0) eqn:E; [apply (proj1 (qltb_true _ _)) in E|apply (proj1 (qltb_false _ _)) in E]; clearbody r; qlra. Qed.
Lemma repeat_snoc {A} (a : A) k : repeat a (S k) = repeat a k ++ [a].
Proof. induction k; [reflexivity|]. cbn in *. now rewrite IHk. Qed.
Lemma quad_y : quad y = 1%Qc.
Proof.
  assert (y = map2 (fun a b => 1 * a + 1 * b)%Qc (repeat 1%Qc N) (map2 (fun a b => - r * a + fq 33 100 * b)%Qc e0 el)) as ->.
  { unfold y, e0, el, N. clearbody r. change (repeat 0%Qc (S m) ++ [1%Qc]) with (0%Qc :: repeat 0%Qc m ++ [1%Qc]).
    change (repeat 1%Qc (S (S m))) with (1%Qc :: repeat 1%Qc (S m)). cbn [map2]. f_equal; [ring|]. apply y_tail. }
  assert (length e0 = N /\ length el = N) as [L1 L2].
  { unfold e0, el, N. split; [cbn; now rewrite repeat_length|]. rewrite app_length, repeat_length. cbn. lia. }
  rewrite Hl by (try apply repeat_length; now apply map2_len). rewrite H1, Hl by assumption.
  unfold r. fold e0 in H0. set (a := quad e0) in *. set (b := quad el). clearbody a b. field. assumption.
Qed.
Lemma y_len : length y = N. Proof. unfold y, N. cbn. rewrite app_length, repeat_length. cbn. lia. Qed.
Lemma st_len : length st = N. Proof. unfold st, N. cbn. rewrite app_length, repeat_length. cbn. lia. Qed.
Definition wit_conf (rf : list Qc) : config := mkConf Picca 0 1 false false false false 0 1 1 1 [] false 1 rf 1.
Definition wit_stack : stacker := mkStack 0 1 1 0 1 N [n1] [n1] (map Fin y) (map Fin st).
Definition wit_cont : interp := mkInt false 0 1 (repeat n1 N) (repeat n0 N).
Lemma chi2_small : nltb (ndiv (Fin ((r / sg) * (r / sg) + fq 33 100 * fq 33 100)%Qc) (Fin (zq (Z.of_nat N)))) (nlit 1 1000) = true.
Proof.
  assert (zq 109 <= zq (Z.of_nat N))%Qc as Hz by (apply zq_le; lia).
  set (z := zq (Z.of_nat N)) in *. assert (0 < z)%Qc as Hzp by (apply Qclt_le_trans with (zq 109); [reflexivity|assumption]).
  assert ((r / sg) * (r / sg) < fq 1 10000)%Qc as Hr.
  { pose proof sg_pos as Hs. assert (r = (r / sg) * sg)%Qc as Er by (field; now apply Qc_pos_neq).
    assert (- fq 1 100 < r / sg /\ r / sg < fq 1 100)%Qc as [Ha Hb].
    { unfold sg in *. set (d := (r / _)%Qc) in *. clearbody d.
      destruct (qltb r 0) eqn:E; [apply (proj1 (qltb_true _ _)) in E|apply (proj1 (qltb_false _ _)) in E]; clearbody r; clear - Er E Hs.
      - split.
        + destruct (Qclt_le_dec (- fq 1 100) d) as [K|K]; [assumption|exfalso]. qnra.
        + destruct (Qclt_le_dec d (fq 1 100)) as [K|K]; [assumption|exfalso]. qnra.
      - split.
        + destruct (Qclt_le_dec (- fq 1 100) d) as [K|K]; [assumption|exfalso]. qnra.
        + destruct (Qclt_le_dec d (fq 1 100)) as [K|K]; [assumption|exfalso]. qnra. }
    set (d := (r / sg)%Qc) in *. clearbody d. clear - Ha Hb. qnra. }
  set (a := (r / sg * (r / sg))%Qc) in *. clearbody a z.
  rewrite ndiv_fin by now apply Qc_pos_neq. cbn. apply (proj2 (qltb_true _ _)).
  assert ((a + fq 33 100 * fq 33 100) = ((a + fq 33 100 * fq 33 100) / z) * z)%Qc as Ez by (field; now apply Qc_pos_neq).
  set (d := ((a + fq 33 100 * fq 33 100) / z)%Qc) in *. clearbody d. clear - Hz Hr Ez Hzp.
  destruct (Qclt_le_dec d (fq 1 1000)) as [K|K]; [assumption|exfalso]. qnra.
Qed.
Lemma wit_converges rf xs : length rf = N -> 
  exists c', new_meancont (wit_conf rf) (fun _ v _ => Some v) xs quad wit_stack wit_cont = Ok (c', true) /\
    nth_error (i_fp c') (S m) = Some (Fin (1 + fq 33 100)) /\ nth_error (i_ep c') (S m) = Some n1.
Proof.
  intro Lrf. unfold new_meancont, wit_stack, wit_cont. cbn [k_rep k_rfp i_fp of_option rbind].
  assert (Forall (fun x => 0 < x)%Qc st) as Fp.
  { unfold st. constructor; [apply sg_pos|]. apply Forall_app. split; [|repeat constructor].
    apply Forall_forall. intros x Hx. apply repeat_spec in Hx as ->. reflexivity. }
  rewrite !fill_all; [|rewrite map_length; reflexivity|exact Fp|rewrite map_length, y_len, st_len; reflexivity|exact Fp].
  change (residual (wit_conf rf)) with true. cbn iota.
  assert (zip2 nmul (map Fin y) (repeat n1 N) = Ok (map Fin y)) as ->.
  { unfold zip2. rewrite map_length, y_len, repeat_length, Nat.eqb_refl. f_equal. rewrite <- y_len. clear.
    induction y as [|a l IH]; [reflexivity|]. cbn. f_equal; [f_equal; ring|apply IH]. }
  cbn [rbind]. change (eff_order (wit_conf rf)) with 0. unfold project_normalize. cbn [seq for_each rbind].
  rewrite integrate_fin. cbn [rbind]. rewrite quad_y.
  assert (forall l, map (fun a => ndiv a (Fin 1)) (map Fin l) = map Fin l) as Hd.
  { intro l. rewrite map_map. apply map_ext. intro a. rewrite ndiv_fin by discriminate. f_equal; field; discriminate. }
  rewrite !Hd.
  set (nm := map (fun a => a - 1)%Qc y).
  assert (zip2 (fun a b => nsub (ndiv a b) n1) (map Fin y) (repeat n1 N) = Ok (map Fin nm)) as ->.
  { unfold zip2. rewrite map_length, y_len, repeat_length, Nat.eqb_refl. f_equal. rewrite <- y_len. unfold nm. clear.
    induction y as [|a l IH]; [reflexivity|]. cbn [length repeat map map2]. f_equal; [|apply IH].
    change n1 with (Fin 1). rewrite ndiv_fin by discriminate. cbn. f_equal; field; discriminate. }
  cbn [rbind]. rewrite !map_length. unfold nm at 1. rewrite map_length, y_len, st_len, Nat.eqb_refl. cbn [negb].
  eexists. split; [|split].
  - f_equal. f_equal. unfold has_converged. apply orb_true_iff. left.
    assert (nsum (map2 (fun n s => nsq (ndiv n s)) (map Fin nm) (map Fin st)) = Fin ((r / sg) * (r / sg) + fq 33 100 * fq 33 100)%Qc) as ->.
    { unfold nm, y, st. cbn [map map2]. rewrite ndiv_fin by (apply Qc_pos_neq, sg_pos).
      pose proof sg_pos as Hs. apply Qc_pos_neq in Hs. clearbody sg r. clear - Hs.
      cbn [nsum fold_right]. fold (nsum (map2 (fun n s => nsq (ndiv n s)) (map Fin (map (fun a => a - 1)%Qc (repeat 1%Qc m ++ [(1 + fq 33 100)%Qc]))) (map Fin (repeat 1%Qc m ++ [1%Qc])))).
      assert (nsum (map2 (fun n s => nsq (ndiv n s)) (map Fin (map (fun a => a - 1)%Qc (repeat 1%Qc m ++ [(1 + fq 33 100)%Qc]))) (map Fin (repeat 1%Qc m ++ [1%Qc]))) = Fin (fq 33 100 * fq 33 100)%Qc) as ->.
      { induction m as [|k IH]; [cbn [repeat app map map2 nsum fold_right]; rewrite ndiv_fin by discriminate; unfold nsq, n0; cbn [nmul nadd]; f_equal; field; discriminate|].
        cbn [repeat app map map2 nsum fold_right]. unfold nsum in IH. rewrite IH. rewrite ndiv_fin by discriminate.
        unfold nsq. cbn [nmul nadd]. f_equal; field; discriminate. }
      unfold nsq. cbn [nmul nadd]. f_equal; field; assumption. }
    change (length (g_rfwave (wit_conf rf))) with (length rf). rewrite Lrf. apply chi2_small.
  - cbn [i_reset i_fp]. unfold y. cbn [map nth_error]. rewrite map_app, nth_error_app2; rewrite map_length, repeat_length; [|lia].
    now rewrite Nat.sub_diag.
  - cbn [i_reset i_ep]. unfold st. cbn [map nth_error]. rewrite map_app, nth_error_app2; rewrite map_length, repeat_length; [|lia].
    now rewrite Nat.sub_diag.
Qed.
End Refute.
