(** Proofs about FluxStacker. *)
From Coq Require Import ZArith String List Bool Arith Lia Qcanon Field.
From Verif Require Import Num NpList NpListFacts Exn Dict Mpi ProofMpi ModelSpectrum ProofCoadd ModelStack SpecStack.
Import ListNotations.
Local Open Scope nat_scope.

(** ** Bins *)
Lemma half_sum (a st : Qc) : ((a + 1 * st + (a + 0 * st)) / (1 + 1) = a + st / (1 + 1))%Qc.
Proof. field. intro H. discriminate. Qed.
Lemma centers_first a b n : rfirst (centers a b (S n)) = Ok (a + (b - a) / zq (Z.of_nat (S n)) / (1 + 1))%Qc.
Proof.
  unfold centers, linspace. replace (Z.of_nat (S (S n)) - 1)%Z with (Z.of_nat (S n)) by lia.
  cbn [seq map tl removelast map2 rfirst]. f_equal. exact (half_sum a _).
Qed.
Lemma map2_same_length {A B C} (f : A -> B -> C) a b : length a = length b -> length (map2 f a b) = length a.
Proof. rewrite map2_length. lia. Qed.
Lemma removelast_len {A} (l : list A) : length (removelast l) = length l - 1.
Proof.
  induction l as [|x l IH]; [easy|]. destruct l as [|y l]; [easy|].
  change (removelast (x :: y :: l)) with (x :: removelast (y :: l)). cbn [length] in *. lia.
Qed.
Lemma tl_len {A} (l : list A) : length (tl l) = length l - 1.
Proof. destruct l; cbn; lia. Qed.
Lemma centers_length a b n : length (centers a b n) = n.
Proof.
  unfold centers, linspace. rewrite map2_length, removelast_len, tl_len, map_length, seq_length. lia.
Qed.

Lemma stack_idx_arg (w1 dw w : Qc) : dw <> 0%Qc -> ((w - (w1 + dw / (1 + 1))) / dw + fq 1 2 = (w - w1) / dw)%Qc.
Proof.
  intro H. assert (fq 1 2 = 1 / (1 + 1))%Qc as -> by (apply Qc_is_canon; reflexivity).
  field. split; [assumption|]. intro K. discriminate.
Qed.
Lemma stack_idx_bin w1 dw w b : (0 < dw)%Qc -> (w1 <= w)%Qc ->
  in_bin w1 dw b w = (stack_idx (w1 + dw / (1 + 1))%Qc dw w =? Z.of_nat b)%Z.
Proof.
  intros H L. unfold stack_idx. rewrite stack_idx_arg by (apply Qc_pos_neq; assumption).
  assert (0 <= (w - w1) / dw)%Qc as P by (apply Qcdiv_nonneg; [qlra|assumption]).
  assert (((w - w1) / dw) * dw = w - w1)%Qc as E by (field; apply Qc_pos_neq; assumption).
  set (x := ((w - w1) / dw)%Qc) in *.
  destruct (qtrunc_spec_nonneg x P) as (A1 & A2). set (k := qtrunc x) in *.
  unfold in_bin. destruct (Z.eqb_spec k (Z.of_nat b)) as [->|N].
  - apply andb_true_intro. split.
    + apply qleb_true. assert (zq (Z.of_nat b) * dw <= x * dw)%Qc by (apply Qcmult_le_compat_r; [assumption|qlra]). qlra.
    + apply qltb_true. rewrite zq_plus, zq_1.
      assert (x * dw < (zq (Z.of_nat b) + 1) * dw)%Qc by (apply Qcmult_lt_compat_r; assumption). qlra.
  - apply andb_false_iff. assert (k < Z.of_nat b \/ Z.of_nat b < k)%Z as [C|C] by lia.
    + left. apply qleb_false. assert (zq (k + 1) <= zq (Z.of_nat b))%Qc as Q by (apply zq_le; lia).
      rewrite zq_plus, zq_1 in Q. assert (x < zq (Z.of_nat b))%Qc as Q2 by qlra.
      assert (x * dw < zq (Z.of_nat b) * dw)%Qc by (apply Qcmult_lt_compat_r; assumption). qlra.
    + right. apply qltb_false. assert (zq (Z.of_nat b + 1) <= zq k)%Qc as Q by (apply zq_le; lia).
      assert (zq (Z.of_nat b + 1) <= x)%Qc as Q2 by qlra.
      assert (zq (Z.of_nat b + 1) * dw <= x * dw)%Qc by (apply Qcmult_le_compat_r; [assumption|qlra]). qlra.
Qed.
Lemma stack_idx_range w1 w2 n w : 1 <= n -> (w1 <= w)%Qc -> (w < w2)%Qc ->
  let dw := ((w2 - w1) / zq (Z.of_nat n))%Qc in
  (0 < dw)%Qc /\ (0 <= stack_idx (w1 + dw / (1 + 1))%Qc dw w < Z.of_nat n)%Z.
Proof.
  intros Hn L U dw. assert (0 < zq (Z.of_nat n))%Qc as Pn by (change 0%Qc with (zq 0); apply zq_lt; lia).
  assert (0 < dw)%Qc as H by (apply Qcdiv_pos; [qlra|assumption]). split; [assumption|].
  unfold stack_idx. rewrite stack_idx_arg by (apply Qc_pos_neq; assumption).
  assert (0 <= (w - w1) / dw)%Qc as P by (apply Qcdiv_nonneg; [qlra|assumption]).
  destruct (qtrunc_spec_nonneg _ P) as (A1 & A2). set (k := qtrunc ((w - w1) / dw)%Qc) in *.
  assert ((w - w1) / dw < zq (Z.of_nat n))%Qc as Q.
  { apply Qcdiv_lt; [assumption|]. assert (zq (Z.of_nat n) * dw = w2 - w1)%Qc as ->; [|qlra].
    unfold dw. field. apply Qc_pos_neq. assumption. }
  split.
  - assert (zq (- (1)) < zq k)%Qc as K; [|apply (proj1 (zq_lt _ _)) in K; lia].
    rewrite zq_opp, zq_1. qlra.
  - apply zq_lt. qlra.
Qed.

Lemma in_bin_exists w1 w2 n w : 1 <= n -> (w1 <= w)%Qc -> (w < w2)%Qc ->
  exists b, b < n /\ forall b', in_bin w1 ((w2 - w1) / zq (Z.of_nat n))%Qc b' w = true <-> b' = b.
Proof.
  intros Hn L U. destruct (stack_idx_range w1 w2 n w Hn L U) as (D & R).
  set (dw := ((w2 - w1) / zq (Z.of_nat n))%Qc) in *.
  exists (Z.to_nat (stack_idx (w1 + dw / (1 + 1))%Qc dw w)). split; [lia|].
  intro b'. rewrite stack_idx_bin by assumption. rewrite Z.eqb_eq. lia.
Qed.

(** ** bincount *)
Lemma bin_length_in idx n : (forall i, In i idx -> (0 <= i < Z.of_nat n)%Z) -> bin_length idx n = n.
Proof.
  unfold bin_length. induction idx as [|i idx IH]; intro H; [easy|]. cbn.
  rewrite Nat.max_l by (specialize (H i (or_introl eq_refl)); lia). apply IH. intros j Hj. apply H. now right.
Qed.
Lemma np_bincount_ok {A} (f : A -> Z) (g : A -> Qc) n ps :
  (forall p, In p ps -> (0 <= f p < Z.of_nat n)%Z) ->
  np_bincount (map f ps) (map Fin (map g ps)) n =
  Ok (repr n (fun b => qsum (map g (filter (fun p => (f p =? Z.of_nat b)%Z) ps)))).
Proof.
  intro H. unfold np_bincount.
  assert (existsb (fun i => (i <? 0)%Z) (map f ps) = false) as ->.
  { apply not_true_is_false. intro K. apply existsb_exists in K. destruct K as (i & Hi & K).
    apply in_map_iff in Hi. destruct Hi as (p & <- & Hp). specialize (H p Hp). lia. }
  rewrite !map_length, Nat.eqb_refl. cbn [negb].
  rewrite bin_length_in.
  2:{ intros i Hi. apply in_map_iff in Hi. destruct Hi as (p & <- & Hp). now apply H. }
  f_equal. unfold repr. apply map_ext. intro b. unfold bin_sum.
  rewrite <- nsum_fin. f_equal. clear H. induction ps as [|p ps IH]; [easy|].
  cbn [map combine filter fst]. destruct (f p =? Z.of_nat b)%Z; cbn [map snd]; now rewrite IH.
Qed.
Lemma map2_repr n F G (op : Qc -> Qc -> Qc) nop : (forall a b, nop (Fin a) (Fin b) = Fin (op a b)) ->
  map2 nop (repr n F) (repr n G) = repr n (fun j => op (F j) (G j)).
Proof.
  intro H. apply list_eq_nth_error. intro k. rewrite nth_error_map2, !repr_nth.
  destruct (k <? n); [|easy]. now rewrite H.
Qed.
Lemma arr_iadd_repr n F G : arr_iadd (repr n F) (repr n G) = Ok (repr n (fun j => F j + G j)%Qc).
Proof.
  unfold arr_iadd, zip2. rewrite !repr_length, Nat.eqb_refl. f_equal.
  now rewrite (map2_repr n F G Qcplus) by easy.
Qed.

(** ** The sums after adding the pixels P *)
Section Acc.
Variables (w1 w2 lya1 lya2 : Qc) (n m : nat).
Let dw := ((w2 - w1) / zq (Z.of_nat n))%Qc.
Let drf := ((lya2 - lya1) / zq (Z.of_nat m))%Qc.
Definition osum (g : stackpix -> Qc) (P : list stackpix) (b : nat) : Qc := qsum (map g (filter (obs_bin w1 dw b) P)).
Definition rsum (g : stackpix -> Qc) (P : list stackpix) (b : nat) : Qc := qsum (map g (filter (rf_bin lya1 drf b) P)).
Definition wflux (p : stackpix) : Qc := (rel_weight p * transmission p)%Qc.
Definition wcont (residual : bool) (p : stackpix) : Qc :=
  (rel_weight p * (if residual then transmission p else q_cont p))%Qc.
Definition acc (residual : bool) (P : list stackpix) : stacker :=
  mkStack (w1 + dw / (1 + 1))%Qc dw n (lya1 + drf / (1 + 1))%Qc drf m
    (repr n (osum wflux P)) (repr n (osum rel_weight P))
    (repr m (rsum (wcont residual) P)) (repr m (rsum rel_weight P)).

Lemma osum_app g P P' b : osum g (P ++ P') b = (osum g P b + osum g P' b)%Qc.
Proof. unfold osum. now rewrite filter_app, map_app, qsum_app. Qed.
Lemma rsum_app g P P' b : rsum g (P ++ P') b = (rsum g P b + rsum g P' b)%Qc.
Proof. unfold rsum. now rewrite filter_app, map_app, qsum_app. Qed.

Hypothesis Hn : 1 <= n.
Hypothesis Hm : 1 <= m.

Lemma obs_idx ps : (forall p, In p ps -> in_region w1 w2 lya1 lya2 p) ->
  forall g b, qsum (map g (filter (fun p => (stack_idx (w1 + dw / (1 + 1))%Qc dw (q_wave p) =? Z.of_nat b)%Z) ps)) = osum g ps b.
Proof.
  intros H g b. unfold osum. f_equal. f_equal. apply filter_ext_in. intros p Hp. unfold obs_bin.
  destruct (H p Hp) as (Z1 & L & U & _ & _).
  destruct (stack_idx_range w1 w2 n (q_wave p) Hn L U) as (D & _). fold dw in D. symmetry. now apply stack_idx_bin.
Qed.
Lemma rf_idx ps : (forall p, In p ps -> in_region w1 w2 lya1 lya2 p) ->
  forall g b, qsum (map g (filter (fun p => (stack_idx (lya1 + drf / (1 + 1))%Qc drf (q_wave p / (1 + q_z p))%Qc =? Z.of_nat b)%Z) ps)) = rsum g ps b.
Proof.
  intros H g b. unfold rsum. f_equal. f_equal. apply filter_ext_in. intros p Hp. unfold rf_bin.
  destruct (H p Hp) as (Z1 & _ & _ & L & U).
  destruct (stack_idx_range lya1 lya2 m _ Hm L U) as (D & _). fold drf in D. symmetry. now apply stack_idx_bin.
Qed.

Lemma stacker_add_acc residual P ps : (forall p, In p ps -> in_region w1 w2 lya1 lya2 p) ->
  stacker_add (map q_wave ps) (map (fun p => q_wave p / (1 + q_z p))%Qc ps)
    (map Fin (map wflux ps)) (map Fin (map (wcont residual) ps)) (map Fin (map rel_weight ps)) (acc residual P)
  = Ok (acc residual (P ++ ps)).
Proof.
  intro H. unfold stacker_add, acc. cbn [k_w0 k_dw k_n k_rf0 k_drf k_nrf k_fp k_ep k_rfp k_rep].
  rewrite (map_map q_wave), (map_map (fun p => q_wave p / (1 + q_z p))%Qc).
  rewrite (np_bincount_ok (fun p => stack_idx (w1 + dw / (1 + 1))%Qc dw (q_wave p)) wflux n).
  2:{ intros p Hp. destruct (H p Hp) as (Z1 & L & U & _ & _). now apply stack_idx_range. }
  cbn [rbind]. rewrite arr_iadd_repr. cbn [rbind].
  rewrite (np_bincount_ok (fun p => stack_idx (w1 + dw / (1 + 1))%Qc dw (q_wave p)) rel_weight n).
  2:{ intros p Hp. destruct (H p Hp) as (Z1 & L & U & _ & _). now apply stack_idx_range. }
  cbn [rbind]. rewrite arr_iadd_repr. cbn [rbind].
  rewrite (np_bincount_ok (fun p => stack_idx (lya1 + drf / (1 + 1))%Qc drf (q_wave p / (1 + q_z p))%Qc) (wcont residual) m).
  2:{ intros p Hp. destruct (H p Hp) as (Z1 & _ & _ & L & U). now apply stack_idx_range. }
  cbn [rbind]. rewrite arr_iadd_repr. cbn [rbind].
  rewrite (np_bincount_ok (fun p => stack_idx (lya1 + drf / (1 + 1))%Qc drf (q_wave p / (1 + q_z p))%Qc) rel_weight m).
  2:{ intros p Hp. destruct (H p Hp) as (Z1 & _ & _ & L & U). now apply stack_idx_range. }
  cbn [rbind]. rewrite arr_iadd_repr. cbn [rbind].
  unfold set_sums. cbn [k_w0 k_dw k_n k_rf0 k_drf k_nrf]. f_equal. f_equal; apply repr_ext; intros b _.
  - rewrite (obs_idx ps H). now rewrite osum_app.
  - rewrite (obs_idx ps H). now rewrite osum_app.
  - rewrite (rf_idx ps H). now rewrite rsum_app.
  - rewrite (rf_idx ps H). now rewrite rsum_app.
Qed.

(** ** One arm *)
Lemma values_fin d arm l : dget arm d = Some (map Fin l) -> values d arm = l.
Proof. intro E. unfold values. rewrite E, map_map. cbn. apply map_id. Qed.
Lemma combine4 {A B C D E} (mk : A -> B -> C -> D -> E) (pa : E -> A) (pb : E -> B) (pc : E -> C) (pd : E -> D) :
  (forall a b c d, pa (mk a b c d) = a /\ pb (mk a b c d) = b /\ pc (mk a b c d) = c /\ pd (mk a b c d) = d) ->
  forall la lb lc ld, length lb = length la -> length lc = length la -> length ld = length la ->
  let ps := map (fun t : A * (B * (C * D)) => let '(a, (b, (c, d))) := t in mk a b c d) (combine la (combine lb (combine lc ld))) in
  map pa ps = la /\ map pb ps = lb /\ map pc ps = lc /\ map pd ps = ld.
Proof.
  intro P. induction la as [|a la IH]; intros [|b lb] [|c lc] [|d ld] L1 L2 L3; try discriminate; cbn; auto.
  destruct (IH lb lc ld) as (E1 & E2 & E3 & E4); auto. cbv zeta in *. rewrite E1, E2, E3, E4.
  destruct (P a b c d) as (-> & -> & -> & ->). auto.
Qed.
Lemma arm_pixels_spec s arm w f c wt :
  dget arm (ff (s_f s)) = Some (map Fin f) -> dget arm (s_cont s) = Some (map Fin c) ->
  dget arm (fweight (s_f s)) = Some (map Fin wt) ->
  length f = length w -> length c = length w -> length wt = length w ->
  let ps := arm_pixels s (arm, w) in
  map q_wave ps = w /\ map q_flux ps = f /\ map q_cont ps = c /\ map q_weight ps = wt.
Proof.
  intros E1 E2 E3 L1 L2 L3. unfold arm_pixels. cbn [fst snd].
  rewrite (values_fin _ _ _ E1), (values_fin _ _ _ E2), (values_fin _ _ _ E3).
  apply (combine4 (fun a b c d => mkSP (s_z s) a b c d) q_wave q_flux q_cont q_weight); auto.
Qed.
Lemma arm_pixels_z s aw p : In p (arm_pixels s aw) -> q_z p = s_z s.
Proof. unfold arm_pixels. intro H. apply in_map_iff in H. destruct H as ((w & f & c & wt) & <- & _). easy. Qed.

Lemma map2_maps {A B C D} (f : B -> C -> D) (g : A -> B) (h : A -> C) l :
  map2 f (map g l) (map h l) = map (fun x => f (g x) (h x)) l.
Proof. induction l as [|x l IH]; cbn; [easy|]. now rewrite IH. Qed.
Lemma zip2_maps {A B C D} (f : B -> C -> D) (g : A -> B) (h : A -> C) l :
  zip2 f (map g l) (map h l) = Ok (map (fun x => f (g x) (h x)) l).
Proof. unfold zip2. now rewrite !map_length, Nat.eqb_refl, map2_maps. Qed.

Lemma stack_arm_acc residual s z ps P : (forall p, In p ps -> in_region w1 w2 lya1 lya2 p) ->
  (forall p, In p ps -> q_z p = z) -> (forall p, In p ps -> q_cont p <> 0%Qc) -> s = acc residual P ->
  stack_arm residual z (map q_wave ps) (map Fin (map q_cont ps)) (map Fin (map q_weight ps)) (map Fin (map q_flux ps)) s
  = Ok (acc residual (P ++ ps)).
Proof.
  intros H Hz Hc ->. unfold stack_arm. rewrite !map_map.
  rewrite zip2_maps. cbn [rbind nsq nmul].
  rewrite zip2_maps. cbn [rbind nmul].
  assert (zip2 ndiv (map (fun x => Fin (q_weight x * (q_cont x * q_cont x) * q_flux x)%Qc) ps) (map (fun x => Fin (q_cont x)) ps)
          = Ok (map Fin (map wflux ps))) as ->.
  { rewrite zip2_maps. f_equal. rewrite map_map. apply map_ext_in. intros p Hp.
    rewrite ndiv_fin by now apply Hc. unfold wflux, rel_weight, transmission. f_equal.
    unfold Qcdiv. ring. }
  cbn [rbind].
  assert ((if residual then Ok (map Fin (map wflux ps))
           else zip2 nmul (map (fun x => Fin (q_weight x * (q_cont x * q_cont x))%Qc) ps) (map (fun x => Fin (q_cont x)) ps))
          = Ok (map Fin (map (wcont residual) ps))) as ->.
  { destruct residual; [reflexivity|]. rewrite zip2_maps. f_equal. rewrite map_map. apply map_ext. intro p. reflexivity. }
  cbn [rbind].
  assert (map (fun x => (q_wave x / (1 + z))%Qc) ps = map (fun p => (q_wave p / (1 + q_z p))%Qc) ps) as ->.
  { apply map_ext_in. intros p Hp. now rewrite Hz. }
  rewrite <- (stacker_add_acc residual P ps H). do 2 f_equal. now rewrite map_map.
Qed.

Definition region_ok (s : spec) : Prop := stackable s /\ forall p, In p (spec_pixels s) -> in_region w1 w2 lya1 lya2 p.

Lemma stack_spec_acc residual s : region_ok s -> forall P,
  stack_spec residual s (acc residual P) = Ok (acc residual (P ++ spec_pixels s)).
Proof.
  intros (Hs & Hr). unfold stack_spec, spec_pixels in *.
  assert (forall aw, In aw (fw (s_f s)) -> In aw (fw (s_f s))) as Sub by easy. revert Sub Hr.
  generalize (fw (s_f s)) at 1 3 4 5. intro l. induction l as [|(arm & w) l IH]; intros Sub Hr P.
  - cbn. now rewrite app_nil_r.
  - cbn [for_each fst snd flat_map]. destruct (Hs arm w) as (f & c & wt & E1 & E2 & E3 & L1 & L2 & L3 & C0).
    { apply Sub. now left. }
    unfold rget. rewrite E2. cbn [rbind]. rewrite E3. cbn [rbind]. rewrite E1. cbn [rbind].
    destruct (arm_pixels_spec s arm w f c wt E1 E2 E3 L1 L2 L3) as (F1 & F2 & F3 & F4).
    set (ps := arm_pixels s (arm, w)) in *. cbn [of_option rbind].
    assert (stack_arm residual (s_z s) w (map Fin c) (map Fin wt) (map Fin f) (acc residual P) = Ok (acc residual (P ++ ps))) as ->.
    { rewrite <- F1, <- F2, <- F3, <- F4. apply stack_arm_acc.
      + intros p Hp. apply Hr. cbn [flat_map]. apply in_or_app. now left.
      + intros p Hp. now apply (arm_pixels_z s (arm, w)).
      + intros p Hp. apply C0. rewrite <- F3. now apply in_map.
      + reflexivity. }
    cbn [rbind]. rewrite IH.
    + now rewrite app_assoc.
    + intros aw Haw. apply Sub. now right.
    + intros p Hp. apply Hr. cbn [flat_map]. apply in_or_app. now right.
Qed.

Lemma stack_spectra_acc residual l : (forall s, In s l -> s_valid s = true -> region_ok s) -> forall P,
  stack_spectra residual l (acc residual P) = Ok (acc residual (P ++ sample_pixels l)).
Proof.
  intro H. unfold stack_spectra, sample_pixels, valid_spectra.
  assert (forall s, In s (filter s_valid l) -> region_ok s) as K.
  { intros s Hs. apply filter_In in Hs. apply H; tauto. }
  revert K. generalize (filter s_valid l). clear H. intro v. induction v as [|s v IH]; intros K P.
  - cbn. now rewrite app_nil_r.
  - cbn [for_each flat_map]. rewrite stack_spec_acc by (apply K; now left). cbn [rbind].
    rewrite IH by (intros t Ht; apply K; now right). now rewrite app_assoc.
Qed.

(** ** All ranks *)
Lemma fold_arr_sum N F0 (G : nat -> nat -> Qc) l :
  fold_left arr_sum (map (fun r => repr N (G r)) l) (repr N F0)
  = repr N (fun b => F0 b + qsum (map (fun r => G r b) l))%Qc.
Proof.
  revert F0. induction l as [|r l IH]; intro F0; cbn [map fold_left].
  - apply repr_ext. intros. change (qsum []) with 0%Qc. ring.
  - unfold arr_sum at 2. rewrite (map2_repr N F0 (G r) Qcplus) by easy. rewrite IH.
    apply repr_ext. intros b _. rewrite qsum_cons. ring.
Qed.
Lemma seq_split_first k : 1 <= k -> seq 0 k = 0 :: seq 1 (k - 1).
Proof. destruct k; [lia|]. intros _. cbn. now rewrite Nat.sub_0_r. Qed.
Lemma osum_concat g (P : nat -> list stackpix) l b :
  osum g (concat (map P l)) b = qsum (map (fun r => osum g (P r) b) l).
Proof. induction l as [|r l IH]; [easy|]. cbn [map concat]. rewrite osum_app, IH. now rewrite qsum_cons. Qed.
Lemma rsum_concat g (P : nat -> list stackpix) l b :
  rsum g (concat (map P l)) b = qsum (map (fun r => rsum g (P r) b) l).
Proof. induction l as [|r l IH]; [easy|]. cbn [map concat]. rewrite rsum_app, IH. now rewrite qsum_cons. Qed.

Lemma reset_like residual k0 k :
  like k0 k -> k_w0 k0 = (w1 + dw / (1 + 1))%Qc -> k_dw k0 = dw -> k_n k0 = n ->
  k_rf0 k0 = (lya1 + drf / (1 + 1))%Qc -> k_drf k0 = drf -> k_nrf k0 = m ->
  length (k_fp k0) = n -> length (k_ep k0) = n -> length (k_rfp k0) = m -> length (k_rep k0) = m ->
  stacker_reset k = acc residual [].
Proof.
  intros (A1 & A2 & A3 & A4 & A5 & A6 & A7 & A8 & A9 & A10) B1 B2 B3 B4 B5 B6 B7 B8 B9 B10.
  unfold stacker_reset, acc, set_sums.
  assert (forall (l : list num) N, length l = N -> map (fun _ => n0) l = repr N (fun _ => 0%Qc)) as R.
  { intros l N <-. rewrite <- repr_zero. clear. induction l as [|x l IH]; cbn; [easy|]. now rewrite IH. }
  rewrite (R (k_fp k) n), (R (k_ep k) n), (R (k_rfp k) m), (R (k_rep k) m) by congruence.
  rewrite A1, A2, A3, A4, A5, A6, B1, B2, B3, B4, B5, B6. reflexivity.
Qed.

Definition combined residual (P : list stackpix) (nsqrt : num -> num) : stacker := stacker_finish nsqrt (acc residual P).

Lemma stack_all_spmd nsqrt residual size (specs : nat -> list spec) (kk : nat -> stacker) :
  1 <= size -> (forall r, r < size -> stacker_reset (kk r) = acc residual []) ->
  (forall r s, r < size -> In s (specs r) -> s_valid s = true -> region_ok s) ->
  spmd size (fun r => stack_all nsqrt residual (specs r) (kk r))
  = Done (repeat (Finished (combined residual (concat (map (fun r => sample_pixels (specs r)) (seq 0 size))) nsqrt)) size).
Proof.
  intros Hs Hk Hr. set (PP := fun r => sample_pixels (specs r)).
  rewrite (spmd_ext _ _ (fun r => stacker_calculate nsqrt (acc residual (PP r)))).
  2:{ intros r Hr'. unfold stack_all. rewrite Hk by assumption. rewrite stack_spectra_acc.
      - reflexivity.
      - intros s. now apply Hr. }
  unfold stacker_calculate. cbn [acc k_fp k_ep k_rfp k_rep].
  rewrite (spmd_allreduce size arr_sum (fun r => repr n (osum wflux (PP r)))) by assumption.
  rewrite (spmd_allreduce size arr_sum (fun r => repr n (osum rel_weight (PP r)))) by assumption.
  rewrite (spmd_allreduce size arr_sum (fun r => repr m (rsum (wcont residual) (PP r)))) by assumption.
  rewrite (spmd_allreduce size arr_sum (fun r => repr m (rsum rel_weight (PP r)))) by assumption.
  rewrite !(fold_arr_sum).
  assert (forall g b, osum g (concat (map PP (seq 0%nat size))) b = osum g (PP 0%nat) b + qsum (map (fun r => osum g (PP r) b) (seq 1%nat (size - 1)%nat)))%Qc as EO.
  { intros g b. rewrite osum_concat, (seq_split_first size Hs). cbn [map]. now rewrite qsum_cons. }
  assert (forall g b, rsum g (concat (map PP (seq 0%nat size))) b = rsum g (PP 0%nat) b + qsum (map (fun r => rsum g (PP r) b) (seq 1%nat (size - 1)%nat)))%Qc as ER.
  { intros g b. rewrite rsum_concat, (seq_split_first size Hs). cbn [map]. now rewrite qsum_cons. }
  rewrite (spmd_ext _ _ (fun _ => Ret (combined residual (concat (map PP (seq 0 size))) nsqrt))).
  - rewrite spmd_ret. f_equal.
    generalize (@Finished stacker (combined residual (concat (map PP (seq 0 size))) nsqrt)). intro fin.
    clear. generalize 0 as a. induction size as [|k IH]; intro a; [easy|]. cbn. now rewrite IH.
  - intros r _. unfold combined, acc, set_sums. cbn [k_w0 k_dw k_n k_rf0 k_drf k_nrf].
    do 2 f_equal. f_equal; apply repr_ext; intros b _; rewrite ?EO, ?ER; reflexivity.
Qed.

Lemma repr_map (f : num -> num) N F b : b < N -> nth_error (map f (repr N F)) b = Some (f (Fin (F b))).
Proof. intro H. rewrite nth_error_map, repr_nth. apply Nat.ltb_lt in H. now rewrite H. Qed.
Lemma normalised_nth N F W b : b < N ->
  nth_error (normalised (repr N F) (repr N W)) b = Some (Fin (if qltb 0 (W b) then F b / W b else 0)%Qc).
Proof.
  intro H. unfold normalised. rewrite nth_error_map2, !repr_nth. apply Nat.ltb_lt in H. rewrite H. cbn [npos nltb n0].
  unfold npos, n0. cbn [nltb]. destruct (qltb 0 (W b)) eqn:E; [|easy].
  apply qltb_true in E. rewrite ndiv_fin by (apply Qc_pos_neq; assumption). easy.
Qed.
Lemma normalised_length fp ep : length fp = length ep -> length (normalised fp ep) = length fp.
Proof. intro H. unfold normalised. now rewrite map2_same_length. Qed.
End Acc.

Lemma init_spec w1 w2 dwobs lya1 lya2 m k0 :
  stacker_init w1 w2 dwobs (centers lya1 lya2 (S m)) ((lya2 - lya1) / zq (Z.of_nat (S m)))%Qc = Ok k0 ->
  let n := Z.to_nat (qround ((w2 - w1) / dwobs)%Qc) in
  let dw := ((w2 - w1) / zq (Z.of_nat n))%Qc in let drf := ((lya2 - lya1) / zq (Z.of_nat (S m)))%Qc in
  1 <= n /\ k_w0 k0 = (w1 + dw / (1 + 1))%Qc /\ k_dw k0 = dw /\ k_n k0 = n /\
  k_rf0 k0 = (lya1 + drf / (1 + 1))%Qc /\ k_drf k0 = drf /\ k_nrf k0 = S m /\
  length (k_fp k0) = n /\ length (k_ep k0) = n /\ length (k_rfp k0) = S m /\ length (k_rep k0) = S m.
Proof.
  unfold stacker_init. intro H. cbv zeta. set (nz := qround ((w2 - w1) / dwobs)%Qc) in *.
  destruct (Z.leb_spec nz 0) as [C|C]; [discriminate|].
  destruct (Z.to_nat nz) as [|n] eqn:En; [lia|].
  assert (Z.of_nat (S n) = nz) as Ez by lia.
  rewrite centers_first, centers_first in H. cbn [rbind] in H. rewrite centers_length in H.
  assert (forall a b : stacker, Ok a = Ok b -> a = b) as OkI by congruence. apply OkI in H. rewrite <- H.
  cbn [k_w0 k_dw k_n k_rf0 k_drf k_nrf k_fp k_ep k_rfp k_rep]. rewrite Ez, !repeat_length.
  repeat split; lia || reflexivity.
Qed.

(** C41 *)
Lemma stack_correct nsqrt residual size (specs : nat -> list spec) kk k0 w1 w2 dwobs lya1 lya2 m :
  1 <= size ->
  stacker_init w1 w2 dwobs (centers lya1 lya2 (S m)) ((lya2 - lya1) / zq (Z.of_nat (S m)))%Qc = Ok k0 ->
  (forall r, r < size -> like k0 (kk r)) ->
  (forall r s, r < size -> In s (specs r) -> s_valid s = true ->
     stackable s /\ forall p, In p (spec_pixels s) -> in_region w1 w2 lya1 lya2 p) ->
  let n := Z.to_nat (qround ((w2 - w1) / dwobs)%Qc) in
  let dw := ((w2 - w1) / zq (Z.of_nat n))%Qc in let drf := ((lya2 - lya1) / zq (Z.of_nat (S m)))%Qc in
  let P := concat (map (fun r => sample_pixels (specs r)) (seq 0 size)) in
  exists k, spmd size (fun r => stack_all nsqrt residual (specs r) (kk r)) = Done (repeat (Finished k) size) /\
    like k0 k /\ length (k_fp k) = n /\ length (k_rfp k) = S m /\
    (forall b, b < n -> nth_error (k_fp k) b = Some (Fin (stack_mean transmission (filter (obs_bin w1 dw b) P)))) /\
    (forall b, b < S m -> nth_error (k_rfp k) b =
       Some (Fin (stack_mean (if residual then transmission else q_cont) (filter (rf_bin lya1 drf b) P)))) /\
    (forall b, b < S m -> nth_error (k_rep k) b =
       let W := total_rel_weight (filter (rf_bin lya1 drf b) P) in
       Some (if qltb 0 W then ndiv n1 (nsqrt (Fin W)) else Fin W)).
Proof.
  intros Hs Hi Hl Hr. pose proof (init_spec w1 w2 dwobs lya1 lya2 m k0 Hi) as I. cbv zeta in I |- *.
  set (n := Z.to_nat (qround ((w2 - w1) / dwobs)%Qc)) in *.
  destruct I as (Hn & B1 & B2 & B3 & B4 & B5 & B6 & B7 & B8 & B9 & B10).
  set (P := concat (map (fun r => sample_pixels (specs r)) (seq 0 size))).
  exists (combined w1 w2 lya1 lya2 n (S m) residual P nsqrt).
  assert (1 <= S m) as Hm by lia.
  split.
  { apply (stack_all_spmd w1 w2 lya1 lya2 n (S m) Hn Hm nsqrt residual size specs kk Hs).
    - intros r Hr'. apply (reset_like w1 w2 lya1 lya2 n (S m) residual k0); auto.
    - exact Hr. }
  unfold combined, stacker_finish, acc, set_sums, like.
  cbn [k_w0 k_dw k_n k_rf0 k_drf k_nrf k_fp k_ep k_rfp k_rep].
  rewrite !normalised_length by now rewrite !repr_length.
  rewrite map_length, !repr_length.
  split; [repeat split; auto|]. split; [easy|]. split; [easy|].
  split; [|split].
  - intros b Hb. rewrite normalised_nth by assumption. unfold stack_mean, total_rel_weight, osum, wflux. reflexivity.
  - intros b Hb. rewrite normalised_nth by assumption. unfold stack_mean, total_rel_weight, rsum, wcont.
    destruct residual; reflexivity.
  - intros b Hb. rewrite repr_map by assumption. unfold npos, n0. cbn [nltb]. reflexivity.
Qed.

(** a pixel on the upper edge *)
Lemma upper_edge w1 w2 dwobs waverf dwrf k0 rf wf wc wt :
  stacker_init w1 w2 dwobs waverf dwrf = Ok k0 -> (w1 < w2)%Qc ->
  exists e, stacker_add [w2] [rf] [wf] [wc] [wt] k0 = Err (OtherExn e).
Proof.
  unfold stacker_init. intros H L. set (nz := qround ((w2 - w1) / dwobs)%Qc) in *.
  destruct (Z.leb_spec nz 0) as [C|C]; [discriminate|].
  destruct (Z.to_nat nz) as [|n] eqn:En; [lia|]. assert (Z.of_nat (S n) = nz) as Ez by lia.
  rewrite centers_first in H. cbn [rbind] in H. destruct (rfirst waverf) as [rf0|]; [|discriminate]. cbn [rbind] in H.
  assert (forall a b : stacker, Ok a = Ok b -> a = b) as OkI by congruence. apply OkI in H. rewrite <- H.
  unfold stacker_add. cbn [k_w0 k_dw k_n k_rf0 k_drf k_nrf k_fp k_ep k_rfp k_rep map].
  rewrite Ez.
  assert (0 < zq nz)%Qc as Pn by (change 0%Qc with (zq 0); apply zq_lt; lia).
  assert (stack_idx (w1 + (w2 - w1) / zq nz / (1 + 1))%Qc ((w2 - w1) / zq nz)%Qc w2 = nz) as E.
  { unfold stack_idx. assert ((w2 - w1) / zq nz <> 0)%Qc as D.
    { apply Qc_pos_neq, Qcdiv_pos; [qlra|assumption]. }
    rewrite stack_idx_arg by assumption.
    assert ((w2 - w1) / ((w2 - w1) / zq nz) = zq nz)%Qc as ->; [|apply qtrunc_zq].
    field. split; [apply Qc_pos_neq; assumption|]. apply Qc_pos_neq. qlra. }
  rewrite E. unfold np_bincount. cbn [existsb length]. destruct (Z.ltb_spec nz 0); [lia|]. cbn [orb Nat.eqb negb rbind].
  unfold arr_iadd, zip2. rewrite map_length, seq_length, repeat_length. unfold bin_length. cbn [fold_left].
  destruct (Nat.eqb_spec (S n) (Nat.max (S n) (S (Z.to_nat nz)))) as [K|K]; [lia|]. cbn [rbind]. eauto.
Qed.

(** Every pixel of the forest of a new spectrum is in the region. *)
Lemma like_add wave rf a b c k k' : stacker_add wave rf a b c k = Ok k' -> like k k'.
Proof.
  unfold stacker_add. intro H.
  apply rbind_Ok in H. destruct H as (b1 & _ & H). apply rbind_Ok in H. destruct H as (f1 & E1 & H).
  apply rbind_Ok in H. destruct H as (b2 & _ & H). apply rbind_Ok in H. destruct H as (f2 & E2 & H).
  apply rbind_Ok in H. destruct H as (b3 & _ & H). apply rbind_Ok in H. destruct H as (f3 & E3 & H).
  apply rbind_Ok in H. destruct H as (b4 & _ & H). apply rbind_Ok in H. destruct H as (f4 & E4 & H).
  injection H as <-.
  assert (forall x y z, arr_iadd x y = Ok z -> length z = length x) as L.
  { intros x y z E. unfold arr_iadd, zip2 in E. destruct (Nat.eqb_spec (length x) (length y)) as [Q|Q]; [|discriminate].
    injection E as <-. now rewrite map2_same_length. }
  unfold like, set_sums. cbn [k_w0 k_dw k_n k_rf0 k_drf k_nrf k_fp k_ep k_rfp k_rep].
  rewrite (L _ _ _ E1), (L _ _ _ E2), (L _ _ _ E3), (L _ _ _ E4). tauto.
Qed.
Lemma like_reset k : like k (stacker_reset k).
Proof. unfold like, stacker_reset, set_sums. cbn [k_w0 k_dw k_n k_rf0 k_drf k_nrf k_fp k_ep k_rfp k_rep]. rewrite !map_length. tauto. Qed.

From Verif Require Import ModelMasks SpecSpectrum ProofSpectrum2.
Lemma forest_in_region nsqrt w1 w2 lya1 lya2 s s' :
  s_f s = empty_forest -> NoDup (dkeys (s_wave s)) -> data_matches_grid s ->
  (forall arm w, dget arm (s_wave s) = Some w -> ascending w) -> (0 < 1 + s_z s)%Qc ->
  set_forest_region nsqrt w1 w2 lya1 lya2 s = Ok s' ->
  forall arm w x, dget arm (fw (s_f s')) = Some w -> In x w ->
    (w1 <= x)%Qc /\ (x < w2)%Qc /\ (lya1 <= x / (1 + s_z s))%Qc /\ (x / (1 + s_z s) < lya2)%Qc.
Proof.
  intros He N D A Hz E arm w x Ew Hx.
  destruct (set_forest_region_spec nsqrt w1 w2 lya1 lya2 s s' He N D E arm) as (G & _).
  destruct (dget arm (s_wave s)) as [wave|] eqn:E1; [|destruct G as (G & _); congruence].
  destruct (dget arm (s_flux s)) as [fl|]; [|destruct G as (G & _); congruence].
  destruct (dget arm (s_ivar s)) as [iv|]; [|destruct G as (G & _); congruence].
  specialize (G (A arm wave E1)). cbv zeta in G.
  set (px := filter (fun p => in_forestb (s_z s) w1 w2 lya1 lya2 (p_wave p)) (pixels wave fl iv)) in *.
  destruct G as (G1 & G2).
  destruct (existsb (fun p => nltb n0 (p_ivar p)) px) eqn:Ex.
  - apply existsb_exists in Ex. destruct (G1 Ex) as (G & _). rewrite G in Ew. injection Ew as <-.
    apply in_map_iff in Hx. destruct Hx as (p & <- & Hp). apply filter_In in Hp. destruct Hp as (_ & Hp).
    unfold in_forestb in Hp. apply andb_prop in Hp. destruct Hp as (Hp & P4). apply andb_prop in Hp. destruct Hp as (Hp & P3).
    apply andb_prop in Hp. destruct Hp as (P1 & P2). apply qleb_true in P1, P2. apply qltb_true in P3, P4.
    split; [assumption|]. split; [assumption|]. split.
    + apply Qcle_div; [assumption|]. rewrite Qcmult_comm. assumption.
    + apply Qcdiv_lt; [assumption|]. rewrite Qcmult_comm. assumption.
  - destruct G2 as (G & _); [|congruence]. intros p Hp Hg. assert (existsb (fun p => nltb n0 (p_ivar p)) px = true) as K; [|congruence].
    apply existsb_exists. exists p. now split.
Qed.
