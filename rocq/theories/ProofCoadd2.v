(** C32: coadding arms, the whole function. *)
From Coq Require Import Field ZArith String List Bool Arith Lia Sorted Permutation Qcanon.
From Verif Require Import Num NpList NpListFacts Exn Dict ModelSpectrum SpecSpectrum SpecMasks SpecWeights SpecCoadd
  ProofSpectrum1 ProofSpectrum2 ProofMasks ProofWeights ProofCoadd.
Import ListNotations.
Local Open Scope nat_scope.

(** ** Totality of fancy indexing *)
Lemma fancy_write_spec ii : forall v a,
  length ii = length v -> Forall (fun i => i < length a) ii ->
  length (fancy_write ii v a) = length a /\
  forall j, (exists k, nth_error ii k = Some j /\ nth_error v k = nth_error (fancy_write ii v a) j) \/
            (~ In j ii /\ nth_error (fancy_write ii v a) j = nth_error a j).
Proof.
  unfold fancy_write. induction ii as [|i ii IH]; intros [|x v] a L B; try discriminate L; cbn [combine fold_left fst snd].
  - split; [easy|]. intro j. right. easy.
  - injection L as L. inversion B as [|? ? B1 B2]; subst.
    destruct (IH v (upd i (fun _ => x) a) L) as (H1 & H2).
    { now rewrite upd_length. }
    rewrite upd_length in H1. split; [easy|]. intro j. destruct (H2 j) as [(k & K1 & K2)|(K1 & K2)].
    + left. exists (S k). easy.
    + destruct (Nat.eq_dec i j) as [->|E].
      * left. exists 0. split; [easy|]. rewrite K2, nth_error_upd, Nat.eqb_refl.
        destruct (nth_error a j) eqn:Q; [easy|]. apply nth_error_None in Q. lia.
      * right. split; [intros [C|C]; [easy|contradiction]|]. rewrite K2, nth_error_upd.
        destruct (Nat.eqb_spec j i); [congruence|easy].
Qed.
Definition in_range (n : nat) (idx : list Z) := Forall (fun i => 0 <= i < Z.of_nat n)%Z idx.
Lemma in_range_nat n idx : in_range n idx -> Forall (fun i => i < n) (map Z.to_nat idx).
Proof. intro H. apply Forall_map. eapply Forall_impl; [|exact H]. cbn. intros. lia. Qed.
Lemma fancy_set_total a idx v :
  in_range (length a) idx -> length idx = length v ->
  exists a', fancy_set a idx v = Ok a' /\ length a' = length a /\
    forall j, (exists k i, nth_error idx k = Some i /\ Z.to_nat i = j /\ nth_error v k = nth_error a' j) \/
              ((forall i, In i idx -> Z.to_nat i <> j) /\ nth_error a' j = nth_error a j).
Proof.
  intros R L. unfold fancy_set. rewrite rseq_norm by easy. cbn [rbind]. rewrite map_length, L, Nat.eqb_refl.
  destruct (fancy_write_spec (map Z.to_nat idx) v a) as (H1 & H2); [now rewrite map_length|now apply in_range_nat|].
  eexists. split; [reflexivity|]. split; [easy|]. intro j. destruct (H2 j) as [(k & K1 & K2)|(K1 & K2)].
  - left. rewrite nth_error_map in K1. destruct (nth_error idx k) as [i|] eqn:E; [|discriminate K1].
    injection K1 as K1. exists k, i. auto.
  - right. split; [|easy]. intros i Hi <-. apply K1. now apply in_map.
Qed.
Lemma fancy_add_total a idx v :
  in_range (length a) idx -> length idx = length v ->
  exists a', fancy_add a idx v = Ok a' /\ length a' = length a.
Proof.
  intros R L. unfold fancy_add. rewrite rseq_norm by easy. cbn [rbind]. rewrite map_length, L, Nat.eqb_refl.
  eexists. split; [reflexivity|]. apply fancy_write_spec; [|now apply in_range_nat].
  rewrite map2_length, !map_length. lia.
Qed.

(** ** Continuum *)
Lemma cont_loop mn dw (cont : dict arr) d : forall a,
  (forall arm x, In (arm, x) d -> in_range (length a) (map (pix_idx mn dw) x) /\
     exists c, dget arm cont = Some c /\ length c = length x) ->
  exists a', for_each (dmap (map (pix_idx mn dw)) d) (fun ai (c : arr) =>
              rbind (rget (fst ai) cont) (fun ca => fancy_set c (snd ai) ca)) a = Ok a' /\
    length a' = length a /\
    forall j, (exists arm x c k y, In (arm, x) d /\ dget arm cont = Some c /\ nth_error x k = Some y /\
                 Z.to_nat (pix_idx mn dw y) = j /\ nth_error c k = nth_error a' j) \/
              ((forall arm x y, In (arm, x) d -> In y x -> Z.to_nat (pix_idx mn dw y) <> j) /\
               nth_error a' j = nth_error a j).
Proof.
  induction d as [|(arm, x) d IH]; intros a H; cbn [dmap map for_each fst snd].
  - exists a. split; [easy|]. split; [easy|]. intro j. right. easy.
  - destruct (H arm x) as (R & c & Ec & Lc); [now left|].
    unfold rget at 1. rewrite Ec. cbn [of_option rbind].
    destruct (fancy_set_total a (map (pix_idx mn dw) x) c) as (a1 & E1 & L1 & K1); [easy|now rewrite map_length|].
    rewrite E1. cbn [rbind].
    destruct (IH a1) as (a' & E' & L' & K').
    { intros arm' x' Hin. rewrite L1. apply H. now right. }
    exists a'. split; [exact E'|]. split; [lia|]. intro j. destruct (K' j) as [(arm' & x' & c' & k & y & Hin & Hr)|(Hno & Hj)].
    + left. exists arm', x', c', k, y. split; [now right|easy].
    + destruct (K1 j) as [(k & i & Q1 & Q2 & Q3)|(Q1 & Q2)].
      * left. rewrite nth_error_map in Q1. destruct (nth_error x k) as [y|] eqn:Ey; [|discriminate Q1].
        injection Q1 as <-. exists arm, x, c, k, y. rewrite Hj. repeat (split; [now left || easy|]). easy.
      * right. rewrite Hj. split; [|easy]. intros arm' x' y [E|Hin] Hy; [|now apply (Hno arm' x')].
        injection E as <- <-. apply Q1. now apply in_map.
Qed.

(** ** Resolution *)
Lemma fold_max_spec l : forall a, a <= fold_left Nat.max l a /\ (forall x, In x l -> x <= fold_left Nat.max l a) /\
  (fold_left Nat.max l a = a \/ In (fold_left Nat.max l a) l).
Proof.
  induction l as [|y l IH]; intro a; cbn; [repeat split; auto; easy|].
  destruct (IH (Nat.max a y)) as (H1 & H2 & H3). repeat split; [lia| |].
  - intros x [<-|Hx]; [lia|auto].
  - destruct H3 as [->|H3]; [|auto]. destruct (Nat.max_spec a y) as [(_ & ->)|(_ & ->)]; auto.
Qed.
Lemma pad_rows_length mx nc m : length m <= mx -> Nat.even (length m) = Nat.even mx -> length (pad_rows mx nc m) = mx.
Proof.
  intros H E. unfold pad_rows. rewrite !app_length, repeat_length.
  assert (Nat.even (mx - length m) = true) as Ev by (rewrite Nat.even_sub by lia; rewrite E; now destruct (Nat.even mx)).
  apply Nat.even_spec in Ev as (q & Eq). rewrite Eq, Nat.mul_comm, Nat.div_mul by easy. lia.
Qed.
Lemma reso_rows_total n idx (w : arr) : in_range n idx -> length idx = length w ->
  forall acc m, length acc = length m -> Forall (fun r => length r = n) acc ->
  Forall (fun r => length r = length w) m ->
  exists r, rseq (map2 (fun crow row => rbind (zip2 nmul w row) (fun v => fancy_add crow idx v)) acc m) = Ok r /\
    length r = length acc /\ Forall (fun r => length r = n) r.
Proof.
  intros R L acc. induction acc as [|a acc IH]; intros [|b m] Lm Fa Fm; try discriminate Lm; cbn.
  - exists []. auto.
  - injection Lm as Lm. inversion Fa as [|? ? Ha Fa']; subst. inversion Fm as [|? ? Hb Fm']; subst.
    rewrite zip2_eq by easy. cbn [rbind].
    destruct (fancy_add_total a idx (map2 nmul w b)) as (a' & Ea & La); [easy|rewrite map2_length; lia|].
    rewrite Ea. cbn [rbind]. destruct (IH m Lm Fa' Fm') as (r & Er & Lr & Fr). rewrite Er. cbn.
    exists (a' :: r). repeat split; [cbn; lia|]. constructor; [lia|easy].
Qed.
Lemma coadd_reso_total mn dw n (wave : dict (list Qc)) (weights : dict arr) (reso : dict mat) p :
  (forall arm m, In (arm, m) reso -> Nat.even (length m) = p /\
     exists x w, dget arm wave = Some x /\ dget arm weights = Some w /\ length w = length x /\
       in_range n (map (pix_idx mn dw) x) /\ Forall (fun row => length row = length x) m) ->
  exists r, coadd_reso n (dmap (map (pix_idx mn dw)) wave) weights reso = Ok r /\ Forall (fun row => length row = n) r.
Proof.
  intro H. unfold coadd_reso. set (mx := fold_left Nat.max (map (length (A:=list num)) (dvals reso)) 0).
  assert (forall arm m, In (arm, m) reso -> length m <= mx /\ Nat.even (length m) = Nat.even mx) as M.
  { intros arm m Hin. destruct (fold_max_spec (map (length (A:=list num)) (dvals reso)) 0) as (M1 & M2 & M3). fold mx in M1, M2, M3.
    assert (In (length m) (map (length (A:=list num)) (dvals reso))) as Hm.
    { apply in_map. unfold dvals. now apply (in_map snd) in Hin. }
    split; [now apply M2|]. destruct M3 as [M3|M3].
    - assert (length m = 0) as -> by (specialize (M2 _ Hm); lia). now rewrite M3.
    - apply in_map_iff in M3 as (m' & <- & Hm'). unfold dvals in Hm'. apply in_map_iff in Hm' as ((arm', m'') & Em & Hin').
      cbn in Em. subst m''. destruct (H _ _ Hin) as (-> & _). destruct (H _ _ Hin') as (-> & _). easy. }
  set (body := fun (am : string * mat) (acc : mat * arr) => _).
  assert (forall d acc, (forall arm m, In (arm, m) d -> In (arm, m) reso) ->
    length (fst acc) = mx -> Forall (fun r => length r = n) (fst acc) -> length (snd acc) = n ->
    exists acc', for_each d body acc = Ok acc' /\ Forall (fun r => length r = n) (fst acc') /\ length (snd acc') = n) as K.
  { induction d as [|(arm, m) d IH]; intros acc Hd L1 F L2; cbn [for_each]; [exists acc; auto|].
    assert (In (arm, m) reso) as Hin by (apply Hd; now left).
    destruct (H _ _ Hin) as (_ & x & w & Ex & Ew & Lw & R & Fm). destruct (M _ _ Hin) as (M1 & M2).
    unfold body at 1. cbn [fst snd]. unfold rget. rewrite Ew. rewrite dget_dmap, Ex. cbn [of_option option_map rbind].
    rewrite pad_rows_length by easy. rewrite Nat.eqb_refl.
    destruct (reso_rows_total n (map (pix_idx mn dw) x) (map reso_weight w) R) with
      (acc := fst acc) (m := pad_rows mx (length (map reso_weight w)) m) as (r & Er & Lr & Fr).
    - rewrite !map_length. lia.
    - now rewrite pad_rows_length.
    - easy.
    - unfold pad_rows. rewrite map_length. apply Forall_app. split; [|apply Forall_app; split].
      + apply Forall_forall. intros y Hy. apply repeat_spec in Hy as ->. apply repeat_length.
      + eapply Forall_impl; [|exact Fm]. cbn. intros. lia.
      + apply Forall_forall. intros y Hy. apply repeat_spec in Hy as ->. apply repeat_length.
    - rewrite Er. cbn [rbind].
      destruct (fancy_add_total (snd acc) (map (pix_idx mn dw) x) (map reso_weight w)) as (c & Ec & Lc).
      + now rewrite L2.
      + rewrite !map_length. lia.
      + rewrite Ec. cbn [rbind]. apply IH; cbn [fst snd]; [intros; apply Hd; now right|lia|easy|lia]. }
  destruct (K reso (repeat (repeat n0 n) mx, repeat n0 n)) as (acc & -> & F & L); auto.
  - apply repeat_length.
  - apply Forall_forall. intros y Hy. apply repeat_spec in Hy as ->. apply repeat_length.
  - apply repeat_length.
  - cbn [rbind]. eexists. split; [reflexivity|]. apply Forall_map. eapply Forall_impl; [|exact F]. cbn. intros r Hr.
    rewrite map2_length. lia.
Qed.

(** ** The coadded grid *)
Lemma grid_n_pos mn mx dw : (0 < dw)%Qc -> (mn <= mx)%Qc -> 0 < grid_n mn mx dw.
Proof. intros H L. pose proof (pix_idx_nonneg mn dw mx H L) as P. unfold pix_idx in P. unfold grid_n. lia. Qed.
Lemma grid_bound mn mx dw x :
  (0 < dw)%Qc -> (mn <= x)%Qc -> (x <= mx)%Qc -> (pix_idx mn dw x < Z.of_nat (grid_n mn mx dw))%Z.
Proof.
  intros H L1 L2. pose proof (pix_idx_mono mn dw x mx H L1 L2) as P.
  pose proof (pix_idx_nonneg mn dw x H L1) as P0. unfold grid_n.
  change (qtrunc ((mx - mn) / dw + fq 1 10)%Qc) with (pix_idx mn dw mx). lia.
Qed.
Lemma linspace_ascending mn mx dw :
  (0 < dw)%Qc -> (mn <= mx)%Qc -> ascending (linspace mn mx (grid_n mn mx dw)).
Proof.
  intros H L. set (n := grid_n mn mx dw). unfold linspace.
  destruct (le_lt_dec n 1) as [C|C].
  - destruct n as [|[|n]]; [constructor|cbn; constructor; constructor|lia].
  - assert (0 < (mx - mn) / zq (Z.of_nat n - 1))%Qc as St.
    { assert (0 < zq (Z.of_nat n - 1))%Qc as D by (change 0%Qc with (zq 0); apply zq_lt; lia).
      assert (0 < mx - mn)%Qc.
      { assert (mn < mx)%Qc; [|qlra]. destruct (Qclt_le_dec mn mx) as [|C']; [easy|]. exfalso.
        assert (mx = mn) as E by (apply Qcle_antisym; easy).
        assert (n = 1) as En; [|lia]. unfold n, grid_n. rewrite E.
        replace ((mn - mn) / dw + fq 1 10)%Qc with (fq 1 10) by (unfold Qcdiv; ring). reflexivity. }
      unfold Qcdiv. assert (0 < / zq (Z.of_nat n - 1))%Qc by now apply Qcinv_pos. qnra. }
    set (st := ((mx - mn) / zq (Z.of_nat n - 1))%Qc) in *. clearbody st. clear - St.
    generalize 0. induction n as [|n IH]; intro a; cbn [seq map]; [constructor|].
    constructor; [apply IH|]. apply Forall_map, Forall_forall. intros k Hk. apply in_seq in Hk.
    assert (zq (Z.of_nat a) < zq (Z.of_nat k))%Qc by (apply zq_lt; lia). qnra.
Qed.

Lemma coadd_finish_nth n F I N j :
  let '(fl, iv) := coadd_finish (mkCo (repr n F) (repr n I) (repr n N)) in
  length fl = n /\ length iv = n /\
  (j < n ->
   nth_error fl j = Some (if npos (Fin (N j)) then ndiv (Fin (F j)) (Fin (N j)) else Fin (F j)) /\
   nth_error iv j = Some (if npos (Fin (N j)) then ndiv (nsq (Fin (N j))) (Fin (I j)) else Fin (I j))).
Proof.
  unfold coadd_finish. cbn [co_flux co_ivar co_norm].
  rewrite !map2_length, !repr_length. split; [lia|]. split; [lia|]. intro H.
  rewrite !nth_error_map2, !repr_nth. apply Nat.ltb_lt in H. rewrite H. easy.
Qed.
Lemma len_at_single {A} k (l : list A) arm :
  len_at [(k, l)] arm = if String.eqb arm k then Some (length l) else None.
Proof. unfold len_at. cbn. now destruct (String.eqb arm k). Qed.
Lemma at_pix_single {A} k (l : list A) j : at_pix [(k, l)] k j = nth_error l j.
Proof. unfold at_pix. cbn. now rewrite String.eqb_refl. Qed.

Section Coadd.
Variable nsqrt : num -> num.
Variable smooth : arr -> Qc -> arr.
Hypothesis smooth_len : forall l q, length (smooth l q) = length l.

Lemma smooth_step dw sc t fl iv wave fr0 f0 :
  s_f t = set_fr fr0 (new_ivar [("brz"%string, iv)] (set_ff [("brz"%string, fl)] (set_fw [("brz"%string, wave)] f0))) ->
  length fl = length wave -> length iv = length wave -> ascending wave ->
  rs f0 < length (hp f0) -> rw f0 < length (hp f0) ->
  let t2 := set_smooth_forestivar smooth dw sc t in
  proper t2 /\ fw (s_f t2) = [("brz"%string, wave)] /\ ff (s_f t2) = [("brz"%string, fl)] /\
  fivar (s_f t2) = [("brz"%string, iv)] /\ s_cont t2 = s_cont t /\ s_valid t2 = s_valid t /\
  fr (s_f t2) = fr0 /\ s_cat t2 = s_cat t.
Proof.
  intros E L1 L2 As H1 H2. cbn zeta. unfold set_smooth_forestivar. rewrite E.
  assert (nth (length (hp f0)) (hp f0 ++ @cons (dict arr) [("brz"%string, iv)] (@nil (dict arr))) [] = [("brz"%string, iv)]) as Hn.
  { rewrite app_nth2 by lia. now rewrite Nat.sub_diag. }
  destruct (qleb sc 0).
  - cbn. unfold fivar. cbn. rewrite Hn. split; [|repeat split].
    split; [|split; [|split]].
    + intro arm. unfold fivar, fivar_sm, fweight. cbn. rewrite Hn, !len_at_single, L1, L2. easy.
    + cbn. constructor; [easy|constructor].
    + intros arm w. cbn. destruct (String.eqb arm "brz"); [|discriminate]. intro Q. now injection Q as <-.
    + cbn. rewrite app_length. cbn. lia.
  - cbn. unfold fivar. cbn. rewrite Hn. rewrite app_nth1 by (rewrite app_length; cbn; lia). rewrite Hn.
    split; [|repeat split].
    split; [|split; [|split]].
    + intro arm. unfold fivar, fivar_sm, fweight. cbn.
      rewrite app_nth1 by (rewrite app_length; cbn; lia). rewrite Hn.
      rewrite app_nth2 by lia. rewrite Nat.sub_diag. cbn [nth].
      rewrite !len_at_single, smooth_len, L1, L2. easy.
    + cbn. constructor; [easy|constructor].
    + intros arm w. cbn. destruct (String.eqb arm "brz"); [|discriminate]. intro Q. now injection Q as <-.
    + cbn. rewrite !app_length. cbn. lia.
Qed.

Lemma fallback_proper varlss eta s :
  proper s -> s_valid s = false \/ s_cont s = [] ->
  exists s', set_forest_weight varlss eta s = Ok s' /\ proper s' /\ only_weights_changed s s'.
Proof.
  intros P H. pose proof P as (A & N & As & H1 & H2 & H3). unfold set_forest_weight.
  assert (negb (s_valid s) || negb (dtrue (s_cont s)) = true) as ->.
  { destruct H as [-> | ->]; [easy|]. cbn. now rewrite orb_true_r. }
  eexists. split; [reflexivity|]. split; [|repeat split].
  split; [|easy]. intro arm. destruct (A arm) as (A1 & A2 & A3 & A4). cbn. easy.
Qed.

Lemma coadd_spec junk dw varlss eta s :
  proper s -> all_finite (ff (s_f s)) -> all_finite (fivar (s_f s)) -> all_finite (fweight (s_f s)) ->
  (0 < dw)%Qc -> uniform_arms dw s -> weights_ok (all_entries s) ->
  (s_cont s = [] \/ cont_matches s) -> reso_fits s ->
  exists s' mn mx, coadd_arms_forest nsqrt smooth junk dw varlss eta s = Ok s' /\
    smallest s mn /\ largest s mx /\ proper s' /\ s_cat s' = s_cat s /\ s_valid s' = s_valid s /\
    fw (s_f s') = [("brz"%string, linspace mn mx (grid_n mn mx dw))] /\
    (forall j, j < grid_n mn mx dw ->
       exists f i, at_pix (ff (s_f s')) "brz" j = Some (Fin f) /\ at_pix (fivar (s_f s')) "brz" j = Some (Fin i) /\
         weighted_average (landing s mn dw j) f i) /\
    (s_cont s = [] -> s_cont s' = []) /\
    (s_cont s <> [] -> exists c', s_cont s' = [("brz"%string, c')] /\ length c' = grid_n mn mx dw /\
       forall arm k x, at_pix (fw (s_f s)) arm k = Some x ->
       exists j, j < grid_n mn mx dw /\ on_pixel mn dw j x = true /\
       exists arm' k' x' c, at_pix (fw (s_f s)) arm' k' = Some x' /\ on_pixel mn dw j x' = true /\
         at_pix (s_cont s) arm' k' = Some c /\ nth_error c' j = Some c) /\
    (s_valid s = true -> s_cont s <> [] -> forall j x i c,
       at_pix (fw (s_f s')) "brz" j = Some x -> at_pix (fivar_sm (s_f s')) "brz" j = Some i ->
       at_pix (s_cont s') "brz" j = Some c ->
       at_pix (fweight (s_f s')) "brz" j = Some (weight_formula i (eta x) (varlss x) c)).
Proof.
  intros P F1 F2 F3 Hd U Wk Hc (par & Hr). pose proof P as (A & Nd & Asc & Hri & Hrs & Hrw).
  destruct (coadd_limits s dw P F1 F2 F3 U) as (fs & ls & mn & mx & Efs & Els & Emn & Emx & Smn & Smx).
  assert (forall arm x, In (arm, x) (fw (s_f s)) -> dget arm (fw (s_f s)) = Some x /\ uniform dw x /\
     forall y, In y x -> (mn <= y)%Qc /\ (pix_idx mn dw y < Z.of_nat (grid_n mn mx dw))%Z) as K.
  { intros arm x Hin. pose proof (NoDup_dget _ _ _ Nd Hin) as E. split; [easy|]. split; [exact (proj2 (proj2 U arm x E))|].
    intros y Hy. destruct (proj1 (wave_of_entry s P F1 F2 F3 y)) as (e & He & <-); [eauto|].
    destruct Smn as (_ & S1). destruct Smx as (_ & S2). split; [now apply S1|]. apply grid_bound; auto. }
  assert (mn <= mx)%Qc as Hmm.
  { destruct Smn as ((e & He & <-) & _). now apply Smx. }
  set (n := grid_n mn mx dw) in *.
  assert (forall arm x, In (arm, x) (fw (s_f s)) -> in_range n (map (pix_idx mn dw) x)) as Rng.
  { intros arm x Hin. destruct (K arm x Hin) as (_ & Ux & B). now apply (arm_indices mn dw n x Hd Ux). }
  unfold coadd_arms_forest. rewrite Efs, Els. cbn [rbind]. rewrite Emn, Emx. cbn [rbind].
  change (Z.to_nat (qtrunc ((mx - mn) / dw + fq 1 10)%Qc + 1)) with n. rewrite repr_zero.
  rewrite (coadd_loop s mn dw n (fw (s_f s)) P F1 F2 F3 Hd K). cbn [rbind].
  fold (all_entries s). set (Ff := fun j : nat => _). set (Ii := fun j : nat => (_ + qsum (map e_wv _))%Qc).
  set (Nn := fun j : nat => (_ + qsum (map e_weight _))%Qc).
  pose proof (coadd_finish_nth n Ff Ii Nn) as Fin'.
  destruct (coadd_finish (mkCo (repr n Ff) (repr n Ii) (repr n Nn))) as [cfl civ].
  destruct (Fin' 0) as (Lfl & Liv & _).
  (* continuum *)
  assert (exists cont1,
    (if dtrue (s_cont s) then
           rmap (fun c => [("brz"%string, c)])
           (for_each (dmap (map (pix_idx mn dw)) (fw (s_f s))) (fun ai (c : arr) =>
              rbind (rget (fst ai) (s_cont s)) (fun ca => fancy_set c (snd ai) ca))
              (map junk (seq 0 n)))
         else Ok []) = Ok cont1 /\ (s_cont s = [] -> cont1 = []) /\
    (s_cont s <> [] -> exists c', cont1 = [("brz"%string, c')] /\ length c' = n /\
       forall arm k x, at_pix (fw (s_f s)) arm k = Some x ->
       exists j, j < n /\ on_pixel mn dw j x = true /\
       exists arm' k' x' c, at_pix (fw (s_f s)) arm' k' = Some x' /\ on_pixel mn dw j x' = true /\
         at_pix (s_cont s) arm' k' = Some c /\ nth_error c' j = Some c)) as (cont1 & Econt & C0 & C1).
  { destruct (s_cont s) as [|c0 cr] eqn:Ec; cbn [dtrue]; [exists []; repeat split; easy|].
    destruct Hc as [Hc|Hc]; [discriminate Hc|]. rewrite <- Ec in *.
    destruct (cont_loop mn dw (s_cont s) (fw (s_f s)) (map junk (seq 0 n))) as (c' & -> & Lc & Kc).
    { intros arm x Hin. rewrite map_length, seq_length. split; [now apply (Rng arm)|].
      destruct (K arm x Hin) as (E & _). apply (len_dget _ _ _ _ (Hc arm ltac:(congruence)) E). }
    cbn [rmap rbind]. eexists. split; [reflexivity|]. split; [intro Q; congruence|]. intros _.
    exists c'. rewrite map_length, seq_length in Lc. split; [easy|]. split; [easy|]. intros arm k x Ex.
    unfold at_pix in Ex. destruct (dget arm (fw (s_f s))) as [w|] eqn:Ew; [|discriminate Ex].
    pose proof (dget_In _ _ _ Ew) as Hin. destruct (K _ _ Hin) as (_ & _ & B).
    pose proof (nth_error_In _ _ Ex) as Hx. destruct (B x Hx) as (B1 & B2).
    pose proof (pix_idx_nonneg mn dw x Hd B1) as B0.
    set (j := Z.to_nat (pix_idx mn dw x)). exists j. split; [unfold j; lia|].
    split; [rewrite on_pixel_idx by easy; apply Nat.eqb_refl|].
    destruct (Kc j) as [(arm' & x' & c & k' & y & Hin' & Ec' & Ey & Ej & Ecj)|(Hno & _)].
    - destruct (K _ _ Hin') as (E' & _ & B'). destruct (B' y (nth_error_In _ _ Ey)) as (B1' & _).
      assert (exists v, nth_error c k' = Some v) as (v & Ev).
      { destruct (nth_error c k') as [v|] eqn:Q; [now exists v|].
        exfalso. symmetry in Ecj. apply nth_error_None in Ecj. unfold j in Ecj. lia. }
      exists arm', k', y, v. unfold at_pix. rewrite E', Ec'. repeat split; auto.
      + rewrite on_pixel_idx by easy. now apply Nat.eqb_eq.
      + rewrite <- Ecj. easy.
    - exfalso. now apply (Hno arm w x). }
  rewrite Econt. cbn [rbind].
  (* resolution *)
  assert (exists reso1, (if dtrue (fr (s_f s)) then
           rmap (fun m => [("brz"%string, m)])
             (coadd_reso n (dmap (map (pix_idx mn dw)) (fw (s_f s))) (fweight (s_f s)) (fr (s_f s)))
         else Ok []) = Ok reso1) as (reso1 & ->).
  { destruct (dtrue (fr (s_f s))); [|eauto].
    destruct (coadd_reso_total mn dw n (fw (s_f s)) (fweight (s_f s)) (fr (s_f s)) par) as (r & -> & _); [|cbn; eauto].
    intros arm m Hin. destruct (Hr arm m Hin) as (Hp & x & Ex & Fm). split; [easy|].
    destruct (A arm) as (_ & _ & _ & L4). destruct (len_dget _ _ _ _ L4 Ex) as (w & Ew & Lw).
    exists x, w. repeat split; auto. apply (Rng arm). now apply dget_In. }
  cbn [rbind].
  set (wave := linspace mn mx n). set (f1 := new_ivar _ _). set (t := set_cont cont1 _).
  assert (length wave = n) as Lw by apply linspace_length.
  destruct (smooth_step dw (s_sscale s) t cfl civ wave reso1 (s_f s)) as (Pt & T1 & T2 & T3 & T4 & T5 & T6 & T7);
    auto; try lia; [apply linspace_ascending; auto|].
  set (t2 := set_smooth_forestivar smooth dw (s_sscale s) t) in *.
  change (s_cont t) with cont1 in T4. change (s_valid t) with (s_valid s) in T5. change (s_cat t) with (s_cat s) in T7.
  assert (exists s3, set_forest_weight varlss eta t2 = Ok s3 /\ proper s3 /\ only_weights_changed t2 s3 /\
     (s_valid s = true -> s_cont s <> [] -> forall j x i c,
       at_pix (fw (s_f s3)) "brz" j = Some x -> at_pix (fivar_sm (s_f s3)) "brz" j = Some i ->
       at_pix (s_cont s3) "brz" j = Some c ->
       at_pix (fweight (s_f s3)) "brz" j = Some (weight_formula i (eta x) (varlss x) c)))
    as (s3 & -> & P3 & O3 & W3).
  { destruct (s_valid s) eqn:Ev; [destruct (s_cont s) as [|c0 cr] eqn:Ec|].
    - destruct (fallback_proper varlss eta t2 Pt) as (s3 & ? & ? & ?); [right; rewrite T4; auto|].
      exists s3. repeat (split; [easy|]). intros _ C. now destruct C.
    - destruct C1 as (c' & -> & Lc & _); [easy|].
      destruct (set_forest_weight_spec varlss eta t2 Pt) as (s3 & E3 & P3 & O3 & H3).
      + intros arm _. rewrite T4, T1, !len_at_single, Lc, Lw. easy.
      + easy.
      + now rewrite T4.
      + exists s3. repeat (split; [easy|]). intros _ _ j x i c Q1 Q2 Q3.
        pose proof O3 as (O31 & _ & _ & O34 & _ & _ & _ & _ & _ & O310 & _).
        rewrite O31 in Q1. rewrite O34 in Q2. rewrite O310 in Q3. now apply H3.
    - destruct (fallback_proper varlss eta t2 Pt) as (s3 & ? & ? & ?); [left; now rewrite T5|].
      exists s3. repeat (split; [easy|]). discriminate. }
  cbn [rbind]. unfold ndot. rewrite zip2_eq by (rewrite map_length; lia). cbn [rmap rbind].
  destruct O3 as (O1 & O2 & O3 & O4 & O5 & O6 & O7 & O8 & O9 & O10 & O11 & _).
  eexists _, mn, mx. split; [reflexivity|]. cbn. rewrite O1, O2, O3, O6, O10, O11, T1, T2, T3, T4, T5, T7.
  split; [easy|]. split; [easy|]. split; [exact P3|]. split; [easy|]. split; [easy|]. split; [easy|].
  split; [|split; [|split]]; auto.
  - intros j Hj. rewrite !at_pix_single. destruct (Fin' j) as (_ & _ & Hfin). destruct (Hfin Hj) as (-> & ->).
    assert (weights_ok (landing s mn dw j)) as Wj.
    { intros e He. apply filter_In in He as (He & _). now apply Wk. }
    destruct (sums_average (landing s mn dw j) Wj) as (f & i & Ef & Ei & Av).
    assert (Ff j = qsum (map e_wf (landing s mn dw j))) as -> by (unfold Ff, landed, landing; ring).
    assert (Ii j = qsum (map e_wv (landing s mn dw j))) as -> by (unfold Ii, landed, landing; ring).
    assert (Nn j = qsum (map e_weight (landing s mn dw j))) as -> by (unfold Nn, landed, landing; ring).
    exists f, i. rewrite Ef, Ei. easy.
  - intros V Hcn j x i c. specialize (W3 V Hcn j x i c). rewrite O1, O10, T1, T4 in W3. exact W3.
Qed.
End Coadd.
