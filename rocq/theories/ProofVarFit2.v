(** Proofs about VarLSSFitter: the statistics of all ranks. *)
From Coq Require Import ZArith String List Bool Arith Lia Field Qcanon Sorting.Sorted Permutation.
From Verif Require Import Num NpList NpListFacts Exn Mpi ProofMpi ModelSubsample SpecSubsample ProofSubsample
  ProofSubsample2 ModelSpectrum ModelStack SpecStack ProofStack ModelVarFit SpecVarFit ProofVarFit.
Import ListNotations.
Local Open Scope nat_scope.

(** the quantity summed in data set j *)
Definition gq (j : nat) (p : lsspix) : Qc :=
  match j with
  | 0 => l_delta p
  | 1 => (l_delta p * l_delta p)%Qc
  | 2 => ((l_delta p * l_delta p) * (l_delta p * l_delta p))%Qc
  | 3 => qvar' (l_ivar p)
  | _ => 0%Qc
  end.
Lemma zqn_plus a b : zq (Z.of_nat (a + b)) = (zq (Z.of_nat a) + zq (Z.of_nat b))%Qc.
Proof. now rewrite Nat2Z.inj_add, zq_plus. Qed.
Lemma count_app {A} (p : A -> bool) a b : count p (a ++ b) = count p a + count p b.
Proof. unfold count. now rewrite filter_app, app_length. Qed.
Lemma count_map {A B} (p : B -> bool) (f : A -> B) l : count p (map f l) = count (fun x => p (f x)) l.
Proof. unfold count. induction l as [|x l IH]; cbn; [easy|]. destruct (p (f x)); cbn; now rewrite IH. Qed.
Lemma count_ext {A} (p q : A -> bool) l : (forall x, p x = q x) -> count p l = count q l.
Proof. intro H. unfold count. now rewrite (filter_ext p q H). Qed.

Section Stats.
Variables (w1 w2 : Qc) (nw nv : nat) (e : list Qc) (usecov : bool) (n : nat).
Hypotheses (Hw : (w1 < w2)%Qc) (Hnw : 1 <= nw) (He : good_edges nv e) (Hn : 1 <= n).
Let ml := (nv + 2) * (nw + 2).
Let dw := ((w2 - w1) / zq (Z.of_nat nw))%Qc.
Let w0 := (w1 + dw / (1 + 1))%Qc.
Let pid := pidx w1 w2 nw nv e.

(** sums over pixels with flat index k *)
Definition at_k (k : nat) (p : lsspix) : bool := Nat.eqb (pid p) k.
Definition xs (l : list lsspix) (j k : nat) : Qc := bin_total (gq j) (at_k k) l.
Definition cs (l : list lsspix) (k : nat) : Qc := bin_count (at_k k) l.
Definition slot (i : nat) (T : list (nat * lsspix)) : list lsspix :=
  map snd (filter (fun p => Nat.eqb (fst p) i) T).

Definition npix_of (P : list lsspix) : list nat := map (fun k => count (at_k k) P) (seq 0 ml).
Definition nqso_of (L : list (list lsspix)) : list nat :=
  map (fun k => count (fun s => Nat.ltb 0 (count (at_k k) s)) L) (seq 0 ml).

(** the statistics of the tagged pixels T are waiting in the subsampler *)
Definition sub_inv (T : list (nat * lsspix)) (s : sub) : Prop :=
  (forall p, In p T -> fst p < n) /\
  nsamples s = n /\ nset s = 4 /\ ndata s = ml /\ normalized s = false /\
  s_mean s = None /\ s_cov s = None /\ s_var s = None /\ s_xdiff s = None /\
  (forall i j k, i < n -> meas s i j k = xs (slot i T) j k) /\
  (forall i k, i < n -> wts s i k = cs (slot i T) k).

Definition fitter (P : list lsspix) (L : list (list lsspix)) (s : sub) : vfit :=
  mkV nw nv (centers w1 w2 nw) dw e usecov (valid_bins nw nv) (npix_of P) (nqso_of L) s false.

Lemma fold_max_idx idx m : (forall i, In i idx -> i < m) -> fold_left (fun acc i => Nat.max acc (S i)) idx m = m.
Proof.
  induction idx as [|i idx IH]; intro H; cbn; [easy|]. rewrite Nat.max_l by (specialize (H i (or_introl eq_refl)); lia).
  apply IH. intros; apply H; now right.
Qed.
Lemma int_bincount_spec ps : int_bincount (map pid ps) ml = npix_of ps.
Proof.
  unfold int_bincount. rewrite fold_max_idx.
  - unfold npix_of. apply map_ext. intro k. rewrite count_map. apply count_ext. intro p. unfold at_k. apply Nat.eqb_sym.
  - intros i Hi. apply in_map_iff in Hi. destruct Hi as (p & <- & _). now apply pidx_range.
Qed.
Lemma map2_seq_add (f g : nat -> nat) m : map2 Nat.add (map f (seq 0 m)) (map g (seq 0 m)) = map (fun k => f k + g k) (seq 0 m).
Proof. apply map2_maps. Qed.
Lemma npix_nth ps k : nth k (npix_of ps) 0 = count (at_k k) ps.
Proof.
  unfold npix_of. destruct (Nat.lt_ge_cases k ml) as [H|H].
  - rewrite (nth_indep _ 0 (count (at_k 0) ps)) by (now rewrite map_length, seq_length).
    rewrite (map_nth (fun k => count (at_k k) ps)). now rewrite seq_nth.
  - rewrite nth_overflow by (now rewrite map_length, seq_length). symmetry. unfold count.
    rewrite (filter_none (at_k k)); [easy|]. intros p _. apply Nat.eqb_neq.
    pose proof (pidx_range w1 w2 nw nv e Hnw He p) as R. unfold pid. fold ml in R. lia.
Qed.
Lemma vector_bincount_spec ps j k :
  vector_bincount (map pid ps) (map l_delta ps) (map qvar' (map l_ivar ps)) j k = xs ps j k.
Proof.
  assert (forall g : Qc * Qc -> Qc,
    qsum (map (fun p => g (snd p)) (filter (fun p => Nat.eqb (fst p) k) (combine (map pid ps) (combine (map l_delta ps) (map qvar' (map l_ivar ps))))))
    = qsum (map (fun p => g (l_delta p, qvar' (l_ivar p))) (filter (at_k k) ps))) as K.
  { intro g. f_equal. induction ps as [|p ps IH]; [easy|]. cbn [map combine filter fst]. unfold at_k at 1.
    destruct (Nat.eqb (pid p) k); cbn [map snd]; now rewrite IH. }
  unfold vector_bincount, xs, bin_total. destruct j as [|[|[|[|j]]]].
  - exact (K (fun p => fst p)).
  - exact (K (fun p => fst p * fst p)%Qc).
  - exact (K (fun p => (fst p * fst p) * (fst p * fst p))%Qc).
  - exact (K (fun p => snd p)).
  - symmetry. apply qsum_map_0.
Qed.

Lemma slot_app i a b : slot i (a ++ b) = slot i a ++ slot i b.
Proof. unfold slot. now rewrite filter_app, map_app. Qed.
Lemma slot_pairs i c ps : slot i (map (pair c) ps) = if Nat.eqb c i then ps else [].
Proof.
  unfold slot. induction ps as [|p ps IH]; cbn [map filter fst]; [now destruct (Nat.eqb c i)|].
  destruct (Nat.eqb c i); cbn; now rewrite IH.
Qed.
Lemma xs_app a b j k : xs (a ++ b) j k = (xs a j k + xs b j k)%Qc.
Proof. unfold xs, bin_total. now rewrite filter_app, map_app, qsum_app. Qed.
Lemma cs_app a b k : cs (a ++ b) k = (cs a k + cs b k)%Qc.
Proof. unfold cs, bin_count. now rewrite count_app, zqn_plus. Qed.

Lemma vfit_add_ok P L T s ps : sub_inv T s -> isample s < n ->
  exists s', vfit_add (map l_wave ps) (map l_delta ps) (map l_ivar ps) (fitter P L s)
             = (fitter (P ++ ps) (L ++ [ps]) s', Ok tt) /\
    sub_inv (T ++ map (pair (isample s)) ps) s' /\ isample s' = (isample s + 1) mod n.
Proof.
  intros (E0 & E1 & E2 & E3 & E4 & E5 & E6 & E7 & E8 & E9 & E10) Hs. unfold vfit_add, fitter.
  cbn [v_wave v_nw v_nv v_dw v_edges v_npix v_sub v_done].
  assert (rfirst (centers w1 w2 nw) = Ok w0) as C.
  { unfold w0, dw. replace nw with (S (nw - 1)) by lia. apply centers_first. }
  destruct (centers w1 w2 nw) as [|c0 cc] eqn:Ec; [discriminate|]. cbn [rfirst] in C. injection C as ->.
  rewrite !map_length, !Nat.eqb_refl. cbn [negb orb].
  match goal with |- context [map2 ?f (map l_wave ps) (map l_ivar ps)] =>
    replace (map2 f (map l_wave ps) (map l_ivar ps)) with (map pid ps) by (rewrite map2_maps; reflexivity) end.
  unfold minlength. cbn [v_nv v_nw]. fold ml. rewrite int_bincount_spec.
  unfold npix_of at 1 2. rewrite !map_length, Nat.eqb_refl. cbn [negb].
  unfold add_measurement, v_set. cbn [v_sub v_npix v_nqso v_done v_nw v_nv v_wave v_dw v_edges v_usecov v_valid].
  rewrite E4. eexists. split; [|split].
  - cbv zeta. f_equal. f_equal.
    + unfold npix_of. rewrite map2_maps. apply map_ext. intro k. now rewrite count_app.
    + unfold nqso_of, npix_of. rewrite map_map, map2_maps. apply map_ext. intro k. rewrite count_app. f_equal.
      unfold count at 2. cbn [filter]. now destruct (0 <? count (at_k k) ps).
  - unfold sub_inv. cbn [nsamples nset ndata normalized s_mean s_cov s_var s_xdiff meas wts].
    split.
    { intros p Hp. apply in_app_iff in Hp. destruct Hp as [Hp|Hp]; [now apply E0|].
      apply in_map_iff in Hp. destruct Hp as (q & <- & _). exact Hs. }
    do 8 (split; [assumption || reflexivity|]). split.
    + intros i j k Hi. rewrite slot_app, slot_pairs, xs_app, (Nat.eqb_sym (isample s) i).
      destruct (Nat.eqb i (isample s)); rewrite E9 by easy; [now rewrite vector_bincount_spec|].
      unfold xs at 3, bin_total. cbn. ring.
    + intros i k Hi. rewrite slot_app, slot_pairs, cs_app, (Nat.eqb_sym (isample s) i), npix_nth.
      destruct (Nat.eqb i (isample s)); rewrite E10 by easy; [reflexivity|].
      unfold cs at 3, bin_count. cbn. rewrite zq_0. ring.
  - cbn [isample]. now rewrite E1.
Qed.

Definition tag_from (first t0 : nat) (arms : list (list lsspix)) : list (nat * lsspix) :=
  concat (map (fun ta : nat * list lsspix => map (pair ((first + fst ta) mod n)) (snd ta))
              (combine (seq t0 (length arms)) arms)).
Lemma add_all_ok first arms : forall P L T s, sub_inv T s -> isample s = (first + length L) mod n ->
  exists s', vfit_add_all (map call_of arms) (fitter P L s) = Ok (fitter (P ++ concat arms) (L ++ arms) s') /\
    sub_inv (T ++ tag_from first (length L) arms) s'.
Proof.
  induction arms as [|ps arms IH]; intros P L T s I Is; cbn [map vfit_add_all concat].
  - exists s. rewrite !app_nil_r. split; [easy|exact I].
  - unfold call_of at 1. assert (isample s < n) as Hs by (rewrite Is; apply Nat.mod_upper_bound; lia).
    destruct (vfit_add_ok P L T s ps I Hs) as (s1 & E & I1 & Is1). rewrite E. cbn [rbind].
    destruct (IH (P ++ ps) (L ++ [ps]) _ s1 I1) as (s2 & E2 & I2).
    { rewrite Is1, Is, app_length. cbn [length]. rewrite Nat.add_mod_idemp_l by lia. f_equal. lia. }
    exists s2. rewrite E2, <- !app_assoc. split; [easy|]. revert I2. rewrite app_length, <- app_assoc. cbn [length].
    rewrite Is, Nat.add_1_r. easy.
Qed.
Lemma init_inv first : sub_inv [] (sub_init 4 ml n first).
Proof.
  unfold sub_inv, sub_init. cbn [nsamples nset ndata normalized s_mean s_cov s_var s_xdiff meas wts].
  split; [easy|]. do 8 (split; [reflexivity|]). split; [easy|]. intros. unfold cs, bin_count. cbn. now rewrite zq_0.
Qed.
Lemma zero_counts (f : nat -> nat) : (forall k, f k = 0) -> forall m s, map f (seq s m) = repeat 0 m.
Proof. intros H m. induction m as [|m IH]; intro s; cbn; [easy|]. now rewrite H, IH. Qed.
Lemma vfit_init_fitter nsub r size : nsub = n ->
  vfit_init w1 w2 nw nv e (Some nsub) usecov r size = fitter [] [] (sub_init 4 ml n ((r * n) / size)).
Proof.
  intros ->. unfold vfit_init, fitter. f_equal; unfold npix_of, nqso_of; symmetry; apply zero_counts; easy.
Qed.
Lemma rank_state_ok r size arms :
  exists s, vfit_add_all (map call_of arms) (vfit_init w1 w2 nw nv e (Some n) usecov r size)
            = Ok (fitter (concat arms) arms s) /\ sub_inv (tag_arms n ((r * n) / size) arms) s.
Proof.
  rewrite vfit_init_fitter by easy.
  destruct (add_all_ok ((r * n) / size) arms [] [] [] _ (init_inv ((r * n) / size))) as (s & E & I).
  - cbn [isample sub_init length]. now rewrite Nat.add_0_r.
  - exists s. rewrite E. now split.
Qed.

(** ** the reduction *)
Lemma fold_vsub (f : nat -> arr3) l x :
  fold_left (fun a b => VSub (arr_add (vsub_of a) (vsub_of b))) (map (fun r => VSub (f r)) l) (VSub x)
  = VSub (fold_left arr_add (map f l) x).
Proof. revert x. induction l as [|r l IH]; intro x; cbn; [easy|]. now rewrite IH. Qed.
Lemma fold_int (f : nat -> nat -> nat) m l g :
  fold_left int_sum (map (fun r => VInt (map (f r) (seq 0 m))) l) (VInt (map g (seq 0 m)))
  = VInt (map (fun k => g k + list_sum (map (fun r => f r k) l)) (seq 0 m)).
Proof.
  revert g. induction l as [|r l IH]; intro g; cbn [map fold_left list_sum fold_right].
  - f_equal. apply map_ext. intro. lia.
  - unfold int_sum at 2. cbn [vint_of]. rewrite map2_maps, IH. f_equal. apply map_ext. intro k.
    unfold list_sum. cbn [fold_right]. lia.
Qed.
Lemma count_concat {A} (p : A -> bool) (f : nat -> list A) l :
  count p (concat (map f l)) = list_sum (map (fun r => count p (f r)) l).
Proof. induction l as [|r l IH]; [easy|]. cbn [map concat]. rewrite count_app, IH. reflexivity. Qed.
Lemma list_sum_first (f : nat -> nat) m : 1 <= m -> f 0 + list_sum (map f (seq 1 (m - 1))) = list_sum (map f (seq 0 m)).
Proof. intro H. destruct m as [|m]; [lia|]. cbn. now rewrite Nat.sub_0_r. Qed.
Lemma xs_concat (f : nat -> list lsspix) l j k : xs (concat (map f l)) j k = qsum (map (fun r => xs (f r) j k) l).
Proof. induction l as [|r l IH]; [easy|]. cbn [map concat]. now rewrite xs_app, IH, qsum_cons. Qed.
Lemma cs_concat (f : nat -> list lsspix) l k : cs (concat (map f l)) k = qsum (map (fun r => cs (f r) k) l).
Proof.
  induction l as [|r l IH]; cbn [map concat]; [unfold cs, bin_count; cbn; now rewrite zq_0|].
  now rewrite cs_app, IH, qsum_cons.
Qed.
Lemma slot_concat (f : nat -> list (nat * lsspix)) i l : slot i (concat (map f l)) = concat (map (fun r => slot i (f r)) l).
Proof. induction l as [|r l IH]; [easy|]. cbn [map concat]. now rewrite slot_app, IH. Qed.

Lemma stats_reduced {B} (k : nat -> vfit -> prog vval B) size (P : nat -> list lsspix) (L : nat -> list (list lsspix)) (T : nat -> list (nat * lsspix)) (st : nat -> sub) :
  1 <= size -> (forall r, r < size -> sub_inv (T r) (st r)) ->
  let P' := concat (map P (seq 0 size)) in let L' := concat (map L (seq 0 size)) in
  let T' := concat (map T (seq 0 size)) in
  let st' r := set_data (reduced_meas size st) (fun i k => reduced_wts size st i 0 k) (st r) in
  spmd size (fun r => pbind (calculate_stats (fitter (P r) (L r) (st r))) (k r))
  = spmd size (fun r => pbind (@of_res vval vfit (local_stats (fitter P' L' (st' r)))) (k r)) /\
  (forall r, r < size -> sub_inv T' (st' r)).
Proof.
  intros Hs I P' L' T' st'. split.
  - unfold calculate_stats, fitter. cbn [v_done]. unfold sub_allreduce.
    cbn [lift pbind v_sub v_npix v_nqso].
    rewrite spmd_allreduce by easy.
    rewrite (fold_vsub (fun r => meas (st r))).
    rewrite spmd_allreduce by easy.
    rewrite (fold_vsub (fun r => fun i _ k => wts (st r) i k)).
    rewrite spmd_allreduce by easy. unfold npix_of. rewrite fold_int.
    rewrite spmd_allreduce by easy. unfold nqso_of. rewrite fold_int.
    apply spmd_ext. intros r Hr. cbn [vint_of vsub_of]. do 3 f_equal. unfold v_set.
    cbn [v_nw v_nv v_wave v_dw v_edges v_usecov v_valid v_done]. f_equal.
    + apply map_ext. intro q. rewrite (list_sum_first (fun r => count (at_k q) (P r))) by easy. symmetry. apply count_concat.
    + apply map_ext. intro q.
      rewrite (list_sum_first (fun r => count (fun s => 0 <? count (at_k q) s) (L r))) by easy. symmetry. apply count_concat.
  - intros r Hr. destruct (I r Hr) as (E0 & E1 & E2 & E3 & E4 & E5 & E6 & E7 & E8 & E9 & E10). unfold st', sub_inv.
    cbn [set_data nsamples nset ndata normalized s_mean s_cov s_var s_xdiff meas wts]. split.
    { intros p Hp. unfold T' in Hp. apply in_concat in Hp. destruct Hp as (x & Hx & Hp). apply in_map_iff in Hx.
      destruct Hx as (q & <- & Hq). apply in_seq in Hq. destruct (I q) as (K & _); [lia|]. now apply K. }
    do 8 (split; [assumption|]). split.
    + intros i j q Hi. unfold reduced_meas. rewrite fold_arr_add, map_map.
      rewrite (qsum_map_seq_S (fun r => meas (st r) i j q) size Hs). unfold T'. rewrite slot_concat, xs_concat.
      apply sumn_ext. intros r' Hq. destruct (I r' Hq) as (_ & _ & _ & _ & _ & _ & _ & _ & _ & K & _). now apply K.
    + intros i q Hi. unfold reduced_wts. rewrite fold_arr_add, map_map.
      rewrite (qsum_map_seq_S (fun r => wts (st r) i q) size Hs). unfold T'. rewrite slot_concat, cs_concat.
      apply sumn_ext. intros r' Hq. destruct (I r' Hq) as (_ & _ & _ & _ & _ & _ & _ & _ & _ & _ & K). now apply K.
Qed.

(** ** the local part *)
Section Local.
Variables (T : list (nat * lsspix)) (s : sub).
Hypothesis I : sub_inv T s.
Let all := map snd T.
Definition M (j k : nat) : Qc := if qeqb (cs all k) 0 then 0%Qc else (xs all j k / cs all k)%Qc.
Definition loo (i j k : nat) : Qc :=
  if qeqb (cs all k) 0 then 0%Qc
  else (xs (without i T) j k / (cs (without i T) k + eps * cs all k))%Qc.
Definition dev (i j k : nat) : Qc := (loo i j k - sumn n (fun i => loo i j k) / qnat n)%Qc.

Lemma cs_nonneg l k : (0 <= cs l k)%Qc.
Proof. unfold cs, bin_count. rewrite <- zq_0. apply zq_le. lia. Qed.
Lemma cs_0_filter l k : cs l k = 0%Qc -> filter (at_k k) l = [].
Proof.
  unfold cs, bin_count, count. intro H. destruct (filter (at_k k) l); [easy|].
  exfalso. revert H. apply Qc_pos_neq. rewrite <- zq_0. apply zq_lt. cbn [length]. lia.
Qed.
Lemma cs_0_xs l j k : cs l k = 0%Qc -> xs l j k = 0%Qc.
Proof. intro H. unfold xs, bin_total. now rewrite (cs_0_filter l k H). Qed.
Lemma slots_sum (F : list lsspix -> Qc) (Tl : list (nat * lsspix)) :
  F [] = 0%Qc -> (forall a b, F (a ++ b) = F a + F b)%Qc -> (forall p, In p Tl -> fst p < n) ->
  sumn n (fun i => F (slot i Tl)) = F (map snd Tl).
Proof.
  intros F0 FA. induction Tl as [|(c & p) Tl IH]; intro H.
  - cbn [map]. rewrite F0. erewrite sumn_ext; [apply sumn_0|]. intros i _. exact F0.
  - change ((c, p) :: Tl) with ([(c, p)] ++ Tl). rewrite map_app, FA, <- IH by (intros; apply H; now right).
    erewrite sumn_ext; [|intros i _; rewrite slot_app, FA; reflexivity]. rewrite sumn_plus. f_equal.
    assert (c < n) as Hc by (apply (H (c, p)); now left).
    rewrite (sumn_ext n _ (fun i => if Nat.eqb i c then F [p] else 0%Qc)).
    + rewrite (sumn_single n (fun _ => F [p]) c Hc). easy.
    + intros i _. unfold slot. cbn [filter fst]. rewrite (Nat.eqb_sym c i). destruct (Nat.eqb i c); [easy|exact F0].
Qed.
Lemma split_slot (F : list lsspix -> Qc) (Tl : list (nat * lsspix)) i :
  F [] = 0%Qc -> (forall a b, F (a ++ b) = F a + F b)%Qc ->
  (F (slot i Tl) + F (without i Tl) = F (map snd Tl))%Qc.
Proof.
  intros F0 FA. induction Tl as [|(c & p) Tl IH]; [cbn; rewrite F0; ring|].
  change (map snd ((c, p) :: Tl)) with ([p] ++ map snd Tl). rewrite FA, <- IH.
  unfold slot, without. cbn [filter fst]. destruct (Nat.eqb c i); cbn [negb map snd].
  - change (p :: map snd (filter (fun p => fst p =? i) Tl)) with ([p] ++ map snd (filter (fun p => fst p =? i) Tl)).
    rewrite FA. ring.
  - change (p :: map snd (filter (fun p => negb (fst p =? i)) Tl)) with ([p] ++ map snd (filter (fun p => negb (fst p =? i)) Tl)).
    rewrite FA. ring.
Qed.
Lemma cs_nil k : cs [] k = 0%Qc. Proof. unfold cs, bin_count. cbn. apply zq_0. Qed.
Lemma tot_all k : tot n (fun i k => cs (slot i T) k) k = cs all k.
Proof.
  unfold tot. apply (slots_sum (fun l => cs l k)); [apply cs_nil|intros; apply cs_app|]. apply I.
Qed.
Lemma totx_all j k : totx n (fun i j k => xs (slot i T) j k) j k = xs all j k.
Proof.
  unfold totx. apply (slots_sum (fun l => xs l j k)); [easy|intros; apply xs_app|]. apply I.
Qed.

Lemma ensure_spec : exists m xd,
  ensure_mean false s = set_mean_xdiff m xd (set_mean m (normalize s)) /\
  (forall j k, m j k = M j k) /\ (forall i j k, i < n -> xd i j k = dev i j k).
Proof.
  destruct I as (E0 & E1 & E2 & E3 & E4 & E5 & E6 & E7 & E8 & E9 & E10).
  unfold ensure_mean. rewrite E5. unfold get_mean. rewrite E4. unfold get_xdiff.
  assert (forall i k, i < n -> (0 <= cs (slot i T) k)%Qc) as P1 by (intros; apply cs_nonneg).
  assert (forall i j k, i < n -> cs (slot i T) k = 0%Qc -> xs (slot i T) j k = 0%Qc) as P2 by (intros; now apply cs_0_xs).
  assert (forall j k, sumn (nsamples (normalize s)) (fun i => (meas (normalize s) i j k * wts (normalize s) i k)%Qc) = M j k) as HM.
  { intros j k. change (nsamples (normalize s)) with (nsamples s). rewrite E1.
    rewrite (mean_generic n (fun i j k => xs (slot i T) j k) (fun i k => cs (slot i T) k) s E1 E9 E10 P1 P2 j k).
    now rewrite tot_all, totx_all. }
  assert (forall i j k, i < n ->
    ((sumn (nsamples (normalize s)) (fun i => meas (normalize s) i j k * wts (normalize s) i k)
      - meas (normalize s) i j k * wts (normalize s) i k) / (1 - wts (normalize s) i k + eps))%Qc = loo i j k) as HL.
  { intros i j k Hi. rewrite HM. unfold M. rewrite <- tot_all, <- totx_all.
    rewrite (jack_generic n (fun i j k => xs (slot i T) j k) (fun i k => cs (slot i T) k) s E1 E9 E10 P1 P2 i j k Hi).
    unfold loo. rewrite tot_all, totx_all. destruct (qeqb (cs all k) 0); [easy|].
    pose proof (split_slot (fun l => xs l j k) T i eq_refl (fun a b => xs_app a b j k)) as A1.
    pose proof (split_slot (fun l => cs l k) T i (cs_nil k) (fun a b => cs_app a b k)) as A2.
    cbv beta in A1, A2. fold all in A1, A2.
    assert (xs all j k - xs (slot i T) j k = xs (without i T) j k)%Qc as -> by (rewrite <- A1; ring).
    assert (cs all k - cs (slot i T) k = cs (without i T) k)%Qc as -> by (rewrite <- A2; ring). reflexivity. }
  eexists. eexists. split; [reflexivity|]. split; [exact HM|].
  intros i j k Hi. cbn [nsamples set_mean meas wts]. unfold dev.
  rewrite HL by easy. replace (nsamples (normalize s)) with n in * by (symmetry; exact E1).
  assert (forall a b c : Qc, b = c -> a - b / qnat n = a - c / qnat n)%Qc as K by (intros a b c ->; reflexivity).
  apply K. apply sumn_ext. intros q Hq. now apply HL.
Qed.

Definition J (j a b : nat) : Qc := (sumn n (fun i => dev i j a * dev i j b) * (qnat n - 1) / qnat n)%Qc.
(** the statistics in flat bin k, when c pixels were counted there *)
Definition S1 (k : nat) : Qc := (M 1 k - M 0 k * M 0 k)%Qc.
Definition S2 (c : nat -> nat) (k : nat) : Qc :=
  if Nat.ltb 0 (c k) then ((M 2 k - S1 k * S1 k) / zq (Z.of_nat (c k)))%Qc else (M 2 k - S1 k * S1 k)%Qc.
Definition V1 (c : nat -> nat) (k : nat) : Qc :=
  let v := (J 1 k k + zq 4 * (M 0 k * M 0 k) * J 0 k k + zq 2 * (J 0 k k * J 0 k k))%Qc in
  if usecov then J 1 k k else if qltb (S2 c k) v then v else S2 c k.
Definition C1 (a b : nat) : Qc :=
  (J 1 a b + (J 0 a a * J 0 b b + J 0 a b * J 0 a b + zq 2 * J 0 a b * (M 0 a * M 0 b)
              + (J 0 a a * (M 0 b * M 0 b) + J 0 b b * (M 0 a * M 0 a))))%Qc.

Lemma J_ext xd j a b : (forall i j k, i < n -> xd i j k = dev i j k) ->
  (sumn n (fun i => xd i j a * xd i j b) * (qnat n - 1) / qnat n)%Qc = J j a b.
Proof. intro H. unfold J. do 2 f_equal. apply sumn_ext. intros i Hi. now rewrite !H. Qed.

Lemma local_stats_ok P L : exists s' m var,
  local_stats (fitter P L s) = Ok (mkV nw nv (centers w1 w2 nw) dw e usecov (valid_bins nw nv) (npix_of P) (nqso_of L) s' true) /\
  s_mean s' = Some m /\ s_var s' = Some var /\
  (forall k, m 0 k = M 0 k) /\ (forall k, m 1 k = S1 k) /\
  (forall k, m 2 k = S2 (fun k => count (at_k k) P) k) /\ (forall k, m 3 k = M 3 k) /\
  (forall k, var 1 k = V1 (fun k => count (at_k k) P) k) /\
  (usecov = true -> exists c0 nb c r, s_cov s' = Some (c0 :: Some (BlockCov nb (nv + 2) c) :: r) /\
     forall kk a b, c kk a b = C1 (kk * (nv + 2) + a) (kk * (nv + 2) + b)) /\
  (usecov = false -> s_cov s' = None).
Proof.
  destruct ensure_spec as (m & xd & E & HM & HX).
  destruct I as (E0 & E1 & E2 & E3 & E4 & E5 & E6 & E7 & E8 & E9 & E10).
  unfold local_stats, fitter. cbn [v_sub v_usecov v_nv v_npix v_nqso]. unfold get_mean_n_var. rewrite E.
  cbn [s_xdiff set_mean_xdiff set_mean normalize nsamples set_var s_mean rbind]. rewrite E1.
  destruct usecov eqn:Uc.
  - unfold get_mean_n_cov. match goal with |- context [ensure_mean false ?x] => change (ensure_mean false x) with x end.
    cbn [ndata set_var set_mean_xdiff set_mean normalize nset s_mean]. rewrite ?E3, ?E2.
    replace (Nat.eqb (nv + 2) 0) with false by (symmetry; apply Nat.eqb_neq; lia).
    assert (ml mod (nv + 2) = 0) as -> by (unfold ml; rewrite Nat.mul_comm; apply Nat.mod_mul; lia).
    cbn [Nat.eqb negb orb]. cbn [cov_loop s_xdiff set_var set_mean_xdiff nset set_mean normalize].
    rewrite E2. cbn [Nat.ltb Nat.leb negb repeat list_set get_block_covariance ndata nsamples set_var set_mean_xdiff set_mean normalize set_cov s_mean s_cov rmap rbind].
    rewrite ?E3, ?E1. cbn [v_set v_nw v_nv v_wave v_dw v_edges v_usecov v_valid].
    eexists. eexists. eexists. split; [reflexivity|]. cbn [set_stats s_mean s_var s_cov]. split; [reflexivity|]. split; [reflexivity|].
    cbn [Nat.eqb andb]. split; [intro; apply HM|]. split; [intro k; unfold S1; now rewrite !HM|].
    split. { intro k. unfold S2, S1. rewrite npix_nth, !HM. reflexivity. }
    split; [intro; apply HM|].
    split. { intro k. unfold V1. rewrite Uc. now apply J_ext. }
    split; [|intros ?; discriminate]. intros _. eexists. eexists. eexists. eexists. split; [reflexivity|].
    intros kk a b. unfold C1, jack_cov, block_covariance_of_square. rewrite !HM.
    rewrite !(J_ext xd) by assumption. reflexivity.
  - cbn [rbind]. eexists. eexists. eexists. split; [reflexivity|]. cbn [set_stats s_mean s_var s_cov].
    split; [reflexivity|]. split; [reflexivity|].
    cbn [Nat.eqb andb]. split; [intro; apply HM|]. split; [intro k; unfold S1; now rewrite !HM|].
    split. { intro k. unfold S2, S1. rewrite npix_nth, !HM. reflexivity. }
    split; [intro; apply HM|].
    split. { intro k. unfold V1, S2, S1. rewrite Uc, npix_nth, !HM, !(J_ext xd) by assumption. reflexivity. }
    split; [intros ?; discriminate|]. intros _. cbn. exact E6.
Qed.
End Local.
End Stats.
