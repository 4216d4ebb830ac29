(** chi2 of a spectrum and the rows of its delta file (C75). *)
From Coq Require Import ZArith String List Bool Arith Lia Qcanon Field.
From Verif Require Import Num NpList NpListFacts Exn Dict ProofGroup Mpi ModelSpectrum ProofSpectrum1 ModelMasks ModelContinuum ModelStack ModelVarFit ModelFitter ModelDelta ModelChi2
  SpecSpectrum SpecFinal SpecChi2Run ProofMasks3 ProofFinal ProofPixels6 ProofRunWeights.
Import ListNotations.
Local Open Scope nat_scope.

(** ** one pixel *)
Lemma nadd_fin x y q : nadd x y = Fin q -> exists a b, x = Fin a /\ y = Fin b /\ q = (a + b)%Qc.
Proof. destruct x as [a| | |], y as [b| | |]; cbn; try discriminate. intro E. injection E as <-. now exists a, b. Qed.
Lemma pixel f c i w d x t :
  (if neqb (nmul i (nsq c)) n0 then n0 else nsub (ndiv f c) n1) = Fin d -> nmul w (nsq c) = Fin x -> nmul w (nsq (nsub f c)) = Fin t ->
  (c = n0 -> i = n0) -> (i = n0 -> w = n0 \/ w = NaN) -> t = (x * (d * d))%Qc.
Proof.
  intros Hd Hx Ht Hc Hi. apply nmul_fin in Hx as (w0 & c2 & -> & Hx & ->). apply nsq_fin in Hx as (c0 & -> & ->).
  apply nmul_fin in Ht as (w1 & f2 & E & Ht & ->). injection E as <-. apply nsq_fin in Ht as (u & Ht & ->).
  unfold nsub in Ht. apply nadd_fin in Ht as (f0 & nc & -> & E & ->). cbn in E. injection E as <-.
  destruct (neqb (nmul i (nsq (Fin c0))) n0) eqn:N.
  - injection Hd as <-. destruct i as [i0| | |]; cbn in N; try (unfold infsgn in N; destruct (qeqb _ _); [discriminate|destruct (qltb _ _); discriminate]); try discriminate.
    apply qeqb_true in N. assert (w0 = 0%Qc) as ->.
    { assert (Fin i0 = n0) as I0.
      { destruct (Qc_eq_dec c0 0) as [->|C]; [now apply Hc|]. assert (i0 = 0%Qc) as ->; [|reflexivity]. apply Qcmult_integral in N as [N|N]; [exact N|]. apply Qcmult_integral in N as [N|N]; contradiction. }
      destruct (Hi I0) as [W|W]; [now injection W|discriminate]. }
    ring.
  - assert (c0 <> 0%Qc) as C.
    { intros ->. rewrite (Hc eq_refl) in N. cbn in N. discriminate. }
    rewrite ndiv_fin in Hd by exact C. cbn in Hd. injection Hd as <-. field. exact C.
Qed.

(** ** one arm *)
Lemma nsum_fin_inv l : forall q, nsum l = Fin q -> exists l', l = map Fin l' /\ q = qsum l'.
Proof.
  induction l as [|a l IH]; intros q H; cbn in H; [injection H as <-; now exists []|].
  apply nadd_fin in H as (x & y & -> & H & ->). destruct (IH _ H) as (l' & -> & ->). now exists (x :: l').
Qed.
Lemma squares_pix : forall ds ws ts, length ds = length ws -> length ts = length ws ->
  (forall k d x t, nth_error ds k = Some d -> nth_error ws k = Some x -> nth_error ts k = Some t -> t = (x * (d * d))%Qc) ->
  qsum ts = weighted_squares ds ws.
Proof.
  induction ds as [|d ds IH]; intros [|x ws] [|t ts] L1 L2 H; try discriminate; [reflexivity|].
  cbn. rewrite (H 0 d x t eq_refl eq_refl eq_refl). f_equal. apply IH; [now injection L1|now injection L2|]. intros k. exact (H (S k)).
Qed.
(** where ivar is zero there is no weight *)
Definition dead (s : spec) : Prop := forall arm k w, dget arm (fw (s_f s)) <> None ->
  at_pix (fivar_sm (s_f s)) arm k = Some n0 -> at_pix (fweight (s_f s)) arm k = Some w -> w = n0 \/ w = NaN.
Definition chi2_arm (s : spec) (arm : string) (d : num) : Prop :=
  exists c w fl d2, dget arm (s_cont s) = Some c /\ dget arm (fweight (s_f s)) = Some w /\ dget arm (ff (s_f s)) = Some fl /\
    zip2 (fun x y => nsq (nsub x y)) fl c = Ok d2 /\ ndot w d2 = Ok d.
Lemma arm_squares mr rd st s arm wv snr h ds ws d q : dget arm (fw (s_f s)) <> None -> fivar_sm (s_f s) = fivar (s_f s) -> dead s -> zero_is_masked s ->
  write_arm mr rd st s arm wv snr = Ok h -> delta_weight h ds ws -> chi2_arm s arm d -> d = Fin q -> q = weighted_squares ds ws.
Proof.
  intros Hw Esm Dd Z E0 (x & ivs & rest & Hcols) (c & w & fl & d2 & C1 & C2 & C3 & C4 & C5) Eq.
  unfold write_arm in E0. cbv zeta in E0.
  apply rbind_Ok in E0 as (cont & Ect & E0). apply rbind_Ok in E0 as (flux & Efl & E0). apply rbind_Ok in E0 as (iv & Ei & E0). apply rbind_Ok in E0 as (w0 & Ew & E0).
  apply rbind_Ok in E0 as (d0 & Zd0 & E0). apply rbind_Ok in E0 as (iv' & Zi & E0). apply rbind_Ok in E0 as (wt' & Zw & E0). apply rbind_Ok in E0 as (d' & Zd & E0).
  apply rbind_Ok in E0 as (cols & Ec & E0). apply rbind_Ok in E0 as (tb & Et & E0). injection E0 as <-.
  unfold fits_table in Et. destruct (Nat.eqb_spec (length (st_colnames st)) (length cols)) as [Lc|Lc]; [|discriminate]. injection Et as <-.
  assert (exists rest, cols = CWave wv :: CNum d' :: CNum iv' :: CNum wt' :: CNum cont :: rest) as (rest' & ->).
  { destruct (dtrue _); [|injection Ec as <-; eexists; reflexivity]. apply rbind_Ok in Ec as (? & _ & Ec). apply rbind_Ok in Ec as (? & _ & Ec). injection Ec as <-. eexists; reflexivity. }
  cbn [h_cols] in Hcols. rewrite snd_combine in Hcols by exact Lc. injection Hcols as _ Hd' _ Hw' _.
  apply rget_Ok in Ect. apply rget_Ok in Efl. apply rget_Ok in Ei. apply rget_Ok in Ew.
  assert (cont = c) as -> by congruence. assert (flux = fl) as -> by congruence. assert (w0 = w) as -> by congruence.
  unfold ndot in C5. apply rmap_Ok in C5 as (pr & C5 & Hd). rewrite Eq in Hd. symmetry in Hd. apply nsum_fin_inv in Hd as (ts & -> & ->).
  assert (length ds = length c /\ length ws = length c /\ length ts = length c) as (L1 & L2 & L3).
  { pose proof Zd0 as A1. pose proof Zi as A2. pose proof Zw as A3. pose proof Zd as A4. pose proof C4 as A5. pose proof C5 as A6.
    apply zip2_Ok in A1 as [A1 R1]. apply zip2_Ok in A2 as [A2 R2]. apply zip2_Ok in A3 as [A3 R3]. apply zip2_Ok in A4 as [A4 R4]. apply zip2_Ok in A5 as [A5 R5]. apply zip2_Ok in A6 as [A6 R6].
    apply (f_equal (@length _)) in R1, R2, R3, R4, R5, R6. rewrite map2_length in R1, R2, R3, R4, R5, R6 by assumption. rewrite Hd', map_length in R4. rewrite Hw', map_length in R3. rewrite map_length in R6. repeat split; congruence. }
  apply squares_pix; [congruence|congruence|]. intros k dk xk tk K1 K2 K3.
  assert (nth_error d' k = Some (Fin dk)) as N1 by (rewrite Hd', nth_error_map, K1; reflexivity).
  assert (nth_error wt' k = Some (Fin xk)) as N2 by (rewrite Hw', nth_error_map, K2; reflexivity).
  assert (nth_error (map Fin ts) k = Some (Fin tk)) as N3 by (rewrite nth_error_map, K3; reflexivity).
  destruct (zip2_at _ _ _ _ _ _ Zd N1) as (a1 & a2 & V1 & V2 & V3). destruct (zip2_at _ _ _ _ _ _ Zi V1) as (i0 & c0 & V4 & V5 & V6).
  destruct (zip2_at _ _ _ _ _ _ Zd0 V2) as (f0 & c1 & V7 & V8 & V9). destruct (zip2_at _ _ _ _ _ _ Zw N2) as (q0 & c2 & V10 & V11 & V12).
  destruct (zip2_at _ _ _ _ _ _ C5 N3) as (q1 & s2 & V13 & V14 & V15). destruct (zip2_at _ _ _ _ _ _ C4 V14) as (f1 & c3 & V16 & V17 & V18).
  assert (c1 = c0) as -> by congruence. assert (c2 = c0) as -> by congruence. assert (c3 = c0) as -> by congruence. assert (q1 = q0) as -> by congruence. assert (f1 = f0) as -> by congruence.
  subst a1 a2 s2.
  apply (pixel f0 c0 i0 q0); [now symmetry|now symmetry|now symmetry| |].
  - intros ->. specialize (Z arm k). unfold at_pix in Z. rewrite C1, Ei in Z. rewrite V5, V4 in Z. specialize (Z eq_refl). congruence.
  - intros ->. apply (Dd arm k); [exact Hw|rewrite Esm; unfold at_pix; now rewrite Ei|unfold at_pix; now rewrite C2].
Qed.

(** ** all arms *)
Definition chi2_ok (s : spec) : Prop := calc_continuum_chi2 s = Ok s.
Lemma chi2_loop s l : forall a b, for_each l (fun aw (chi2 : num) =>
      rbind (rget (fst aw) (s_cont s)) (fun c =>
      rbind (rget (fst aw) (fweight (s_f s))) (fun w =>
      rbind (rget (fst aw) (ff (s_f s))) (fun fl =>
      rbind (zip2 (fun x y => nsq (nsub x y)) fl c) (fun d2 =>
      rbind (ndot w d2) (fun d => Ok (nadd chi2 d))))))) a = Ok b ->
  exists ds, Forall2 (fun (aw : string * list Qc) d => chi2_arm s (fst aw) d) l ds /\ b = fold_left nadd ds a.
Proof.
  induction l as [|aw l IH]; intros a b E; cbn [for_each] in E; [injection E as <-; exists []; split; [constructor|reflexivity]|].
  apply rbind_Ok in E as (a1 & E1 & E). apply rbind_Ok in E1 as (c & C1 & E1). apply rbind_Ok in E1 as (w & C2 & E1). apply rbind_Ok in E1 as (fl & C3 & E1).
  apply rbind_Ok in E1 as (d2 & C4 & E1). apply rbind_Ok in E1 as (d & C5 & E1). injection E1 as <-.
  destruct (IH _ _ E) as (ds & F & ->). exists (d :: ds). split; [|reflexivity]. constructor; [|exact F].
  apply rget_Ok in C1. apply rget_Ok in C2. apply rget_Ok in C3. exists c, w, fl, d2. auto.
Qed.
Lemma write_loop mr rd st s msnr l : forall (a b : list hdu), for_each l (fun (aw : string * list Qc) (acc : list hdu) =>
    rbind (rget (fst aw) msnr) (fun snr =>
    if neqb snr n0 then Ok acc
    else rbind (write_arm mr rd st s (fst aw) (snd aw) snr) (fun h => Ok (acc ++ [h])))) a = Ok b ->
  length b <= length a + length l /\
  (length b = length a + length l -> exists hs, b = a ++ hs /\ Forall2 (fun aw h => exists snr, write_arm mr rd st s (fst aw) (snd aw) snr = Ok h) l hs).
Proof.
  induction l as [|aw l IH]; intros a b E; cbn [for_each] in E.
  - injection E as <-. cbn. split; [lia|]. intros _. exists []. split; [now rewrite app_nil_r|constructor].
  - apply rbind_Ok in E as (a1 & E1 & E). apply rbind_Ok in E1 as (snr & _ & E1). destruct (IH _ _ E) as [L K]. destruct (neqb snr n0).
    + injection E1 as <-. cbn [length]. split; [lia|]. intro C. lia.
    + apply rbind_Ok in E1 as (h & Eh & E1). injection E1 as <-. rewrite app_length in L, K. cbn [length] in *. split; [lia|]. intro C.
      destruct K as (hs & -> & F); [lia|]. exists (h :: hs). split; [now rewrite <- app_assoc|]. constructor; [now exists snr|exact F].
Qed.
Lemma fold_fin ds : forall a q, fold_left nadd ds (Fin a) = Fin q -> exists qs, ds = map Fin qs /\ q = (a + qsum qs)%Qc.
Proof.
  assert (forall ds x, (forall a, x <> Fin a) -> forall q, fold_left nadd ds x <> Fin q) as B.
  { clear. induction ds as [|d ds IH]; intros x H q; [apply H|]. cbn. apply IH. intros a E. apply nadd_fin in E as (y & _ & -> & _). now apply (H y). }
  induction ds as [|d ds IH]; intros a q H; cbn in H; [injection H as <-; exists []; split; [reflexivity|cbn; ring]|].
  destruct d as [d| | |]; cbn in H; try (exfalso; revert H; apply B; discriminate).
  destruct (IH _ _ H) as (qs & -> & ->). exists (d :: qs). split; [reflexivity|]. change (qsum (d :: qs)) with (d + qsum qs)%Qc. ring.
Qed.
Theorem squares_thm mr rd st s hs tables q : chi2_ok s -> s_valid s = true -> plain_forest s -> (s_sscale s <= 0)%Qc -> dead s -> zero_is_masked s ->
  spec_write mr rd st s = Ok hs -> length hs = length (fw (s_f s)) -> hs <> [] ->
  Forall2 (fun h t => delta_weight h (fst t) (snd t)) hs tables -> s_chi2 s = Fin q -> q = total tables.
Proof.
  intros X V (N & _ & _ & Rs) Sc Dd Z W L NE FT Q. unfold spec_write in W. apply rbind_Ok in W as (msnr & _ & W).
  destruct (write_loop mr rd st s msnr _ _ _ W) as (_ & K). destruct (K L) as (hs' & E & F). cbn in E. subst hs'. clear K W.
  assert (Esm : fivar_sm (s_f s) = fivar (s_f s)) by (unfold fivar_sm, fivar; now rewrite (Rs Sc)).
  unfold chi2_ok, calc_continuum_chi2 in X. rewrite V in X. cbn [negb orb] in X.
  assert (dtrue (s_cont s) = true) as D.
  { destruct (s_cont s) as [|c0 cs] eqn:Ec; [|reflexivity]. exfalso. destruct F as [|aw h l l' (snr & Hh) F]; [now apply NE|].
    unfold write_arm in Hh. rewrite Ec in Hh. cbn in Hh. discriminate. }
  rewrite D in X. cbn [negb] in X. apply rbind_Ok in X as (x & X & Xe). destruct (chi2_loop s _ _ _ X) as (ds & FC & ->).
  assert (s_chi2 s = fold_left nadd ds n0) as Es.
  { injection Xe as Xe. rewrite <- Xe at 1. reflexivity. }
  rewrite Es in Q. destruct (fold_fin _ _ _ Q) as (qs & -> & ->). clear X Xe Q Es L NE D.
  assert (forall aw, In aw (fw (s_f s)) -> dget (fst aw) (fw (s_f s)) <> None) as Hin.
  { intros [arm wv] H. cbn. rewrite (In_pair_dget _ _ _ N H). discriminate. }
  revert Hin F FT FC. generalize (fw (s_f s)) at 1 3 4. intros l Hin F. revert qs tables. induction F as [|aw h l hs (snr & Hh) F IH]; intros qs tables FT FC.
  - inversion FC as [E|]. destruct qs; [|discriminate]. inversion FT. cbn. ring.
  - destruct qs as [|q0 qs]; [inversion FC|]. cbn [map] in FC. inversion_clear FC as [|? ? ? ? C1 C2]. inversion_clear FT as [|? [d0 w0] ? ? T1 T2]. cbn [fst snd] in T1.
    specialize (IH (fun a H => Hin a (or_intror H)) qs _ T2 C2). cbn [total]. change (qsum (q0 :: qs)) with (q0 + qsum qs)%Qc.
    rewrite (arm_squares mr rd st s _ _ _ _ d0 w0 _ q0 (Hin aw (or_introl eq_refl)) Esm Dd Z Hh T1 C1 eq_refl). rewrite <- IH. ring.
Qed.
