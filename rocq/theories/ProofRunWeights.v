(** The weights in the delta files of a whole run (C73). *)
From Coq Require Import ZArith String List Bool Arith Lia Qcanon.
From Verif Require Import Num NpList NpListFacts Exn Dict Mpi ModelMpiUtils ModelSpectrum ModelBlinding ModelMasks ModelContinuum ModelStack ModelSubsample ModelVarFit ModelFitter ModelFitArgs ModelCatalog ModelIO ModelDelta ModelPipeline
  SpecMpi SpecFinal SpecSpectrum SpecMasks SpecCatalog SpecPipeline SpecSelect SpecPixels
  ProofMpi ProofMpi2 ProofLock ProofSafe ProofFitter ProofFinal ProofCatalog ProofCat ProofSpectrum1 ProofMasks3 ProofIO2 ProofPipeline ProofPipeline2 ProofAttributes ProofRanks ProofRanks4 ProofComplete
  ProofPixels1 ProofPixels2 ProofPixels3 ProofPixels4 ProofPixels6.
Import ListNotations.
Local Open Scope nat_scope.

(** ** the selected spectra are not smoothed, and their smoothed inverse variance is the inverse variance *)
Definition flat (s : spec) : Prop :=
  NoDup (dkeys (fw (s_f s))) /\ ri (s_f s) < length (hp (s_f s)) /\ rs (s_f s) = ri (s_f s) /\ s_sscale s = 0%Qc.
Definition fkey (f : forest) := (fw f, ri f, rs f, length (hp f)).
Definition fkeeps (s : spec) (r : res spec) : Prop := okall (fun s' => fkey (s_f s') = fkey (s_f s) /\ s_sscale s' = s_sscale s) r.
Lemma flat_keeps s r : fkeeps s r -> flat s -> okall flat r.
Proof.
  unfold fkeeps. destruct r as [s'|]; [|easy]. cbn [okall]. intros (K & Sc) (A & B & C & D). unfold fkey in K. injection K as K1 K2 K3 K4.
  unfold flat. rewrite K1, K2, K3, K4, Sc. auto.
Qed.
Lemma f_loop {X} (l : list X) (body : X -> forest -> res forest) f0 :
  (forall x f, okall (fun f' => fkey f' = fkey f) (body x f)) -> okall (fun f => fkey f = fkey f0) (for_each l body f0).
Proof.
  intro H. apply okall_for_each; [|reflexivity]. intros x f E. specialize (H x f). destruct (body x f); [|exact I]. cbn in *. congruence.
Qed.
Lemma mut_f r h f : fkey (mut_ref r h f) = fkey f.
Proof. unfold fkey, mut_ref. cbn. now rewrite upd_length. Qed.
Lemma with_arm_f arm f k : okall (fun f' => fkey f' = fkey f) (with_arm arm f k).
Proof. unfold with_arm. repeat (apply okall_bind; intro). cbn [okall]. now rewrite mut_f. Qed.
Lemma with_ivar_f arm f k : okall (fun f' => fkey f' = fkey f) (with_ivar arm f k).
Proof. unfold with_ivar. repeat (apply okall_bind; intro). cbn [okall]. now rewrite mut_f. Qed.
Lemma set_f_f s (r : res forest) : okall (fun f => fkey f = fkey (s_f s)) r -> fkeeps s (rmap (fun f => set_f f s) r).
Proof. intro H. eapply okall_rmap2; [exact H|]. intros f E. now split. Qed.
Lemma eta_f e s : fkeeps s (noise_eta e s).
Proof. apply set_f_f, f_loop. intros. apply with_ivar_f. Qed.
Lemma flux_f e s : fkeeps s (flux_calibrate1 e s).
Proof. apply set_f_f, f_loop. intros. apply with_arm_f. Qed.
Lemma mask_f p m s : fkeeps s (mask_apply p m s).
Proof.
  destruct m; cbn [mask_apply].
  - apply set_f_f, f_loop. intros. apply with_arm_f.
  - unfold balmask_apply. apply okall_bind. intros [|v vs]; [now split|]. apply set_f_f, f_loop. intros. apply with_arm_f.
  - unfold dlamask_apply. destruct (nonzero _); [now split|]. apply okall_bind. intro. apply set_f_f, f_loop. intros. apply with_arm_f.
Qed.
Lemma drop_flat dw x y z s : flat s -> flat (drop_short_arms dw x y z s).
Proof.
  unfold drop_short_arms. match goal with |- context [fold_left _ ?l s] => generalize l end. intro l.
  revert s. induction l as [|arm l IH]; intros s H; [exact H|]. cbn [fold_left]. apply IH. destruct H as (A & B & C & D). unfold flat, drop_arm.
  cbn [set_cont set_f s_f mut_ref set_fr set_ff set_fw fw hp ri rs s_sscale]. rewrite !upd_length. split; [unfold dpop; now apply ProofCatalog.NoDup_map_filter|]. auto.
Qed.
Lemma coadd_flat nsqrt smooth junk dw vl e s : flat s -> okall flat (coadd_arms_forest nsqrt smooth junk dw vl e s).
Proof.
  intros (A & B & C & D). unfold coadd_arms_forest. cbv zeta. do 5 (apply okall_bind; intro). destruct (coadd_finish _) as [cf ci]. do 2 (apply okall_bind; intro).
  match goal with |- okall _ (rbind (set_forest_weight ?v ?e0 ?t) _) => destruct (set_forest_weight v e0 t) as [s3|] eqn:E; [|exact I] end. cbn [rbind].
  apply okall_bind. intro d. cbn [okall]. apply set_forest_weight_kept in E as ((K1 & K2 & K3 & K4 & K5) & _).
  unfold flat. cbn [set_msnr s_f s_sscale]. rewrite K1, K2, K3, K4. unfold set_smooth_forestivar in *. rewrite D in *. cbn [qleb] in *.
  replace (qleb 0 0) with true in * by reflexivity. cbn in K5 |- *. rewrite app_length in *. cbn in *. repeat split; try lia. repeat constructor; easy.
Qed.
Lemma cut_flat nsqrt a s s1 : SpecSelect.fresh s -> unread s -> cut_forest nsqrt a s = Ok s1 -> flat s1.
Proof.
  intros F (Z & V & Sc) E. destruct (ready_cut nsqrt a s s1 F Z V Sc E) as ((((_ & N & _ & H & _) & (Sh & _) & _) & _ & Sc1) & _).
  split; [exact N|]. split; [exact H|]. now split.
Qed.

(** ** dropping arms *)
Lemma dget_dpop_ne {A} arm arm' (d : dict A) : String.eqb arm' arm = false -> dget arm' (dpop arm d) = dget arm' d.
Proof. intro E. now rewrite dget_dpop, E. Qed.
Lemma drop_weights vl eta arm s : NoDup (dkeys (fw (s_f s))) /\ file_weights vl eta s /\ weights_explained vl eta s ->
  NoDup (dkeys (fw (s_f (drop_arm arm s)))) /\ file_weights vl eta (drop_arm arm s) /\ weights_explained vl eta (drop_arm arm s).
Proof.
  intros (N & H1 & H2).
  assert (forall r i1 i2 i3 (h : list (dict (list num))) arm', String.eqb arm' arm = false ->
    dget arm' (nth r (upd i1 (dpop arm) (upd i2 (dpop arm) (upd i3 (dpop arm) h))) []) = dget arm' (nth r h [])) as K.
  { intros r i1 i2 i3 h arm' E.
    assert (forall i (h : list (dict (list num))), dget arm' (nth r (upd i (dpop arm) h) []) = dget arm' (nth r h [])) as K0.
    { intros i h0. destruct (nth_upd_or i (dpop arm) h0 r []) as [-> | ->]; [reflexivity|]. now rewrite dget_dpop, E. }
    now rewrite !K0. }
  unfold drop_arm. split; [cbn; unfold dpop; now apply ProofCatalog.NoDup_map_filter|].
  unfold file_weights, weights_explained, at_pix, fivar, fweight in *. cbn [set_cont set_f s_f s_cont mut_ref set_fr set_ff set_fw fw hp ri rs rw].
  split.
  - intros arm' k x i c e v Hw. rewrite dget_dpop in Hw. destruct (String.eqb arm' arm) eqn:E; [discriminate|]. rewrite !K, (dget_dpop_ne arm arm' (s_cont s)) by exact E. now apply H1.
  - intros arm' k x i c q Hw. rewrite dget_dpop in Hw. destruct (String.eqb arm' arm) eqn:E; [discriminate|]. rewrite !K, (dget_dpop_ne arm arm' (s_cont s)) by exact E. now apply H2.
Qed.
Lemma drop_short_weights vl eta dw x y z s : NoDup (dkeys (fw (s_f s))) /\ file_weights vl eta s /\ weights_explained vl eta s ->
  let s' := drop_short_arms dw x y z s in NoDup (dkeys (fw (s_f s'))) /\ file_weights vl eta s' /\ weights_explained vl eta s'.
Proof.
  unfold drop_short_arms. match goal with |- context [fold_left _ ?l s] => generalize l end. intro l. cbv zeta.
  revert s. induction l as [|arm l IH]; intros s H; [exact H|]. cbn [fold_left]. apply IH. now apply drop_weights.
Qed.

(** ** the columns *)
Lemma nmul_fin x y q : nmul x y = Fin q -> exists a b, x = Fin a /\ y = Fin b /\ q = (a * b)%Qc.
Proof.
  destruct x as [a| | |], y as [b| | |]; cbn; unfold infsgn; try discriminate; try (destruct (qeqb _ _); try discriminate; destruct (qltb _ _); discriminate).
  intro E. injection E as <-. now exists a, b.
Qed.
Lemma nsq_fin x q : nsq x = Fin q -> exists a, x = Fin a /\ q = (a * a)%Qc.
Proof. unfold nsq. intro E. apply nmul_fin in E as (a & b & -> & E & ->). injection E as <-. now exists a. Qed.
Lemma hdu_weights vl eta mr rd st s hs h : NoDup (dkeys (fw (s_f s))) -> file_weights vl eta s -> weights_explained vl eta s ->
  spec_write mr rd st s = Ok hs -> In h hs -> forall k x d i wt, hdu_row h k x d (Fin i) wt -> (0 < i)%Qc ->
  (forall e v, eta x = Fin e -> vl x = Fin v -> (0 < e)%Qc -> (0 <= v)%Qc -> wt = Fin (/ (e * / i + v))%Qc) /\
  (forall q, wt = Fin q -> q <> 0%Qc -> exists e v, eta x = Fin e /\ vl x = Fin v /\ q = (/ (e * / i + v))%Qc).
Proof.
  intros Nd W1 W2 E Hh. unfold spec_write in E. apply rbind_Ok in E as (msnr & _ & E). revert h Hh.
  set (Goal0 := fun h => forall k x d i wt, hdu_row h k x d (Fin i) wt -> (0 < i)%Qc ->
  (forall e v, eta x = Fin e -> vl x = Fin v -> (0 < e)%Qc -> (0 <= v)%Qc -> wt = Fin (/ (e * / i + v))%Qc) /\
  (forall q, wt = Fin q -> q <> 0%Qc -> exists e v, eta x = Fin e /\ vl x = Fin v /\ q = (/ (e * / i + v))%Qc)).
  refine (for_each_In _ Goal0 _ _ _ _ E _); [|intros y []].
  intros [arm wv] acc out Hin Eb Hacc h Hh. cbn [fst snd] in Eb. apply rbind_Ok in Eb as (snr & _ & Eb). destruct (neqb snr n0); [injection Eb as <-; now apply (Hacc h)|].
  apply rbind_Ok in Eb as (h0 & E0 & Eb). injection Eb as <-. apply in_app_or in Hh as [Hh|Hh]; [now apply (Hacc h)|].
  destruct Hh as [-> | []]. unfold write_arm in E0. cbv zeta in E0.
  apply rbind_Ok in E0 as (cont & Ect & E0). apply rbind_Ok in E0 as (flux & Efl & E0). apply rbind_Ok in E0 as (iv & Ei & E0). apply rbind_Ok in E0 as (w0 & Ew & E0).
  apply rbind_Ok in E0 as (d0 & Zd0 & E0). apply rbind_Ok in E0 as (iv' & Zi & E0). apply rbind_Ok in E0 as (wt' & Zw & E0). apply rbind_Ok in E0 as (d' & Zd & E0).
  apply rbind_Ok in E0 as (cols & Ec & E0). apply rbind_Ok in E0 as (tb & Et & E0). injection E0 as <-.
  unfold fits_table in Et. destruct (Nat.eqb_spec (length (st_colnames st)) (length cols)) as [Lc|Lc]; [|discriminate]. injection Et as <-.
  pose proof (In_pair_dget _ _ _ Nd Hin) as Hw.
  assert (exists rest, cols = CWave wv :: CNum d' :: CNum iv' :: CNum wt' :: CNum cont :: rest) as (rest & ->).
  { destruct (dtrue _); [|injection Ec as <-; eexists; reflexivity]. apply rbind_Ok in Ec as (? & _ & Ec). apply rbind_Ok in Ec as (? & _ & Ec). injection Ec as <-. eexists; reflexivity. }
  intros k x d i wt (ws & ds & ivs & wts & rest' & Ecols & R1 & R2 & R3 & R4) Hi. cbn [h_cols] in Ecols. rewrite snd_combine in Ecols by exact Lc. injection Ecols as <- <- <- <- _.
  unfold rget in *. destruct (dget arm (s_cont s)) as [cl|] eqn:Ec1; [|discriminate]. injection Ect as ->. destruct (dget arm (fivar (s_f s))) as [il|] eqn:Eil; [|discriminate]. injection Ei as ->.
  destruct (dget arm (fweight (s_f s))) as [wl|] eqn:Ewl; [|discriminate]. injection Ew as ->.
  destruct (zip2_at _ _ _ _ _ _ Zi R3) as (i0 & c0 & V1 & V2 & V3). destruct (zip2_at _ _ _ _ _ _ Zw R4) as (q0 & c1 & V4 & V5 & V6). assert (c1 = c0) as -> by congruence.
  symmetry in V3. apply nmul_fin in V3 as (i1 & c2 & -> & V3 & Ei). apply nsq_fin in V3 as (c & -> & ->).
  assert (at_pix (fw (s_f s)) arm k = Some x /\ at_pix (fivar (s_f s)) arm k = Some (Fin i1) /\ at_pix (s_cont s) arm k = Some (Fin c) /\ at_pix (fweight (s_f s)) arm k = Some q0) as (P1 & P2 & P3 & P4).
  { unfold at_pix. rewrite Hw, Eil, Ec1, Ewl. auto. }
  rewrite Ei in *. split.
  - intros e v He Hv E1 E2. destruct (W1 arm k x i1 c e v P1 P2 P3 He Hv E1 E2 Hi) as (q & Q1 & Q2). rewrite Q1 in P4. injection P4 as <-. rewrite V6. cbn. now rewrite Q2.
  - intros q Eq Q. rewrite Eq in V6. symmetry in V6. apply nmul_fin in V6 as (q1 & c3 & -> & V6 & ->). injection V6 as <-.
    destruct (W2 arm k x i1 c q1 P1 P2 P3 P4 Hi) as (e & v & B1 & B2 & B3); [intros ->; apply Q; ring|]. exists e, v. auto.
Qed.
