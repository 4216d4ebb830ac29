(** Where the weights that leave the continuum fitting come from. *)
From Coq Require Import String ZArith List Bool Arith Lia Qcanon Field.
From Verif Require Import Num NpList NpListFacts Exn Dict ProofGroup Mpi ModelSpectrum ProofSpectrum1 ModelMasks ModelContinuum ModelStack ModelVarFit ModelFitter.
From Verif Require Import ModelDelta SpecDelta SpecSpectrum SpecWeights ProofWeights SpecMpi ProofLock ProofFitter SpecFinal.
Import ListNotations.
Local Open Scope nat_scope.

(** ** the loops over the arms *)
Lemma dkeys_In {A} arm (x : A) d : In (arm, x) d -> In arm (dkeys d).
Proof. intro H. apply in_map_iff. now exists (arm, x). Qed.
Lemma for_each_dset {X Y} (F : string * X -> res Y) (l : dict X) : forall (d d' : dict Y), NoDup (dkeys l) ->
  for_each l (fun aw d => rbind (F aw) (fun y => Ok (dset (fst aw) y d))) d = Ok d' ->
  forall arm, match dget arm l with
              | Some x => exists y, F (arm, x) = Ok y /\ dget arm d' = Some y
              | None => dget arm d' = dget arm d end.
Proof.
  induction l as [|[a x] l IH]; intros d d' N E arm; cbn in E; [injection E as <-; reflexivity|].
  apply rbind_Ok in E as (d1 & E1 & E2). apply rbind_Ok in E1 as (y & E0 & E1). injection E1 as <-.
  cbn in N. apply NoDup_cons_iff in N as [N1 N2]. specialize (IH _ _ N2 E2 arm). cbn.
  destruct (String.eqb_spec arm a) as [->|D].
  - apply dget_None in N1. rewrite N1 in IH. rewrite dget_dset_same in IH. eauto.
  - destruct (dget arm l); [exact IH|]. now rewrite dget_dset_other in IH.
Qed.
Lemma for_each_upd {X Y} (F : string * X -> Y -> res Y) (l : dict X) : forall (d d' : dict Y), NoDup (dkeys l) ->
  for_each l (fun aw d => rbind (rget (fst aw) d) (fun x => rbind (F aw x) (fun y => Ok (dset (fst aw) y d)))) d = Ok d' ->
  forall arm, match dget arm l with
              | Some x => exists y0 y, dget arm d = Some y0 /\ F (arm, x) y0 = Ok y /\ dget arm d' = Some y
              | None => dget arm d' = dget arm d end.
Proof.
  induction l as [|[a x] l IH]; intros d d' N E arm; cbn in E; [injection E as <-; reflexivity|].
  apply rbind_Ok in E as (d1 & E1 & E2). apply rbind_Ok in E1 as (y0 & Eg & E1).
  apply rbind_Ok in E1 as (y & E0 & E1). injection E1 as <-. apply rget_Ok in Eg.
  cbn in N. apply NoDup_cons_iff in N as [N1 N2]. specialize (IH _ _ N2 E2 arm). cbn.
  destruct (String.eqb_spec arm a) as [->|D].
  - apply dget_None in N1. rewrite N1 in IH. rewrite dget_dset_same in IH. eauto.
  - destruct (dget arm l); rewrite (dget_dset_other _ _ _ _ D) in IH; exact IH.
Qed.

Lemma weight_arm_Ok varlss eta w iv c r : weight_arm varlss eta w iv c = Ok r ->
  forall k x i y, nth_error w k = Some x -> nth_error iv k = Some i -> nth_error c k = Some y ->
    nth_error r k = Some (weight_formula i (eta x) (varlss x) y).
Proof.
  intro E. assert (length iv = length w /\ length c = length w) as [L1 L2].
  { unfold weight_arm in E. apply rbind_Ok in E as (a & E1 & E). apply rbind_Ok in E as (b & E2 & E).
    apply zip2_Ok in E1 as [E1 ->]. apply zip2_Ok in E2 as [E2 ->]. rewrite map2_length in E2 by lia. split; lia. }
  destruct (weight_arm_nth varlss eta w iv c L1 L2) as (r' & E' & _ & H). rewrite E in E'. injection E' as <-. exact H.
Qed.

(** ** what the steps keep *)
Definition kept (s s' : spec) : Prop :=
  fw (s_f s') = fw (s_f s) /\ ri (s_f s') = ri (s_f s) /\ rs (s_f s') = rs (s_f s) /\
  s_sscale s' = s_sscale s /\ length (hp (s_f s)) <= length (hp (s_f s')).
Lemma kept_refl s : kept s s. Proof. now repeat split. Qed.
Lemma kept_trans a b c : kept a b -> kept b c -> kept a c.
Proof. intros (A1 & A2 & A3 & A4 & A5) (B1 & B2 & B3 & B4 & B5). repeat split; try congruence. lia. Qed.
Lemma kept_plain s s' : kept s s' -> plain_forest s -> plain_forest s'.
Proof.
  intros (A1 & A2 & A3 & A4 & A5) (B1 & B2 & B3 & B4). unfold plain_forest. rewrite A1, A2, A3, A4.
  repeat split; [assumption|lia|lia|assumption].
Qed.

Lemma set_forest_weight_kept varlss eta s s' : set_forest_weight varlss eta s = Ok s' ->
  kept s s' /\ s_cont s' = s_cont s /\ s_valid s' = s_valid s /\
  (ri (s_f s) < length (hp (s_f s)) -> fivar (s_f s') = fivar (s_f s)) /\
  (rs (s_f s) < length (hp (s_f s)) -> fivar_sm (s_f s') = fivar_sm (s_f s)).
Proof.
  unfold set_forest_weight. destruct (_ || _).
  - intro E. assert (s' = set_f (alias_weight_to_sm (s_f s)) s) as -> by congruence. now repeat split.
  - intro E. apply rbind_Ok in E as (w & _ & E). assert (s' = set_f (new_weight w (s_f s)) s) as -> by congruence.
    unfold fivar, fivar_sm, kept. cbn. rewrite app_length. cbn. repeat split; [lia| |]; intro H; now rewrite app_nth1.
Qed.
Lemma set_forest_weight_weighted varlss eta s s' : set_forest_weight varlss eta s = Ok s' ->
  s_valid s = true -> plain_forest s -> weighted (fivar_sm (s_f s')) (s_cont s') varlss eta s' /\ (s_cont s' <> [] -> rw (s_f s') = length (hp (s_f s)) /\ rw (s_f s') < length (hp (s_f s'))).
Proof.
  intros E V (N & _ & Hs & _). destruct (set_forest_weight_kept _ _ _ _ E) as ((K1 & _) & K2 & _ & _ & K3). specialize (K3 Hs).
  unfold weighted. rewrite K1, K2, K3. unfold set_forest_weight in E. rewrite V in E. cbn [negb orb] in E.
  destruct (s_cont s) as [|c0 cs] eqn:C.
  { split; [|easy]. intros arm k w i c _ _ H. discriminate. }
  cbn [dtrue negb] in E. rewrite <- C in *. clear C c0 cs. apply rbind_Ok in E as (wts & E & E').
  assert (s' = set_f (new_weight wts (s_f s)) s) as -> by congruence. clear E'. split; [|intros _; cbn; rewrite app_length; cbn; lia].
  set (F := fun aw : string * list Qc => rbind (rget (fst aw) (s_cont s)) (fun c => rbind (rget (fst aw) (fivar_sm (s_f s))) (fun iv => weight_arm varlss eta (snd aw) iv c))).
  assert (for_each (fw (s_f s)) (fun aw d => rbind (F aw) (fun y => Ok (dset (fst aw) y d))) [] = Ok wts) as E2.
  { rewrite <- E. clear. generalize (@nil (string * list num)). induction (fw (s_f s)) as [|aw l IH]; intro d; [reflexivity|].
    cbn [for_each]. unfold F at 1. destruct (rget (fst aw) (s_cont s)); [|reflexivity]. cbn [rbind].
    destruct (rget (fst aw) (fivar_sm (s_f s))); [|reflexivity]. cbn [rbind].
    destruct (weight_arm _ _ _ _ _); [|reflexivity]. cbn [rbind]. apply IH. }
  intros arm k w i c Hw Hi Hc. pose proof (for_each_dset F _ _ _ N E2 arm) as H.
  unfold at_pix in *. destruct (dget arm (fw (s_f s))) as [wave|]; [|discriminate].
  destruct H as (y & Hy & Hg). unfold fweight. cbn [s_f set_f rw hp new_weight].
  rewrite app_nth2, Nat.sub_diag by lia. cbn [nth]. rewrite Hg. unfold F in Hy. cbn [fst snd] in Hy.
  apply rbind_Ok in Hy as (ca & G1 & Hy). apply rbind_Ok in Hy as (iv & G2 & Hy).
  apply rget_Ok in G1. apply rget_Ok in G2. rewrite G1 in Hc. rewrite G2 in Hi.
  exact (weight_arm_Ok _ _ _ _ _ _ Hy k w i c Hw Hi Hc).
Qed.
Lemma chi2_Ok s s' : calc_continuum_chi2 s = Ok s' -> exists x, s' = set_chi2 x s.
Proof.
  unfold calc_continuum_chi2. destruct (_ || _); intro E; [exists (Fin (- (1))%Qc); congruence|].
  apply rbind_Ok in E as (x & _ & E). exists x. congruence.
Qed.

(** ** one continuum fit *)
Section One.
Variable g : config.
Variable ev : interp -> Qc -> num.
Variable meanflux : Qc -> num.
Variable slope : Qc -> num.
Variable minimizer : interp -> interp -> interp -> spec -> num -> option minres.
Variable input_cont : spec -> option (Qc -> num).
Variable true_cont : spec -> Qc -> num.
Notation fit := (fit_one g ev meanflux slope minimizer input_cont true_cont).

(** TrueContinuumModel does not use eta *)
Definition eta_used (t : fitter) : Qc -> num :=
  match g_model g with TrueCont => fun _ => n1 | _ => ev (deref t (t_meta t)) end.
Lemma weights_of varlss eta s0 s1 s2 s3 :
  set_forest_weight varlss eta s1 = Ok s2 -> calc_continuum_chi2 s2 = Ok s3 -> kept s0 s1 -> plain_forest s0 ->
  kept s0 s3 /\ s_valid s3 = s_valid s1 /\
  (s_valid s3 = true -> weighted (fivar_sm (s_f s3)) (s_cont s3) varlss eta s3 /\ (s_cont s3 <> [] -> rw (s_f s3) = length (hp (s_f s1)) /\ rw (s_f s3) < length (hp (s_f s3)))).
Proof.
  intros E1 E2 K P. pose proof (kept_plain _ _ K P) as P1. destruct (chi2_Ok _ _ E2) as (x & ->).
  destruct (set_forest_weight_kept _ _ _ _ E1) as (K2 & _ & V2 & _ & _).
  split; [exact (kept_trans _ _ _ K K2)|]. split; [exact V2|]. intro V. cbn in V.
  destruct (set_forest_weight_weighted _ _ _ _ E1) as [W L]; [congruence|assumption|]. split; [exact W|exact L].
Qed.
Lemma fit_one_weights t sx sx' : fit t sx = Ok sx' -> plain_forest (fst sx) ->
  kept (fst sx) (fst sx') /\
  (s_valid (fst sx') = true ->
     weighted (fivar_sm (s_f (fst sx'))) (s_cont (fst sx')) (ev (deref t (t_mvar t))) (eta_used t) (fst sx') /\
     (s_cont (fst sx') <> [] -> length (hp (s_f (fst sx))) <= rw (s_f (fst sx')) < length (hp (s_f (fst sx'))))).
Proof.
  destruct sx as [s xcov]. unfold fit_one, eta_used. cbn [fst]. intros E P. destruct (g_model g).
  - unfold picca_fit in E. apply rbind_Ok in E as (a0 & _ & E). apply rbind_Ok in E as (r & _ & E).
    set (s1 := if m_valid r then _ else _) in E. assert (kept s s1 /\ s_f s1 = s_f s) as [K Ef].
    { unfold s1. destruct (m_valid r); [|split; [now repeat split|reflexivity]]. destruct (picca_arms _ _ _ _ _ _ _); split; [now repeat split|reflexivity]. }
    clearbody s1. apply rbind_Ok in E as (s2 & E1 & E). apply rbind_Ok in E as (s3 & E2 & E).
    destruct (weights_of _ _ _ _ _ _ E1 E2 K P) as (K3 & V3 & W3). rewrite Ef in W3.
    destruct (s_valid s3) eqn:V.
    + assert (sx' = (set_x (m_x r) s3, m_xcov r)) as -> by congruence. split; [exact K3|]. intros _. destruct (W3 eq_refl) as [W L]. split; [exact W|]. intro H. destruct (L H). cbn. lia.
    + assert (sx' = (set_chi2 (Fin (- (1))) (set_cont [] s3), xcov)) as -> by congruence. split; [exact K3|]. cbn. congruence.
  - apply rmap_Ok in E as (s' & E & ->). cbn [fst]. unfold input_fit in E. destruct (s_valid s) eqn:Vs; cbn [negb] in E.
    2:{ assert (s' = set_chi2 (Fin (- (1))) (set_cont [] s)) as -> by congruence. split; [now repeat split|]. cbn. congruence. }
    destruct (input_arms _ _ _ _ _) as [ok cont]. set (s1 := set_cont cont _) in E. assert (kept s s1 /\ s_f s1 = s_f s) as [K Ef] by (unfold s1; destruct ok; split; now repeat split).
    clearbody s1. apply rbind_Ok in E as (s2 & E1 & E). apply rbind_Ok in E as (s3 & E2 & E).
    destruct (weights_of _ _ _ _ _ _ E1 E2 K P) as (K3 & V3 & W3). rewrite Ef in W3.
    destruct (s_valid s3) eqn:V.
    + assert (s' = s3) as -> by congruence. split; [exact K3|]. intros _. destruct (W3 eq_refl) as [W L]. split; [exact W|]. intro H. destruct (L H). lia.
    + assert (s' = set_chi2 (Fin (- (1))) (set_cont [] s3)) as -> by congruence. split; [exact K3|]. cbn. congruence.
  - apply rmap_Ok in E as (s' & E & ->). cbn [fst]. unfold true_fit in E. set (s1 := set_cont _ s) in E.
    assert (kept s s1 /\ s_f s1 = s_f s) as [K Ef] by (split; now repeat split). clearbody s1. apply rbind_Ok in E as (s2 & E1 & E2).
    destruct (weights_of _ _ _ _ _ _ E1 E2 K P) as (K3 & V3 & W3). rewrite Ef in W3. split; [exact K3|].
    intro V. destruct (W3 V) as [W L]. split; [exact W|]. intro H. destruct (L H). lia.
Qed.
Lemma init_one_kept sx sx' : init_one g input_cont sx = Ok sx' -> kept (fst sx) (fst sx').
Proof.
  unfold init_one. destruct (g_model g).
  - unfold picca_init. destruct (s_x (fst sx)); [discriminate|]. intro E.
    assert (fst sx' = set_x (n :: repeat n0 (g_order g)) (fst sx)) as -> by (injection E as <-; reflexivity). now repeat split.
  - intro E. injection E as <-. now repeat split.
  - intro E. injection E as <-. now repeat split.
Qed.
End One.

(** ** the steps after the iterations *)
Lemma rseq_In {A B} (f : A -> res B) l : forall l' y, rseq (map f l) = Ok l' -> In y l' -> exists x, In x l /\ f x = Ok y.
Proof.
  induction l as [|a l IH]; intros l' y E H; cbn in E; [injection E as <-; destruct H|].
  apply rbind_Ok in E as (b & E1 & E2). apply rmap_Ok in E2 as (l2 & E2 & ->). destruct H as [<-|H]; [exists a; cbn; auto|].
  destruct (IH _ _ E2 H) as (x & Hx & Ex). exists x. cbn; auto.
Qed.
Lemma upd_self {A} (l : list A) d : forall r, r < length l -> upd r (fun _ => nth r l d) l = l.
Proof. induction l as [|x l IH]; intros r H; cbn in H; [lia|]. destruct r; cbn; [reflexivity|]. now rewrite IH by lia. Qed.
Lemma upd_upd {A} (g h : A -> A) (l : list A) : forall r, upd r g (upd r h l) = upd r (fun x => g (h x)) l.
Proof. induction l as [|x l IH]; intros [|r]; cbn; try reflexivity. now rewrite IH. Qed.
Lemma with_ivar_loop (F : string * list Qc -> arr -> res arr) l : forall f f', ri f < length (hp f) ->
  for_each l (fun aw f => with_ivar (fst aw) f (F aw)) f = Ok f' ->
  exists d', for_each l (fun aw d => rbind (rget (fst aw) d) (fun x => rbind (F aw x) (fun y => Ok (dset (fst aw) y d)))) (fivar f) = Ok d' /\
    f' = mut_ref (ri f) (fun _ => d') f.
Proof.
  induction l as [|aw l IH]; intros f f' L E; cbn in E.
  - assert (f' = f) as -> by congruence. exists (fivar f). split; [reflexivity|]. unfold mut_ref, fivar. rewrite upd_self by exact L. now destruct f.
  - apply rbind_Ok in E as (f1 & E1 & E2). unfold with_ivar in E1. apply rbind_Ok in E1 as (iv & G & E1). apply rbind_Ok in E1 as (iv' & HF & E1).
    assert (f1 = mut_ref (ri f) (dset (fst aw) iv') f) as -> by congruence. clear E1.
    destruct (IH (mut_ref (ri f) (dset (fst aw) iv') f) f') as (d' & E3 & ->); [cbn; now rewrite upd_length|exact E2|].
    exists d'. cbn [for_each]. rewrite G. cbn [rbind]. rewrite HF. cbn [rbind]. split.
    + rewrite <- E3. f_equal. unfold fivar. cbn. now rewrite nth_upd, Nat.eqb_refl by exact L.
    + unfold mut_ref. cbn. now rewrite upd_upd.
Qed.

Lemma pix_map (K : Qc -> num) (f : num -> num -> num) w x y : zip2 f x (map K w) = Ok y ->
  forall k q, nth_error w k = Some q -> nth_error y k = option_map (fun c => f c (K q)) (nth_error x k).
Proof.
  intros E k q H. apply zip2_Ok in E as [L ->]. rewrite nth_error_map2, nth_error_map, H. cbn. now destruct (nth_error x k).
Qed.
Lemma scale_cont_Ok ev_stack k s s' : scale_cont ev_stack k s = Ok s' -> NoDup (dkeys (fw (s_f s))) ->
  s_f s' = s_f s /\ s_valid s' = s_valid s /\ s_sscale s' = s_sscale s /\
  forall arm j w, at_pix (fw (s_f s)) arm j = Some w ->
    at_pix (s_cont s') arm j = option_map (fun c => nmul c (ev_stack k w)) (at_pix (s_cont s) arm j).
Proof.
  intros E N. apply rmap_Ok in E as (c' & E & ->). repeat split. intros arm j w H. cbn.
  pose proof (for_each_upd (fun aw x => zip2 nmul x (map (ev_stack k) (snd aw))) _ _ _ N E arm) as G.
  unfold at_pix in *. destruct (dget arm (fw (s_f s))) as [wave|]; [|discriminate].
  destruct G as (y0 & y & G1 & G2 & G3). rewrite G1, G3. cbn [snd] in G2. exact (pix_map _ _ _ _ _ G2 j w H).
Qed.
Lemma noise_eta_Ok eta s s' : noise_eta eta s = Ok s' -> NoDup (dkeys (fw (s_f s))) -> ri (s_f s) < length (hp (s_f s)) ->
  kept s s' /\ s_valid s' = s_valid s /\ s_cont s' = s_cont s /\
  (rw (s_f s) <> ri (s_f s) -> rw (s_f s) < length (hp (s_f s)) -> fweight (s_f s') = fweight (s_f s)) /\
  forall arm j w, at_pix (fw (s_f s)) arm j = Some w ->
    at_pix (fivar (s_f s')) arm j = option_map (fun i => ndiv i (eta w)) (at_pix (fivar (s_f s)) arm j).
Proof.
  intros E N L. apply rmap_Ok in E as (f' & E & ->).
  apply (with_ivar_loop (fun aw iv => zip2 ndiv iv (map eta (snd aw)))) in E as (d' & E & ->); [|exact L].
  cbn [s_f set_f]. split; [repeat split; cbn; now rewrite upd_length|]. split; [reflexivity|]. split; [reflexivity|]. split.
  - intros D Lw. unfold fweight. cbn. rewrite nth_upd by exact Lw. apply Nat.eqb_neq in D as ->. reflexivity.
  - intros arm j w H. pose proof (for_each_upd (fun aw iv => zip2 ndiv iv (map eta (snd aw))) _ _ _ N E arm) as G.
    assert (fivar (mut_ref (ri (s_f s)) (fun _ => d') (s_f s)) = d') as ->.
    { unfold fivar. cbn. now rewrite nth_upd, Nat.eqb_refl by exact L. }
    unfold at_pix in *. destruct (dget arm (fw (s_f s))) as [wave|]; [|discriminate].
    destruct G as (y0 & y & G1 & G2 & G3). rewrite G1, G3. cbn [snd] in G2. exact (pix_map _ _ _ _ _ G2 j w H).
Qed.
Lemma noise_additive_kept eta vl s s' : noise_additive eta vl s = Ok s' -> kept s s' /\ s_valid s' = s_valid s /\ s_cont s' = s_cont s.
Proof.
  intro E. apply rmap_Ok in E as (f' & E & ->). split; [|split; reflexivity].
  apply (for_each_inv (fun f => kept s (set_f f s))) in E; [exact E| |now repeat split].
  intros aw f f1 _ K B. apply rbind_Ok in B as (c & _ & B). unfold with_ivar in B. apply rbind_Ok in B as (iv & _ & B).
  apply rbind_Ok in B as (iv' & _ & B). assert (f1 = mut_ref (ri f) (dset (fst aw) iv') f) as -> by congruence.
  destruct K as (K1 & K2 & K3 & K4 & K5). repeat split; cbn; try assumption. rewrite upd_length. exact K5.
Qed.

(** smoothing, then weights *)
Lemma set_smooth_plain smooth dwave z s : NoDup (dkeys (fw (s_f s))) -> ri (s_f s) < length (hp (s_f s)) ->
  plain_forest (set_smooth_forestivar smooth dwave z s).
Proof.
  intros N L. unfold set_smooth_forestivar. destruct (qleb z 0) eqn:Z.
  - split; [exact N|]. now repeat split.
  - repeat split; cbn; rewrite ?app_length; cbn; try assumption; try lia. intro C. apply qleb_true in C. congruence.
Qed.
Lemma set_smooth_same smooth dwave z s :
  fw (s_f (set_smooth_forestivar smooth dwave z s)) = fw (s_f s) /\ s_valid (set_smooth_forestivar smooth dwave z s) = s_valid s.
Proof. unfold set_smooth_forestivar. now destruct (qleb z 0). Qed.

Section Steps.
Variable g : config.
Variable ev : interp -> Qc -> num.
Variable ev_stack : stacker -> Qc -> num.
Variable nsqrt : num -> num.
Variable smooth : arr -> Qc -> arr.
Variable junk : nat -> num.
Variable dwave : Qc.
Definition well (s : spec) : Prop := s_valid s = true /\ plain_forest s.
Definition reweighted (T : fitter) (s : spec) : Prop :=
  well s /\ weighted (fivar_sm (s_f s)) (s_cont s) (ev (deref T (t_var T))) (ev (deref T (t_eta T))) s.

Lemma reweight T s0 s1 s : s0 = set_smooth_forestivar smooth dwave (s_sscale s1) s1 ->
  NoDup (dkeys (fw (s_f s1))) -> ri (s_f s1) < length (hp (s_f s1)) -> s_valid s1 = true ->
  set_forest_weight (ev (deref T (t_var T))) (ev (deref T (t_eta T))) s0 = Ok s -> reweighted T s.
Proof.
  intros -> N L V E. pose proof (set_smooth_plain smooth dwave (s_sscale s1) s1 N L) as P.
  destruct (set_smooth_same smooth dwave (s_sscale s1) s1) as [_ V0]. rewrite V in V0.
  destruct (set_forest_weight_kept _ _ _ _ E) as (K & _ & V1 & _ & _).
  destruct (set_forest_weight_weighted _ _ _ _ E V0 P) as [W _].
  split; [split; [congruence|exact (kept_plain _ _ K P)]|exact W].
Qed.
Lemma add_noise_Ok vl T l l' : add_noise ev smooth dwave vl T l = Ok l' -> (forall s, In s l -> well s) ->
  forall s, In s l' -> reweighted T s.
Proof.
  intros E H s Hs. unfold add_noise in E. apply rbind_Ok in E as (l1 & E1 & E2).
  destruct (rseq_In _ _ _ _ E2 Hs) as (s1 & H1 & E3). unfold noise_calibrate in E1.
  destruct (forallb _ l); [|discriminate]. destruct (rseq_In _ _ _ _ E1 H1) as (s0 & H0 & E4).
  destruct (noise_additive_kept _ _ _ _ E4) as (K & V & _). destruct (H s0 H0) as [V0 P0].
  pose proof (kept_plain _ _ K P0) as (N & L & _). refine (reweight T _ s1 s eq_refl N L _ E3). congruence.
Qed.
Lemma coadd_after_Ok T l l' : coadd_after ev nsqrt smooth junk dwave T l = Ok l' -> (forall s, In s l -> well s) ->
  forall s, In s l' -> reweighted T s.
Proof.
  intros E H s Hs. destruct (rseq_In _ _ _ _ E Hs) as (s0 & H0 & E1). apply rbind_Ok in E1 as (s1 & E1 & E2).
  destruct (chi2_Ok _ _ E2) as (x & ->). clear E2. unfold coadd_arms_forest in E1.
  do 4 apply rbind_Ok in E1 as (? & _ & E1). apply rbind_Ok in E1 as (a & _ & E1). destruct (coadd_finish a) as [fl iv].
  apply rbind_Ok in E1 as (cont1 & _ & E1). apply rbind_Ok in E1 as (reso1 & _ & E1).
  apply rbind_Ok in E1 as (s3 & E3 & E1). apply rbind_Ok in E1 as (d & _ & E1).
  assert (reweighted T s3) as R.
  { refine (reweight T _ (set_cont cont1 (set_f _ s0)) s3 eq_refl _ _ _ E3); cbn.
    - constructor; [easy|constructor].
    - rewrite app_length. cbn. lia.
    - now apply H. }
  match type of E1 with Ok ?x = Ok ?y => assert (y = x) as -> by congruence end. exact R.
Qed.
Lemma last_steps_Ok o T l v : last_steps ev nsqrt smooth junk dwave o T l v -> (forall s, In s l -> well s) ->
  forall s, In s v ->
    (o_additive o = None /\ o_coadd_after o = false /\ In s l) \/
    ((o_additive o <> None \/ o_coadd_after o = true) /\ reweighted T s).
Proof.
  intros (v1 & A & B) H. destruct (o_additive o) as [file|] eqn:EA.
  - destruct A as (vl & _ & A). pose proof (add_noise_Ok _ _ _ _ A H) as R. intros s Hs. right. split; [left; discriminate|].
    destruct (o_coadd_after o); [|subst v; now apply R]. apply (coadd_after_Ok _ _ _ B); [|exact Hs]. intros s1 H1. now apply R.
  - subst v1. intros s Hs. destruct (o_coadd_after o); [|subst v; now left]. right. split; [now right|]. now apply (coadd_after_Ok _ _ _ B H).
Qed.

(** normalisation and calibration *)
Lemma finished_by_In T l l' sx : finished_by g ev ev_stack T l l' -> In sx l' ->
  exists sx0 sx1, In sx0 l /\ (if g_norm g then on_valid (scale_cont ev_stack (t_stack T)) sx0 = Ok sx1 else sx1 = sx0) /\
    (if g_etacal g then on_spec (noise_eta (ev (deref T (t_eta T)))) sx1 = Ok sx else sx = sx1).
Proof.
  intros E H. apply rbind_Ok in E as (l1 & E1 & E2). unfold normalize_flux in E1. unfold eta_calibrate in E2.
  assert (exists sx1, In sx1 l1 /\ (if g_etacal g then on_spec (noise_eta (ev (deref T (t_eta T)))) sx1 = Ok sx else sx = sx1)) as (sx1 & H1 & R1).
  { destruct (g_etacal g); [exact (rseq_In _ _ _ _ E2 H)|]. exists sx. split; [congruence|reflexivity]. }
  assert (exists sx0, In sx0 l /\ (if g_norm g then on_valid (scale_cont ev_stack (t_stack T)) sx0 = Ok sx1 else sx1 = sx0)) as (sx0 & H0 & R0).
  { destruct (g_norm g); [exact (rseq_In _ _ _ _ E1 H1)|]. exists sx1. split; [congruence|reflexivity]. }
  eauto.
Qed.
Lemma finished_rescaled T l l' sx : finished_by g ev ev_stack T l l' -> In sx l' -> s_valid (fst sx) = true ->
  (forall x, In x l -> plain_forest (fst x)) ->
  exists sx0, In sx0 l /\ s_valid (fst sx0) = true /\ well (fst sx) /\
    rescaled (g_norm g) (g_etacal g) (ev_stack (t_stack T)) (ev (deref T (t_eta T))) (fst sx0) (fst sx) /\
    (ri (s_f (fst sx0)) < rw (s_f (fst sx0)) < length (hp (s_f (fst sx0))) -> fweight (s_f (fst sx)) = fweight (s_f (fst sx0))) /\
    (g_norm g = false -> g_etacal g = false -> sx = sx0).
Proof.
  intros E H V HP. destruct (finished_by_In _ _ _ _ E H) as (sx0 & sx1 & H0 & R0 & R1). exists sx0. split; [exact H0|].
  assert (g_norm g = false -> g_etacal g = false -> sx = sx0) as HE by (intros G1 G2; rewrite G1 in R0; rewrite G2 in R1; congruence).
  pose proof (HP _ H0) as (N & L & Ls & Z).
  assert (s_f (fst sx1) = s_f (fst sx0) /\ s_valid (fst sx1) = s_valid (fst sx0) /\ s_sscale (fst sx1) = s_sscale (fst sx0) /\
    (s_valid (fst sx0) = true -> forall arm k w, at_pix (fw (s_f (fst sx0))) arm k = Some w ->
      at_pix (s_cont (fst sx1)) arm k = scaled_pix (g_norm g) (fun c => nmul c (ev_stack (t_stack T) w)) (at_pix (s_cont (fst sx0)) arm k))) as (Ef & EV & ES & EC).
  { destruct (g_norm g); [|now subst sx1]. unfold on_valid in R0. destruct (s_valid (fst sx0)) eqn:V0.
    - apply rmap_Ok in R0 as (s' & R0 & ->). destruct (scale_cont_Ok _ _ _ _ R0 N) as (F1 & F2 & F3 & F4). cbn [fst]. repeat split; [assumption|congruence|assumption|]. intros _. exact F4.
    - assert (sx1 = sx0) as -> by congruence. now repeat split. }
  assert (kept (fst sx1) (fst sx) /\ s_valid (fst sx) = s_valid (fst sx1) /\ s_cont (fst sx) = s_cont (fst sx1) /\
    (ri (s_f (fst sx1)) < rw (s_f (fst sx1)) < length (hp (s_f (fst sx1))) -> fweight (s_f (fst sx)) = fweight (s_f (fst sx1))) /\
    (forall arm k w, at_pix (fw (s_f (fst sx1))) arm k = Some w ->
      at_pix (fivar (s_f (fst sx))) arm k = scaled_pix (g_etacal g) (fun i => ndiv i (ev (deref T (t_eta T)) w)) (at_pix (fivar (s_f (fst sx1))) arm k)))
    as (K & EV1 & EC1 & EW1 & EI1).
  { destruct (g_etacal g); [|subst sx1; split; [apply kept_refl|now repeat split]]. apply rmap_Ok in R1 as (s' & R1 & ->). cbn [fst].
    destruct (noise_eta_Ok _ _ _ R1) as (F1 & F2 & F3 & F4 & F5); [now rewrite Ef|now rewrite Ef|].
    split; [exact F1|]. split; [exact F2|]. split; [exact F3|]. split; [|exact F5]. intros [A B]. apply F4; [lia|exact B]. }
  rewrite Ef in EW1, EI1. assert (s_valid (fst sx0) = true) as V0 by congruence. split; [exact V0|].
  split; [|split; [|split; [exact EW1|exact HE]]].
  - split; [exact V|]. apply (kept_plain (fst sx1)); [exact K|]. unfold plain_forest. rewrite Ef, ES. now repeat split.
  - destruct K as (K1 & _). split; [now rewrite K1, Ef|]. intros arm k w Hw. split; [rewrite EC1; now apply EC|now apply EI1].
Qed.
End Steps.

(** ** mpi_continuum_fitting *)
Lemma together_finishes {V A} n (p : nat -> prog V A) Q f : 1 <= n -> together n p Q -> finishes n p f ->
  exists f', Q f' /\ forall r, r < n -> f' r = f r.
Proof.
  intros Hn H E. unfold together in H. unfold finishes in E. rewrite E in H. destruct H as [(m & H)|[(e & _ & H)|(f' & H & HQ)]].
  - apply in_map_iff in H as (r & H & _). discriminate.
  - destruct n; [lia|]. cbn in H. discriminate.
  - exists f'. split; [exact HQ|]. intros r Hr. assert (nth_error (map (fun r => Finished (f r)) (seq 0 n)) r = nth_error (map (fun r => Finished (f' r)) (seq 0 n)) r) as K by now rewrite H.
    rewrite !nth_error_map in K. rewrite (nth_error_nth' (seq 0 n) 0) in K by now rewrite seq_length. rewrite seq_nth in K by lia. cbn in K. congruence.
Qed.

Section Final.
Variable g : config.
Variable ev : interp -> Qc -> num.
Variable ev_stack : stacker -> Qc -> num.
Variable slope : Qc -> num.
Variable minimizer : interp -> interp -> interp -> interp -> spec -> num -> option minres.
Variable input_cont : spec -> option (Qc -> num).
Variable true_cont : spec -> Qc -> num.
Variable nsqrt : num -> num.
Variable uspline : list Qc -> list num -> list num -> option (list num).
Variable xs : list Qc.
Variable quad : list Qc -> Qc.
Variables (min_num_pix min_num_qso : nat) (cholesky : list (list Qc) -> bool)
  (curve_fit : list Qc -> list Qc -> list num -> errors -> option (list num * list num))
  (vspline : list Qc -> list num -> list num -> option (list num)).
Variable write_ok : string -> bool.
Variable iter_suffix : nat -> string.
Variable smooth : arr -> Qc -> arr.
Variable junk : nat -> num.
Variable dwave : Qc.
Notation fitting := (continuum_fitting g ev ev_stack slope minimizer input_cont true_cont nsqrt uspline xs quad
      min_num_pix min_num_qso cholesky curve_fit vspline write_ok iter_suffix smooth junk dwave).

Definition from_fit (T0 T1 : fitter) (s : spec) : Prop :=
  exists s0, plain_forest s0 /\
    rescaled (g_norm g) (g_etacal g) (ev_stack (t_stack T1)) (ev (deref T1 (t_eta T1))) s0 s /\
    weighted (fivar_sm (s_f s0)) (s_cont s0) (ev (deref T0 (t_mvar T0))) (eta_used g ev T0) s /\
    (g_norm g = false -> g_etacal g = false -> s = s0).
Theorem final_weights n o (l : nat -> list specx) f : 1 <= n -> n_iterations g <> 0 ->
  (forall r, r < n -> Forall (fun sx => plain_forest (fst sx)) (l r)) ->
  finishes n (fun r => fitting r o (l r)) f ->
  exists T T0 T1 T', starts o T /\ same_refs T T0 /\ same_refs T T1 /\ (o_varlss o <> None -> same_var T T0 /\ same_var T T1) /\
    (o_varlss o = None -> T' = T1) /\
    forall r, r < n -> set_tvfit None (fst (fst (f r))) = T' /\ forall s, In s (snd (fst (f r))) ->
      (o_additive o = None /\ o_coadd_after o = false /\ from_fit T0 T1 s) \/
      ((o_additive o <> None \/ o_coadd_after o = true) /\ reweighted ev T' s).
Proof.
  intros Hn Hi HP E.
  pose proof (continuum_fitting_outcome g ev ev_stack slope minimizer input_cont true_cont nsqrt uspline xs quad
      min_num_pix min_num_qso cholesky curve_fit vspline write_ok iter_suffix smooth junk dwave (fun _ => plain_forest)) as C.
  eapply together_finishes in E; [|exact Hn|apply C].
  2:{ intros r mf t sx sx' P F. exact (kept_plain _ _ (proj1 (fit_one_weights _ _ _ _ _ _ _ _ _ _ F P)) P). }
  2:{ intros r sx sx' P F. exact (kept_plain _ _ (init_one_kept _ _ _ _ F) P). }
  2: exact Hn.
  2: exact HP.
  clear C. destruct E as (f' & (mf & T & T0 & T1 & T' & s & log & l1 & l3 & HS & _ & R0 & R1 & V01 & ET & (HF & _) & Hf) & Ef).
  exists T, T0, T1, T'. split; [exact HS|]. split; [exact R0|]. split; [exact R1|]. split; [exact V01|]. split; [exact ET|].
  intros r Hr. destruct (Hf r Hr) as ((A & _) & _ & HFin & HL). rewrite (Ef r Hr) in A, HL. split; [exact A|].
  destruct (HF Hi r Hr) as (lp & HPl & Efit). clear HF Hf.
  assert (forall sx, In sx (l1 r) -> plain_forest (fst sx) /\ (s_valid (fst sx) = true ->
     weighted (fivar_sm (s_f (fst sx))) (s_cont (fst sx)) (ev (deref T0 (t_mvar T0))) (eta_used g ev T0) (fst sx) /\
     (s_cont (fst sx) <> [] -> ri (s_f (fst sx)) < rw (s_f (fst sx)) < length (hp (s_f (fst sx)))))) as H1.
  { intros sx Hsx. destruct (rseq_In _ _ _ _ Efit Hsx) as (sp & Hp & F). rewrite Forall_forall in HPl.
    pose proof (HPl _ Hp) as P. destruct (fit_one_weights _ _ _ _ _ _ _ _ _ _ F P) as [K W]. split; [exact (kept_plain _ _ K P)|].
    intro V. destruct (W V) as [W1 W2]. split; [exact W1|]. intro C. specialize (W2 C).
    destruct K as (_ & K2 & _ & _ & K5). destruct P as (_ & P2 & _). rewrite K2. lia. }
  assert (forall s, In s (valid_spectra (map fst (l3 r))) -> well s /\ from_fit T0 T1 s) as H3.
  { intros s0 Hs. apply filter_In in Hs as [Hs V]. apply in_map_iff in Hs as (sx & <- & Hsx).
    destruct (finished_rescaled g ev ev_stack T1 _ _ sx HFin Hsx V) as (sx0 & H0 & V0 & W & RS & FW & HE).
    { intros x Hx. now apply H1. }
    split; [exact W|]. destruct (H1 sx0 H0) as [P0 W0]. destruct (W0 V0) as [W1 W2]. exists (fst sx0). split; [exact P0|]. split; [exact RS|]. split.
    - intros arm k w i c Hw Hi' Hc. destruct RS as [RS _]. rewrite RS in Hw.
      rewrite FW; [exact (W1 arm k w i c Hw Hi' Hc)|]. apply W2. intro C. rewrite C in Hc. discriminate.
    - intros G1 G2. now rewrite (HE G1 G2). }
  intros s1 Hs1. destruct (last_steps_Ok _ _ _ _ _ _ _ _ _ HL (fun s H => proj1 (H3 s H)) s1 Hs1) as [(B1 & B2 & B3)|B]; [left|now right].
  split; [exact B1|]. split; [exact B2|]. now apply H3.
Qed.

(** *** the fiducial var_lss *)
Lemma same_var_deref T T' r : same_var T T' -> deref T' r = deref T r.
Proof. intros [E _]. unfold deref. now rewrite E. Qed.
Theorem fiducial_weights n o (l : nat -> list specx) f : 1 <= n -> n_iterations g <> 0 ->
  (forall r, r < n -> Forall (fun sx => plain_forest (fst sx)) (l r)) ->
  o_varlss o <> None -> o_additive o = None -> o_coadd_after o = false ->
  finishes n (fun r => fitting r o (l r)) f ->
  exists i K, o_varlss o = Some (Some i) /\
    forall r s, r < n -> In s (snd (fst (f r))) ->
      exists s0, plain_forest s0 /\ rescaled (g_norm g) (g_etacal g) K (ev (ones_like i)) s0 s /\
        weighted (fivar_sm (s_f s0)) (s_cont s0) (ev i)
          (match g_model g with TrueCont => fun _ => n1 | _ => ev (ones_like i) end) s.
Proof.
  intros Hn Hi HP HV HA HC E. destruct (final_weights n o l f Hn Hi HP E) as (T & T0 & T1 & T' & (S1 & S2) & R0 & R1 & V01 & _ & H).
  destruct (V01 HV) as [V0 V1]. destruct (o_varlss o) as [file|] eqn:EV; [|contradiction]. destruct S2 as (i & -> & Hh).
  exists i, (ev_stack (t_stack T1)). split; [reflexivity|]. intros r s Hr Hs. destruct (H r Hr) as [_ K].
  destruct (K s Hs) as [(_ & _ & s0 & P0 & RS & W & _)|[[C|C] _]]; [|congruence|congruence].
  destruct S1 as (S11 & S12 & S13 & S14). destruct R0 as (_ & _ & R03 & R04), R1 as (_ & R12 & _ & _).
  exists s0. split; [exact P0|]. rewrite (same_var_deref T T1 _ V1), R12, S12 in RS. unfold deref in RS. rewrite Hh in RS. cbn in RS.
  split; [exact RS|]. unfold eta_used in W. rewrite !(same_var_deref T T0 _ V0), R03, R04, S13, S14 in W. unfold deref in W. rewrite Hh in W. exact W.
Qed.

(** *** the columns of the files *)
Lemma weighted_file vl eta s : weighted (fivar_sm (s_f s)) (s_cont s) vl eta s -> plain_forest s -> (s_sscale s <= 0)%Qc ->
  file_weights vl eta s.
Proof.
  intros W (_ & _ & _ & Z) H arm k w i c e v Hw Hi Hc He Hv E V P.
  assert (fivar_sm (s_f s) = fivar (s_f s)) as A by (unfold fivar_sm, fivar; now rewrite (Z H)). rewrite A in W.
  specialize (W arm k w (Fin i) (Fin c) Hw Hi Hc). rewrite He, Hv in W.
  assert (c <> 0)%Qc as Hc0. { intros ->. replace (i * (0 * 0))%Qc with 0%Qc in P by ring. discriminate P. }
  assert (0 < i)%Qc as Hi0. { destruct (Qclt_le_dec 0 i) as [D|D]; [exact D|]. exfalso. assert (0 <= c * c)%Qc by qnra. assert (i * (c * c) <= 0)%Qc by qnra. qlra. }
  assert (0 <= i)%Qc as Hi1 by now apply Qclt_le_weak.
  destruct (weight_formula_rule i c e v E V Hi1) as [_ R]. destruct (R Hi0) as (q & Eq & _ & R1 & _).
  exists q. split; [|now apply R1]. unfold weight_formula in Eq. now rewrite W, Eq.
Qed.
Lemma explain_weight i c e v q : (0 < i * (c * c))%Qc -> q <> 0%Qc -> ndiv (Fin i) (nadd e (nmul (Fin i) (nmul v (nsq (Fin c))))) = Fin q ->
  exists e0 v0, e = Fin e0 /\ v = Fin v0 /\ (q * (c * c) = / (e0 * / (i * (c * c)) + v0))%Qc.
Proof.
  intros P Q E.
  assert (c <> 0)%Qc as Hc0. { intros ->. replace (i * (0 * 0))%Qc with 0%Qc in P by ring. discriminate P. }
  assert (0 < c * c)%Qc as Hc. { destruct (Qclt_le_dec 0 c) as [D|D]; [qnra|]. assert (c < 0)%Qc by (destruct (Qcle_lt_or_eq _ _ D); [assumption|contradiction]). qnra. }
  assert (0 < i)%Qc as Hi0. { destruct (Qclt_le_dec 0 i) as [D|D]; [exact D|]. exfalso. assert (i * (c * c) <= 0)%Qc by qnra. qlra. }
  assert (i <> 0)%Qc as Hi1 by (intros ->; discriminate Hi0).
  assert (qeqb i 0 = false) as Bi by (apply qeqb_false; exact Hi1). assert (qltb 0 i = true) as Li by (apply qltb_true; exact Hi0).
  assert (qeqb (c * c) 0 = false) as Bc. { apply qeqb_false. intro D. rewrite D in Hc. discriminate Hc. }
  assert (qltb 0 (c * c) = true) as Lc by (apply qltb_true; exact Hc).
  destruct v as [v0| | |]; cbn [nsq nmul] in E; unfold infsgn in E; rewrite ?Bc, ?Lc in E; cbn [nmul] in E; unfold infsgn in E; rewrite ?Bi, ?Li in E;
    destruct e as [e0| | |]; cbn [nadd ndiv] in E; try discriminate E; try (injection E as E; now subst).
  exists e0, v0. split; [reflexivity|]. split; [reflexivity|].
  destruct (qeqb (e0 + i * (v0 * (c * c))) 0) eqn:D; [unfold infsgn in E; rewrite Bi, Li in E; discriminate|].
  injection E as <-. apply qeqb_false in D.
  assert (e0 * / (i * (c * c)) + v0 = (e0 + i * (v0 * (c * c))) / (i * (c * c)))%Qc as -> by (field; auto).
  field. repeat split; auto.
Qed.
Lemma weighted_explained vl eta s : weighted (fivar_sm (s_f s)) (s_cont s) vl eta s -> plain_forest s -> (s_sscale s <= 0)%Qc ->
  weights_explained vl eta s.
Proof.
  intros W (_ & _ & _ & Z) H arm k w i c q Hw Hi Hc Hq P Q.
  assert (fivar_sm (s_f s) = fivar (s_f s)) as A by (unfold fivar_sm, fivar; now rewrite (Z H)). rewrite A in W.
  specialize (W arm k w (Fin i) (Fin c) Hw Hi Hc). rewrite Hq in W. injection W as W. symmetry in W. exact (explain_weight i c _ _ q P Q W).
Qed.
Theorem written_weights n o (l : nat -> list specx) f : 1 <= n -> n_iterations g <> 0 ->
  (forall r, r < n -> Forall (fun sx => plain_forest (fst sx)) (l r)) ->
  o_additive o <> None \/ o_coadd_after o = true \/ (g_norm g = false /\ g_etacal g = false) ->
  finishes n (fun r => fitting r o (l r)) f ->
  exists vl eta, forall r s, r < n -> In s (snd (fst (f r))) -> (s_sscale s <= 0)%Qc -> file_weights vl eta s /\ weights_explained vl eta s.
Proof.
  intros Hn Hi HP HO E. destruct (final_weights n o l f Hn Hi HP E) as (T & T0 & T1 & T' & _ & _ & _ & _ & _ & H).
  assert ((o_additive o <> None \/ o_coadd_after o = true) \/ (o_additive o = None /\ o_coadd_after o = false /\ g_norm g = false /\ g_etacal g = false)) as [HO1|(A1 & A2 & A3 & A4)].
  { destruct (o_additive o), (o_coadd_after o); try (left; left; discriminate); try (left; now right). right. destruct HO as [C|[C|[? ?]]]; [congruence|congruence|easy]. }
  - exists (ev (deref T' (t_var T'))), (ev (deref T' (t_eta T'))). intros r s Hr Hs Z. destruct (H r Hr) as [_ K].
    destruct (K s Hs) as [(B1 & B2 & _)|(_ & (_ & P) & W)]; [destruct HO1; congruence|]. split; [now apply weighted_file|now apply weighted_explained].
  - exists (ev (deref T0 (t_mvar T0))), (eta_used g ev T0). intros r s Hr Hs Z. destruct (H r Hr) as [_ K].
    destruct (K s Hs) as [(_ & _ & s0 & P & _ & W & Es)|([C|C] & _)]; [|congruence|congruence].
    rewrite (Es A3 A4) in *. split; [now apply weighted_file|now apply weighted_explained].
Qed.
(** recomputed weights: the interpolators that are left in the fitter *)
Theorem recomputed_weights n o (l : nat -> list specx) f : 1 <= n -> n_iterations g <> 0 ->
  (forall r, r < n -> Forall (fun sx => plain_forest (fst sx)) (l r)) ->
  o_additive o <> None \/ o_coadd_after o = true ->
  finishes n (fun r => fitting r o (l r)) f ->
  forall r s, r < n -> In s (snd (fst (f r))) ->
    let t := fst (fst (f r)) in
    plain_forest s /\ weighted (fivar_sm (s_f s)) (s_cont s) (ev (deref t (t_var t))) (ev (deref t (t_eta t))) s.
Proof.
  intros Hn Hi HP HO E r s Hr Hs t. destruct (final_weights n o l f Hn Hi HP E) as (T & T0 & T1 & T' & _ & _ & _ & _ & _ & H).
  destruct (H r Hr) as [Et K]. destruct (K s Hs) as [(B1 & B2 & _)|(_ & (_ & P) & W)]; [destruct HO; congruence|].
  split; [exact P|]. subst T'. exact W.
Qed.
End Final.

(** *** reading the file *)
Lemma file_pixels set_pop pow10 st s blind h d vl eta : arm_file set_pop pow10 st s blind h d -> file_weights vl eta s ->
  forall k w i e v, nth_error (d_wave d) k = Some w -> nth_error (d_ivar d) k = Some (Fin i) ->
    eta w = Fin e -> vl w = Fin v -> (0 < e)%Qc -> (0 <= v)%Qc -> (0 < i)%Qc ->
    nth_error (d_weight d) k = Some (Fin (/ (e * / i + v))%Qc).
Proof.
  intros (_ & _ & _ & _ & _ & _ & _ & Hw & _ & _ & _ & _ & _ & _ & H) W k w i e v Kw Ki He Hv E V P.
  destruct (H k) as (f & i0 & q & c & dl & i' & w' & _ & Fi & Fq & Fc & _ & Ei & Ew & -> & -> & _).
  { apply nth_error_Some. congruence. }
  assert (i = i0 * (c * c))%Qc as -> by congruence.
  destruct (W (h_arm h) k w i0 c e v) as (q' & Q1 & Q2); try assumption.
  { unfold at_pix. rewrite <- Hw. exact Kw. }
  unfold finite_at in Fq. assert (q' = q) as -> by congruence. now rewrite Ew, Q2.
Qed.
