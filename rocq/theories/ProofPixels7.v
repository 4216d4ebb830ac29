(** Coadding the arms after the fit keeps masked pixels without weight, if the arms are on one grid (C71). *)
From Coq Require Import Field ZArith String List Bool Arith Lia Qcanon Sorted.
From Verif Require Import Num NpList NpListFacts Exn Dict Mpi ModelSpectrum ModelMasks ModelContinuum ModelPipeline
  SpecSpectrum SpecCoadd SpecSelect SpecPixels ProofCat ProofSpectrum1 ProofCoadd ProofCoadd2 ProofCoadd3 ProofMasks3 ProofSpectrum2 ProofPixels1 ProofPixels2 ProofPixels3 ProofPixels4.
Import ListNotations.
Local Open Scope nat_scope.

Lemma spent_add u v : spent u -> spent v -> spent (nadd u v).
Proof. intros [-> | ->] [-> | ->]; [left; cbn; unfold n0; f_equal; ring|right; reflexivity..]. Qed.
Lemma spent_npos v : spent v -> npos v = false.
Proof. intros [-> | ->]; reflexivity. Qed.
Lemma spent_sq v : spent v -> spent (nsq v).
Proof. intro H. unfold nsq. now apply spent_mul. Qed.

Definition spent_at (a : list num) (j : nat) : Prop := forall v, nth_error a j = Some v -> spent v.
Lemma fancy_write_spent ii j : forall v a, spent_at a j -> (forall k u, nth_error ii k = Some j -> nth_error v k = Some u -> spent u) -> spent_at (fancy_write ii v a) j.
Proof.
  unfold fancy_write. induction ii as [|i ii IH]; intros v a Ha Hv; [exact Ha|]. destruct v as [|u v]; [exact Ha|]. cbn [combine fold_left fst snd].
  apply IH; [|intros k; exact (Hv (S k))]. intros y Ey. rewrite nth_error_upd in Ey. destruct (Nat.eqb_spec j i) as [->|N]; [|now apply Ha].
  destruct (nth_error a i); [|discriminate]. injection Ey as <-. exact (Hv 0 u eq_refl eq_refl).
Qed.
Lemma rseq_nth {A} (l : list (res A)) m k y : rseq l = Ok m -> nth_error m k = Some y -> nth_error l k = Some (Ok y).
Proof.
  revert m k. induction l as [|x l IH]; intros m k E; cbn in E; [injection E as <-; destruct k; discriminate|].
  destruct x as [x|]; [|discriminate]. cbn [rbind] in E. destruct (rseq l) as [m'|]; [|discriminate]. injection E as <-. destruct k as [|k]; cbn; [congruence|]. now apply IH.
Qed.
Lemma fancy_add_spent a idx v j a' : fancy_add a idx v = Ok a' -> spent_at a j ->
  (forall k z u, nth_error idx k = Some z -> norm_idx (length a) z = Ok j -> nth_error v k = Some u -> spent u) -> spent_at a' j.
Proof.
  unfold fancy_add. intros E Ha Hv. apply rbind_Ok in E as (ii & Ei & E). destruct (_ =? _); [|discriminate]. injection E as <-.
  apply fancy_write_spent; [exact Ha|]. intros k u Ek Eu. rewrite nth_error_map2, nth_error_map, Ek in Eu. cbn [option_map] in Eu.
  destruct (nth_error v k) as [u0|] eqn:Ev; [|discriminate]. injection Eu as <-.
  apply (rseq_nth _ _ _ _ Ei) in Ek. rewrite nth_error_map in Ek. destruct (nth_error idx k) as [z|] eqn:Ez; [|discriminate]. cbn in Ek. injection Ek as Ek.
  apply spent_add; [|exact (Hv k z u0 Ez Ek Ev)]. apply Ha. apply nth_error_nth'. unfold norm_idx in Ek.
  destruct (_ && _) eqn:B in Ek; [injection Ek as <-; apply andb_prop in B as (B1 & B2); lia|].
  destruct (_ && _) eqn:B' in Ek; [injection Ek as <-; apply andb_prop in B' as (B1 & B2); lia|discriminate].
Qed.
Lemma coadd_one_spent idx w fl iv a a' j : coadd_one idx w fl iv a = Ok a' -> spent_at (co_ivar a) j -> spent_at (co_norm a) j ->
  length (co_norm a) = length (co_ivar a) ->
  (forall k z u, nth_error idx k = Some z -> norm_idx (length (co_ivar a)) z = Ok j -> nth_error w k = Some u -> spent u) ->
  spent_at (co_ivar a') j /\ spent_at (co_norm a') j /\ length (co_ivar a') = length (co_ivar a) /\ length (co_norm a') = length (co_ivar a).
Proof.
  unfold coadd_one. intros E Hi Hn L Hw. apply rbind_Ok in E as (wf & E1 & E). apply rbind_Ok in E as (wv & E2 & E). apply rbind_Ok in E as (cf & E3 & E).
  apply rbind_Ok in E as (ci & E4 & E). apply rbind_Ok in E as (cn & E5 & E). injection E as <-. cbn [co_ivar co_norm].
  split; [|split; [|split]].
  - apply (fancy_add_spent _ _ _ _ _ E4 Hi). intros k z u Ez En Eu. pose proof (zip2_nth (fun w iv => nmul (nsq w) (var_of iv)) w iv k u) as K. rewrite E2 in K.
    destruct (K Eu) as (x & y & Ex & _ & ->). apply spent_mul, spent_sq. exact (Hw k z x Ez En Ex).
  - apply (fancy_add_spent _ _ _ _ _ E5 Hn). rewrite L. exact Hw.
  - exact (fancy_add_length _ _ _ _ E4).
  - rewrite (fancy_add_length _ _ _ _ E5). exact L.
Qed.

(** arms on one grid of step dw *)
Definition gridded (dw : Qc) (d : dict (list Qc)) : Prop :=
  Forall (fun p => ascending (snd p)) d /\ exists x0, Forall (fun p => Forall (fun x => exists k, x = (x0 + zq k * dw)%Qc) (snd p)) d.
Lemma gridded_sub dw (f : string * list Qc -> bool) d : gridded dw d -> gridded dw (filter f d).
Proof.
  intros (H1 & x0 & H2). split; [|exists x0]; apply Forall_forall; intros p Hp; apply filter_In in Hp as [Hp _]; rewrite Forall_forall in H1, H2; auto.
Qed.

Lemma in_pixels_wave w f i p : In p (pixels w f i) -> In (p_wave p) w.
Proof. revert f i. induction w as [|x w IH]; intros [|y f] [|z i] H; try destruct H as [<-|H]; try destruct H; [now left|right; eapply IH; eassumption..]. Qed.
Lemma region_waves nsqrt x1 x2 x3 x4 s s1 arm wv x : SpecSelect.fresh s -> set_forest_region nsqrt x1 x2 x3 x4 s = Ok s1 -> dget arm (fw (s_f s1)) = Some wv -> In x wv ->
  exists w0, dget arm (s_wave s) = Some w0 /\ In x w0.
Proof.
  intros (He & N & D & Asc) E Hp Hx. destruct (set_forest_region_spec nsqrt _ _ _ _ s s1 He N D E arm) as (H & _).
  destruct (dget arm (s_wave s)) as [w0|] eqn:Ew; [|destruct H; congruence].
  destruct (dget arm (s_flux s)) as [fl|]; [|destruct H; congruence].
  destruct (dget arm (s_ivar s)) as [iv|]; [|destruct H; congruence].
  specialize (H (Asc _ _ Ew)). destruct H as (H1 & H2).
  match type of H1 with (exists p, In p ?l /\ _) -> _ => set (px := l) in * end.
  assert ((exists p, In p px /\ good (p_ivar p)) \/ (forall p, In p px -> ~ good (p_ivar p))) as [C|C].
  { clear. induction px as [|p l [(q & Hq & G)|IH]]; [right; intros p []|left; exists q; split; [now right|easy]|].
    destruct (nltb n0 (p_ivar p)) eqn:G; [left; exists p; split; [now left|easy]|].
    right. intros q [<-|Hq]; [unfold good; congruence|auto]. }
  2: { destruct (H2 C) as (Q & _). congruence. }
  destruct (H1 C) as (Q & _). rewrite Q in Hp. injection Hp as <-. apply in_map_iff in Hx as (p & <- & Hp).
  apply filter_In in Hp as (Hp & _). exists w0. split; [reflexivity|]. exact (in_pixels_wave _ _ _ _ Hp).
Qed.
Lemma cut_gridded nsqrt a dw s s1 : SpecSelect.fresh s -> one_grid dw s -> cut_forest nsqrt a s = Ok s1 -> gridded dw (fw (s_f s1)).
Proof.
  intros F (x0 & G) E. unfold cut_forest in E. destruct (set_forest_region nsqrt _ _ _ _ s) as [t|] eqn:Et; [|discriminate]. cbn in E. injection E as <-.
  change (gridded dw (fw (s_f t))). pose proof F as (He & N & Dm & Asc). pose proof (fresh_forest_proper nsqrt _ _ _ _ s t He N Dm Asc Et) as (_ & N1 & A1 & _).
  split; [|exists x0]; apply Forall_forall; intros [arm wv] Hp; apply (In_pair_dget _ _ _ N1) in Hp; cbn [snd].
  - exact (A1 arm wv Hp).
  - apply Forall_forall. intros x Hx. destruct (region_waves _ _ _ _ _ _ _ _ _ _ F Et Hp Hx) as (w0 & E0 & H0). exact (G arm w0 x E0 H0).
Qed.

Section Coadd.
Variable D : catrow -> Qc -> Prop.
Variable nsqrt : num -> num.
Variable smooth : list num -> Qc -> list num.
Variable junk : nat -> num.
Hypothesis Hsmooth : forall iv sig k u v, nth_error iv k = Some u -> spent u -> nth_error (smooth iv sig) k = Some v -> spent v.
Hypothesis Hsmlen : forall iv sig, length (smooth iv sig) = length iv.
Variable dw : Qc.
Hypothesis Hdw : (0 < dw)%Qc.
Lemma M_smooth_fresh x s : okd (D (s_cat s)) (fw (s_f s)) (fivar (s_f s)) -> M D (set_smooth_forestivar smooth dw x s).
Proof.
  intros H. unfold set_smooth_forestivar, M. destruct (qleb x 0); cbn [s_cat set_f s_f set_sscale].
  - split; [exact H|]. now split.
  - set (d := dmap _ (fivar (s_f s))). assert (okd (D (s_cat s)) (fw (s_f s)) d) as Kd.
    { intros arm k y v Ey Dy Ev. unfold at_pix, d in Ev. rewrite dget_dmap in Ev.
      destruct (dget arm (fivar (s_f s))) as [iv|] eqn:E; [|discriminate]. cbn [option_map] in Ev.
      assert (k < length iv) as Hk by (rewrite <- (Hsmlen iv (x / dw)%Qc); apply nth_error_Some; congruence).
      apply nth_error_Some in Hk. destruct (nth_error iv k) as [u|] eqn:Eu; [|contradiction]. apply (Hsmooth iv (x / dw)%Qc k u v Eu); [|exact Ev].
      apply (H arm k y u Ey Dy). unfold at_pix. now rewrite E. }
    assert (okd (D (s_cat s)) (fw (s_f s)) (nth (length (hp (s_f s))) (hp (s_f s) ++ [d]) [])) as K.
    { now rewrite app_nth2, Nat.sub_diag by lia. }
    split; [|split; exact K]. unfold fivar. cbn [alias_weight_to_sm new_sm hp ri]. destruct (nth_app_or (hp (s_f s)) d (ri (s_f s)) []) as [-> | ->]; [exact H|exact Kd].
Qed.

Lemma first_le wv x0 x : ascending wv -> rfirst wv = Ok x0 -> In x wv -> (x0 <= x)%Qc.
Proof.
  destruct wv as [|y wv]; [discriminate|]. intros A E [<-|Hx]; injection E as ->; [apply Qcle_refl|].
  inversion A as [|? ? _ F]; subst. rewrite Forall_forall in F. apply Qclt_le_weak. now apply F.
Qed.
Lemma min_le_all d firsts mn : Forall (fun p : string * list Qc => ascending (snd p)) d -> rseq (map rfirst (dvals d)) = Ok firsts -> rmin firsts = Ok mn ->
  forall arm wv x, In (arm, wv) d -> In x wv -> (mn <= x)%Qc.
Proof.
  intros A E Em arm wv x Hd Hx. unfold dvals in E. rewrite map_map in E. apply In_nth_error in Hd as (i & Hd).
  assert (exists y, nth_error firsts i = Some y /\ rfirst wv = Ok y) as (y & Ey & Er).
  { clear Em A Hx. revert firsts i E Hd. induction d as [|p d IH]; intros firsts i E Hd; [destruct i; discriminate|]. cbn [map rseq] in E.
    destruct (rfirst (snd p)) as [y|] eqn:Ep; [|discriminate]. cbn [rbind] in E. destruct (rseq _) as [fs|] eqn:Es; [|discriminate]. injection E as <-.
    destruct i as [|i]; [cbn in Hd; injection Hd as ->; exists y; now split|]. exact (IH fs i eq_refl Hd). }
  apply Qcle_trans with y.
  - unfold rmin in Em. destruct firsts as [|z fs]; [discriminate|]. injection Em as <-. destruct (fold_min_le fs z) as (F1 & F2). apply nth_error_In in Ey as [<-|Hy]; [exact F1|].
    rewrite Forall_forall in F2. now apply F2.
  - refine (first_le wv y x _ Er Hx). rewrite Forall_forall in A. apply (A (arm, wv)). now apply nth_error_In in Hd.
Qed.
Lemma pix_idx_exact mn m : (0 <= m)%Z -> pix_idx mn dw (mn + zq m * dw)%Qc = m.
Proof.
  intro Hm. unfold pix_idx. assert (dw <> 0)%Qc by (intro C; rewrite C in Hdw; discriminate Hdw).
  replace ((mn + zq m * dw - mn) / dw)%Qc with (zq m) by (field; easy).
  pose proof (grid_n_exact mn dw (Z.to_nat m) Hdw) as G. unfold grid_n in G.
  replace ((mn + zq (Z.of_nat (Z.to_nat m)) * dw - mn) / dw)%Qc with (zq m) in G by (rewrite Z2Nat.id by lia; field; easy).
  assert (0 <= qtrunc (zq m + fq 1 10)%Qc)%Z.
  { assert (0 <= zq m)%Qc by (change 0%Qc with (zq 0); now apply zq_le). assert (0 < fq 1 10)%Qc by reflexivity.
    destruct (qtrunc_spec_nonneg (zq m + fq 1 10)%Qc) as (A1 & A2); [qlra|]. assert (zq (-1) < zq (qtrunc (zq m + fq 1 10)%Qc))%Qc as C.
    { assert (fq 1 10 < 1)%Qc by reflexivity. change (zq (-1)) with (-(1))%Qc. set (q := qtrunc _) in *.
      assert (zq 0 < zq (q + 1))%Qc as C2 by (rewrite zq_plus; change (zq 1) with 1%Qc; change (zq 0) with 0%Qc; qlra). apply (proj1 (zq_lt _ _)) in C2.
      change (- (1))%Qc with (zq (-1)). apply zq_lt. lia. }
    apply (proj1 (zq_lt _ _)) in C. lia. }
  lia.
Qed.
Definition MG (s : spec) : Prop := M D s /\ NoDup (map fst (fw (s_f s))) /\ gridded dw (fw (s_f s)).
Lemma MG_coadd vl e s : MG s -> okall MG (coadd_arms_forest nsqrt smooth junk dw vl e s).
Proof.
  intros ((H1 & H2 & H3) & N & Asc & x0 & G). pose proof (coadd_cat nsqrt smooth junk dw vl e s) as KC. unfold keeps in KC.
  unfold coadd_arms_forest in *. cbv zeta in *.
  destruct (rseq (map rfirst _)) as [firsts|] eqn:E1; [|exact I]. cbn [rbind] in *.
  destruct (rseq (map rlast _)) as [lasts|] eqn:E2; [|exact I]. cbn [rbind] in *.
  destruct (rmin firsts) as [mn|] eqn:E3; [|exact I]. cbn [rbind] in *.
  destruct (rmax lasts) as [mx|] eqn:E4; [|exact I]. cbn [rbind] in *.
  change (Z.to_nat (qtrunc ((mx - mn) / dw + fq 1 10)%Qc + 1)) with (grid_n mn mx dw) in *. clear KC.
  assert (mn <= mx)%Qc as Hm by exact (ends_ordered _ _ _ _ _ Asc E1 E2 E3 E4).
  set (Gd := fun x : Qc => exists k, x = (x0 + zq k * dw)%Qc) in *.
  assert (Gd mn) as (k1 & Hmn).
  { pose proof (ends_ok Gd rfirst (fw (s_f s)) rfirst_in G) as K. rewrite E1 in K. cbn in K. pose proof (rmin_P Gd firsts K) as K'. rewrite E3 in K'. exact K'. }
  assert (Gd mx) as (k2 & Hmx).
  { pose proof (ends_ok Gd rlast (fw (s_f s)) rlast_in G) as K. rewrite E2 in K. cbn in K. pose proof (rmax_P Gd lasts K) as K'. rewrite E4 in K'. exact K'. }
  assert (k1 <= k2)%Z as Hk.
  { apply zq_le. rewrite Hmn, Hmx in Hm. destruct (Qclt_le_dec (zq k2) (zq k1)) as [C|C]; [|exact C]. exfalso. clear - C Hdw Hm. assert (zq k2 * dw < zq k1 * dw)%Qc by qnra. qlra. }
  set (n := Z.to_nat (k2 - k1)). assert (mx = mn + zq (Z.of_nat n) * dw)%Qc as Hmx'.
  { unfold n. rewrite Z2Nat.id by lia. rewrite Hmn, Hmx. replace (k2 - k1)%Z with (k2 + - k1)%Z by lia. rewrite zq_plus, zq_opp. ring. }
  rewrite Hmx', grid_n_exact by exact Hdw. rewrite <- Hmx'.
  set (lin := linspace mn mx (S n)).
  assert (forall j x, nth_error lin j = Some x -> x = (mn + zq (Z.of_nat j) * dw)%Qc) as Hlin.
  { intros j x Ex. assert (j < S n) as Hj by (rewrite <- (linspace_length mn mx (S n)); apply nth_error_Some; unfold lin in Ex; congruence).
    unfold lin in Ex. rewrite Hmx', linspace_step in Ex by lia. congruence. }
  match goal with |- okall _ (rbind ?x _) => destruct x as [acc|] eqn:Ea; [|exact I] end. cbn [rbind].
  assert (forall j x, nth_error lin j = Some x -> D (s_cat s) x -> spent_at (co_ivar acc) j /\ spent_at (co_norm acc) j /\ length (co_ivar acc) = S n /\ length (co_norm acc) = S n) as Hacc.
  { intros j x Ex Dx.
    refine (okall_use (fun c => spent_at (co_ivar c) j /\ spent_at (co_norm c) j /\ length (co_ivar c) = S n /\ length (co_norm c) = S n) _ _ _ Ea). clear Ea.
    assert (forall l, incl l (fw (s_f s)) -> forall c0, (spent_at (co_ivar c0) j /\ spent_at (co_norm c0) j /\ length (co_ivar c0) = S n /\ length (co_norm c0) = S n) ->
      okall (fun c => spent_at (co_ivar c) j /\ spent_at (co_norm c) j /\ length (co_ivar c) = S n /\ length (co_norm c) = S n)
       (for_each l (fun aw (a : coadd_acc) => rbind (rget (fst aw) (fweight (s_f s))) (fun w => rbind (rget (fst aw) (fivar (s_f s))) (fun iv => rbind (rget (fst aw) (ff (s_f s))) (fun fl =>
          coadd_one (map (pix_idx mn dw) (snd aw)) w fl iv a)))) c0)) as L.
    { induction l as [|[arm wv] l IH]; intros Hl c0 (C1 & C2 & C3 & C4); [cbn; auto|]. cbn [for_each fst snd].
      unfold rget at 1. destruct (dget arm (fweight (s_f s))) as [w0|] eqn:Ew; [|exact I]. cbn [of_option rbind].
      destruct (rget arm (fivar (s_f s))) as [iv|]; [|exact I]. cbn [rbind]. destruct (rget arm (ff (s_f s))) as [fl|]; [|exact I]. cbn [rbind].
      destruct (coadd_one _ w0 fl iv c0) as [c1|] eqn:Ec; [|exact I]. cbn [rbind]. apply IH; [intros p Hp; apply Hl; now right|].
      assert (In (arm, wv) (fw (s_f s))) as Hin by (apply Hl; now left).
      destruct (coadd_one_spent _ _ _ _ _ _ j Ec C1 C2) as (K1 & K2 & K3 & K4); [congruence| |rewrite K3, K4; auto].
      intros k z u Ez En Eu. rewrite nth_error_map in Ez. destruct (nth_error wv k) as [y|] eqn:Ey; [|discriminate]. cbn in Ez. injection Ez as <-.
      assert (Gd y) as (ky & Hy). { rewrite Forall_forall in G. specialize (G _ Hin). cbn [snd] in G. rewrite Forall_forall in G. apply G. now apply nth_error_In in Ey. }
      assert (mn <= y)%Qc as Hle by (apply (min_le_all _ _ _ Asc E1 E3 arm wv y Hin); now apply nth_error_In in Ey).
      assert (k1 <= ky)%Z as Hkk.
      { apply zq_le. rewrite Hmn, Hy in Hle. destruct (Qclt_le_dec (zq ky) (zq k1)) as [C|C]; [|exact C]. exfalso. clear - C Hdw Hle. assert (zq ky * dw < zq k1 * dw)%Qc by qnra. qlra. }
      assert (y = mn + zq (ky - k1) * dw)%Qc as Hy'. { rewrite Hmn, Hy. replace (ky - k1)%Z with (ky + - k1)%Z by lia. rewrite zq_plus, zq_opp. ring. }
      rewrite Hy', pix_idx_exact in En by lia.
      assert (Z.of_nat j = ky - k1)%Z as Hj.
      { unfold norm_idx in En. destruct (_ && _) in En; [injection En as <-; lia|]. destruct (Z.ltb_spec (ky - k1) 0); [lia|discriminate]. }
      apply (H3 arm k y u); [unfold at_pix; rewrite (In_pair_dget _ _ _ N Hin); exact Ey| |unfold at_pix; rewrite Ew; exact Eu].
      rewrite (Hlin j x Ex), Hj in Dx. now rewrite Hy'. }
    apply L; [apply incl_refl|]. cbn [co_ivar co_norm]. rewrite repeat_length. unfold spent_at. split; [|split; [|now split]]; intros v Ev; left; apply nth_error_In, repeat_spec in Ev; exact Ev. }
  unfold coadd_finish. set (cf := map2 _ (co_norm acc) (co_flux acc)). set (ci := map2 _ (co_norm acc) (co_ivar acc)).
  apply okall_bind. intro cont1. apply okall_bind. intro reso1. match goal with |- context [set_smooth_forestivar smooth dw (s_sscale s) ?t] => set (s1 := t) end.
  assert (fivar (s_f s1) = [("brz"%string, ci)]) as Ei.
  { unfold s1, fivar. cbn [set_cont s_f set_f set_fr new_ivar set_ff set_fw hp ri]. now rewrite app_nth2, Nat.sub_diag by lia. }
  assert (fw (s_f s1) = [("brz"%string, lin)]) as Ew by reflexivity.
  assert (M D (set_smooth_forestivar smooth dw (s_sscale s) s1)) as M2.
  { apply M_smooth_fresh. rewrite Ei, Ew. intros arm j x v Ex Dx Ev. unfold at_pix in Ex, Ev. cbn [dget] in Ex, Ev.
    destruct (String.eqb arm "brz"); [|discriminate]. destruct (Hacc j x Ex Dx) as (S1 & S2 & _). unfold ci in Ev. rewrite nth_error_map2 in Ev.
    destruct (nth_error (co_norm acc) j) as [nn|] eqn:En; [|discriminate]. destruct (nth_error (co_ivar acc) j) as [ii|] eqn:Eii; [|discriminate]. injection Ev as <-.
    rewrite (spent_npos nn (S2 nn En)). exact (S1 ii Eii). }
  pose proof (M_weight D vl e _ M2) as M3. pose proof (weight_w vl e (set_smooth_forestivar smooth dw (s_sscale s) s1)) as K3. unfold wkeeps in K3.
  destruct (set_forest_weight vl e _) as [s3|]; [|exact I]. cbn [rbind okall] in *. apply okall_bind. intro d. cbn [okall].
  rewrite smooth_w in K3. unfold wkey in K3. injection K3 as K3a K3b.
  split; [exact M3|]. cbn [set_msnr s_f]. assert (fw (s_f s3) = [("brz"%string, lin)]) as -> by congruence. split; [repeat constructor; intros []|]. split.
  - constructor; [|constructor]. cbn [snd]. unfold lin. pose proof (linspace_ascending mn mx dw Hdw Hm) as A. replace (grid_n mn mx dw) with (S n) in A by (rewrite Hmx'; symmetry; now apply grid_n_exact). exact A.
  - exists mn. constructor; [|constructor]. cbn [snd]. apply Forall_forall. intros x Hx. apply In_nth_error in Hx as (j & Hx). exists (Z.of_nat j). now apply Hlin.
Qed.
End Coadd.
