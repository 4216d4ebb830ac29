(** Lemmas for C61. *)
From Coq Require Import ZArith String List Bool Arith Lia Qcanon.
From Verif Require Import Num NpList Exn Dict Mpi ModelSpectrum ModelContinuum ModelVarFit ModelStack ModelFitter ModelChi2 SpecMpi SpecFinal SpecChi2
  ProofMpi ProofLock ProofExposures3 ProofMasks3.
Import ListNotations.
Local Open Scope nat_scope.

Lemma assign_ok n v : length v = n \/ length v = 1 -> exists w, assign n v = Ok w.
Proof.
  unfold assign. intro H. destruct (Nat.eqb_spec (length v) n); [eauto|]. destruct v as [|x [|y v]]; cbn in *; try lia. eauto.
Qed.
Lemma assign_spec n v w : assign n v = Ok w -> length w = n /\ forall k, k < n -> nth_error w k = component v k.
Proof.
  unfold assign, component. destruct (Nat.eqb_spec (length v) n) as [E|E].
  - intro H. injection H as <-. split; [exact E|]. intros k Hk. destruct v as [|x [|y v]]; try reflexivity.
    cbn in E. replace k with 0 by lia. reflexivity.
  - destruct v as [|x [|y v]]; try discriminate. intro H. injection H as <-. rewrite repeat_length. split; [reflexivity|].
    intros k Hk. now apply nth_error_repeat.
Qed.
Lemma nth_concat (c : mat) n : Forall (fun r => length r = n) c -> forall i j, j < n ->
  nth_error (concat c) (i * n + j) = match nth_error c i with Some r => nth_error r j | None => None end.
Proof.
  induction 1 as [|r c Hr _ IH]; intros i j Hj.
  - now destruct i, (_ + _), j.
  - cbn [concat]. destruct i as [|i]; cbn [nth_error Nat.mul Nat.add].
    + rewrite nth_error_app1 by lia. reflexivity.
    + rewrite nth_error_app2 by lia. replace (n + i * n + j - length r) with (i * n + j) by lia. now apply IH.
Qed.
Lemma concat_len (c : mat) n : Forall (fun r => length r = n) c -> length (concat c) = length c * n.
Proof. induction 1 as [|r c Hr _ IH]; [reflexivity|]. cbn. rewrite app_length. lia. Qed.
Lemma xcov_spec n c k w : square k c -> assign (n * n) (concat c) = Ok w ->
  length w = n * n /\ forall i j, i < n -> j < n -> nth_error w (i * n + j) = matrix_component c i j.
Proof.
  intros (L & F) H. assert (LC : length (concat c) = k * k) by (rewrite (concat_len c k F), L; reflexivity).
  assert (K : k = n \/ k = 1).
  { unfold assign in H. rewrite LC in H. destruct (Nat.eqb_spec (k * k) (n * n)); [left; nia|].
    destruct (concat c) as [|x [|]]; try discriminate. right. destruct k as [|[|k]]; cbn in LC; lia. }
  apply assign_spec in H as (A & B). split; [exact A|]. intros i j Hi Hj. rewrite B by nia.
  unfold component, matrix_component.
  destruct (Nat.eq_dec k 1) as [->|K1].
  - destruct c as [|r [|]]; try discriminate. inversion_clear F as [|? ? Hr _]. destruct r as [|x [|]]; try discriminate. reflexivity.
  - destruct K as [->|]; [|lia].
    transitivity (nth_error (concat c) (i * n + j)).
    + destruct (concat c) as [|x [|]] eqn:E; try reflexivity. exfalso. destruct n as [|[|n]]; cbn in LC; lia.
    + rewrite (nth_concat c n F i j Hj). destruct c as [|[|x [|]] [|]]; try reflexivity. cbn in L. lia.
Qed.

Lemma substring_all s n : String.length s <= n -> substring 0 n s = s.
Proof. revert n. induction s as [|a s IH]; intros n H; destruct n; cbn in *; try reflexivity; try lia. f_equal. apply IH. lia. Qed.
Lemma snr_spec m w : snr_column m = Ok w -> length w = 3 /\
  forall k, k < 3 -> nth_error w k = Some (match nth_error m k with Some (_, v) => v | None => n0 end).
Proof.
  unfold snr_column. destruct (Nat.leb_spec (length m) 3) as [L|]; [|discriminate]. intro H.
  assert (W : w = dvals m ++ repeat n0 (3 - length m)) by congruence. subst w. clear H.
  assert (LM : length (dvals m) = length m) by apply map_length.
  split; [rewrite app_length, repeat_length; lia|]. intros k Hk. destruct (Nat.lt_ge_cases k (length m)) as [H|H].
  - rewrite nth_error_app1 by lia. unfold dvals. rewrite nth_error_map. destruct (nth_error m k) as [[a v]|] eqn:E; [reflexivity|].
    apply nth_error_None in E. lia.
  - rewrite nth_error_app2 by lia. rewrite nth_error_repeat by lia. now rewrite (proj2 (nth_error_None m k) H).
Qed.
Lemma row_spec rank n e row : (exists k, square k (e_xcov e)) -> chi2_row rank n e = Ok row -> describes rank n e row.
Proof.
  intros (k & S). unfold chi2_row. destruct (s_msnr (e_spec e)) as [m|] eqn:Em; [|discriminate]. cbn [of_option rbind].
  destruct (snr_column m) as [snr|] eqn:E1; [|discriminate]. destruct (assign n (s_x (e_spec e))) as [x|] eqn:E2; [|discriminate].
  destruct (assign (n * n) (concat (e_xcov e))) as [xc|] eqn:E3; [|discriminate]. cbn [rbind]. intro H. injection H as <-.
  apply snr_spec in E1 as (A1 & B1). apply assign_spec in E2 as (A2 & B2). apply (xcov_spec n _ k) in E3 as (A3 & B3); [|exact S].
  unfold describes. cbn. repeat (split; [reflexivity|]). split; [|now repeat split].
  exists m. split; [exact Em|]. split; [|now split]. intro L. now apply substring_all.
Qed.
Lemma row_ok rank n e : fits_row n e -> exists row, chi2_row rank n e = Ok row /\ describes rank n e row.
Proof.
  intros ((m & Em & Lm) & Hx & Hc). assert (S : exists k, square k (e_xcov e)) by (destruct Hc; eauto).
  destruct (assign_ok n _ Hx) as (x & Ex).
  assert (C : exists xc, assign (n * n) (concat (e_xcov e)) = Ok xc).
  { apply assign_ok. destruct Hc as [(L & F)|(L & F)]; rewrite (concat_len _ _ F), L; auto. }
  destruct C as (xc & Ec). 
  assert (E : exists row, chi2_row rank n e = Ok row).
  { unfold chi2_row. rewrite Em. cbn [of_option rbind]. unfold snr_column. rewrite (proj2 (Nat.leb_le _ _) Lm). cbn [rbind].
    rewrite Ex. cbn [rbind]. rewrite Ec. cbn [rbind]. eauto. }
  destruct E as (row & E). exists row. split; [exact E|]. now apply row_spec.
Qed.

Lemma fold_app {A} (l : list (list A)) x : fold_left (@app A) l x = x ++ concat l.
Proof. revert x. induction l as [|y l IH]; intro x; cbn; [now rewrite app_nil_r|]. now rewrite IH, app_assoc. Qed.
Lemma gather_concat {A} n (rows : nat -> list A) : 1 <= n ->
  fold_left (@app A) (map rows (seq 1 (n - 1))) (rows 0) = concat (map rows (seq 0 n)).
Proof. intro H. rewrite fold_app. destruct n; [lia|]. cbn. now rewrite Nat.sub_0_r. Qed.

Lemma safe_row rank n e : safe (chi2_row rank n e).
Proof.
  unfold chi2_row. destruct (s_msnr _) as [m|]; cbn; [|exact I]. unfold snr_column. destruct (Nat.leb _ _); cbn; [|exact I].
  unfold assign. destruct (Nat.eqb _ _); cbn.
  - destruct (Nat.eqb _ _); cbn; [exact I|]. now destruct (concat _) as [|? [|]].
  - destruct (s_x _) as [|? [|]]; cbn; try exact I. destruct (Nat.eqb _ _); cbn; [exact I|]. now destruct (concat _) as [|? [|]].
Qed.
Lemma safe_rseq {A B} (f : A -> res B) l : (forall x, safe (f x)) -> safe (rseq (map f l)).
Proof.
  intro H. induction l as [|x l IH]; [exact I|]. cbn. pose proof (H x). destruct (f x); [|assumption]. cbn.
  now destruct (rseq (map f l)).
Qed.
Lemma ends_thm writes np n l : 1 <= n -> (forall r e, r < n -> In e (l r) -> exists k, square k (e_xcov e)) ->
  together n (fun r => save_contchi2_catalog true writes np r (l r)) (the_table n np l).
Proof.
  intros Hn Hs. unfold save_contchi2_catalog.
  apply (together_bind n _ _ (fun rows => forall r, r < n -> rseq (map (chi2_row r np) (l r)) = Ok (rows r))); [assumption| |].
  - apply together_local; [assumption| |].
    + intros r _. apply safe_rseq. intro. apply safe_row.
    + intros g Hg. exact Hg.
  - intros rows Hr. apply together_allreduce; [assumption|]. rewrite gather_concat by assumption.
    apply (together_ext n _ (fun r => of_res (if Nat.eqb r 0 then if writes then Ok (Some (concat (map rows (seq 0 n)))) else Err (OtherExn "OSError") else Ok None))).
    { intros r _. destruct (Nat.eqb r 0); [|reflexivity]. now destruct writes. }
    apply together_local; [assumption| |].
    + intros r _. destruct (Nat.eqb r 0); [|exact I]. now destruct writes.
    + intros g Hg. exists rows. split.
      * intros r H. specialize (Hr r H). apply rseq_map_ok in Hr. revert Hr. specialize (Hs r). revert Hs. generalize (rows r). 
        generalize (l r). intros lr rr Hs F. induction F as [|e row lr rr E F IH]; constructor.
        -- apply row_spec; [|exact E]. apply Hs; [assumption|now left].
        -- apply IH. intros e' H1 H2. apply Hs; [assumption|now right].
      * split.
        -- specialize (Hg 0 ltac:(lia)). cbn in Hg. destruct writes; [now injection Hg as <-|discriminate].
        -- intros r H. specialize (Hg r ltac:(lia)). destruct (Nat.eqb_spec r 0); [lia|]. now injection Hg as <-.
Qed.
Lemma catalog_thm np n l : 1 <= n -> (forall r e, r < n -> In e (l r) -> fits_row np e) ->
  exists f, finishes n (fun r => save_contchi2_catalog true true np r (l r)) f /\ the_table n np l f.
Proof.
  intros Hn H.
  assert (R : exists rows, forall r, r < n -> rseq (map (chi2_row r np) (l r)) = Ok (rows r)).
  { exists (fun r => match rseq (map (chi2_row r np) (l r)) with Ok x => x | Err _ => [] end). intros r Hr.
    destruct (rseq_ok (chi2_row r np) (describes r np) (l r)) as (x & E & _); [|now rewrite E].
    apply Forall_forall. intros e He. apply row_ok. eauto. }
  destruct R as (rows & R).
  assert (Fi : finishes n (fun r => save_contchi2_catalog true true np r (l r))
                 (fun r => if Nat.eqb r 0 then Some (concat (map rows (seq 0 n))) else None)).
  { unfold finishes, save_contchi2_catalog.
    rewrite (spmd_ext n _ (fun r => Allreduce (@app chi2row) (rows r) (fun all => if Nat.eqb r 0 then Ret (Some all) else Ret None))).
    - rewrite spmd_allreduce, gather_concat by assumption.
      rewrite (spmd_ext n _ (fun r => Ret (if Nat.eqb r 0 then Some (concat (map rows (seq 0 n))) else None))).
      + apply spmd_ret.
      + intros r _. now destruct (Nat.eqb r 0).
    - intros r Hr. rewrite (R r Hr). reflexivity. }
  eexists. split; [exact Fi|]. exists rows. split.
  - intros r Hr. destruct (rseq_ok (chi2_row r np) (describes r np) (l r)) as (x & E & F).
    + apply Forall_forall. intros e He. apply row_ok. eauto.
    + rewrite (R r Hr) in E. injection E as ->. exact F.
  - split; [reflexivity|]. intros r Hr. destruct (Nat.eqb_spec r 0); [lia|reflexivity].
Qed.

(** ** what leaves the fit *)
Lemma weight_shape v e s s' : set_forest_weight v e s = Ok s' -> exists f, s' = set_f f s.
Proof.
  unfold set_forest_weight. destruct (_ || _); [intro H; injection H as <-; eauto|].
  match goal with |- rbind ?a _ = _ -> _ => destruct a end; [|discriminate]. cbn [rbind]. intro H. injection H as <-. eauto.
Qed.
Lemma chi2_shape s s' : calc_continuum_chi2 s = Ok s' -> exists x, s' = set_chi2 x s.
Proof.
  unfold calc_continuum_chi2. destruct (_ || _); [intro H; injection H as <-; eauto|].
  match goal with |- rbind ?a _ = _ -> _ => destruct a end; [|discriminate]. cbn [rbind]. intro H. injection H as <-. eauto.
Qed.
Lemma tail_shape {B} v e s (k : spec -> B) b : rbind (set_forest_weight v e s) (fun s2 => rbind (calc_continuum_chi2 s2) (fun s3 => Ok (k s3))) = Ok b ->
  exists f x, b = k (set_chi2 x (set_f f s)).
Proof.
  destruct (set_forest_weight v e s) as [s2|] eqn:E; [|discriminate]. apply weight_shape in E as (f & ->). cbn [rbind].
  destruct (calc_continuum_chi2 (set_f f s)) as [s3|] eqn:E; [|discriminate]. apply chi2_shape in E as (x & ->). cbn [rbind].
  intro H. injection H as <-. eauto.
Qed.

Lemma picca_shape mf v e mc sl mini s xcov s' xcov' : picca_fit mf v e mc sl mini s xcov = Ok (s', xcov') ->
  same_quasar s s' /\ (s_valid s' = false -> s_chi2 s' = Fin (- (1))) /\
  ((s_x s' = s_x s /\ xcov' = xcov) \/ exists a0 r, mini s a0 = Ok r /\ m_valid r = true /\ s_x s' = m_x r /\ xcov' = m_xcov r).
Proof.
  unfold picca_fit. destruct (get_a0 s) as [a0|]; [|discriminate]. cbn [rbind]. destruct (mini s a0) as [r|] eqn:Er; [|discriminate]. cbn [rbind].
  set (s1 := if m_valid r then _ else _). intro H. apply tail_shape in H as (f & x & H).
  assert (Q : same_quasar s s1 /\ s_x s1 = s_x s /\ (s_valid s1 = true -> m_valid r = true)).
  { unfold s1. destruct (m_valid r) eqn:Ev; [|now repeat split]. destruct (picca_arms _ _ _ _ _ _ _) as [ok cont]. now repeat split. }
  destruct Q as (Q & X & V). clearbody s1. cbn [s_valid set_chi2 set_f] in H. destruct (s_valid s1) eqn:Ev; injection H as -> ->.
  - split; [exact Q|]. split; [cbn; congruence|]. right. exists a0, r. auto.
  - split; [exact Q|]. split; [reflexivity|]. left. split; [exact X|reflexivity].
Qed.
Lemma input_shape mf v e cubic s s' : input_fit mf v e cubic s = Ok s' ->
  same_quasar s s' /\ (s_valid s' = false -> s_chi2 s' = Fin (- (1))) /\ s_x s' = s_x s.
Proof.
  unfold input_fit. destruct (s_valid s) eqn:Ev; cbn [negb].
  - destruct (input_arms _ _ _ _ _) as [ok cont]. intro H. apply tail_shape in H as (f & x & ->). destruct ok; cbn.
    + rewrite Ev. split; [now repeat split|]. split; [cbn; congruence|reflexivity].
    + now repeat split.
  - intro H. injection H as <-. now repeat split.
Qed.
Lemma true_shape mf v cubic s s' : true_fit mf v cubic s = Ok s' -> same_quasar s s' /\ s_valid s' = s_valid s /\ s_x s' = s_x s.
Proof.
  unfold true_fit. intro H. destruct (set_forest_weight _ _ _) as [s2|] eqn:E; [|discriminate]. apply weight_shape in E as (f & ->). cbn [rbind] in H.
  apply chi2_shape in H as (x & ->). now repeat split.
Qed.

Section Fits.
Variable g : config.
Variable ev : interp -> Qc -> num.
Variables meanflux slope : Qc -> num.
Variable minimizer : interp -> interp -> interp -> spec -> num -> option minres.
Variable input_cont : spec -> option (Qc -> num).
Variable true_cont : spec -> Qc -> num.
Notation init := (init_one g input_cont).
Notation fit := (fit_one g ev meanflux slope minimizer input_cont true_cont).
Notation np := (S (eff_order g)).
Definition sized (sx : specx) : Prop := length (s_x (fst sx)) = np /\ square np (snd sx).
Lemma square_eye n : square n (eye n).
Proof.
  unfold eye. split; [now rewrite map_length, seq_length|]. apply Forall_forall. intros r H. apply in_map_iff in H as (i & <- & _).
  now rewrite map_length, seq_length.
Qed.
Lemma init_shape sx a : init sx = Ok a -> sized a /\ same_quasar (fst sx) (fst a) /\ (g_model g = TrueCont -> s_valid (fst a) = true).
Proof.
  unfold init_one, sized, eff_order. destruct (g_model g).
  - unfold picca_init. destruct (s_x (fst sx)) as [|x0 r]; [discriminate|]. intro H. injection H as <-. cbn [fst snd s_x set_x].
    cbn [length]. rewrite repeat_length. split; [split; [reflexivity|apply square_eye]|]. split; [now repeat split|discriminate].
  - intro H. injection H as <-. split; [split; [reflexivity|apply square_eye]|]. split; [now repeat split|discriminate].
  - intro H. injection H as <-. split; [split; [reflexivity|apply square_eye]|]. now repeat split.
Qed.
Hypothesis sizes : forall c v e s a0 r, g_model g = Picca -> minimizer c v e s a0 = Some r -> m_valid r = true ->
  length (m_x r) = np /\ square np (m_xcov r).
Lemma fit_shape t a b : fit t a = Ok b -> sized a -> (g_model g = TrueCont -> s_valid (fst a) = true) ->
  sized b /\ same_quasar (fst a) (fst b) /\ (s_valid (fst b) = false -> s_chi2 (fst b) = Fin (- (1))) /\
  (g_model g = TrueCont -> s_valid (fst b) = true).
Proof.
  destruct a as [s xcov], b as [s' xcov']. unfold fit_one. destruct (g_model g) eqn:Eg; intros H (S1 & S2) HV.
  - apply picca_shape in H as (A & B & C). split; [|split; [exact A|split; [exact B|discriminate]]].
    destruct C as [[C1 C2]|(a0 & r & C1 & C2 & C3 & C4)].
    + split; cbn in *; congruence.
    + unfold of_option in C1. destruct (minimizer _ _ _ _ _) eqn:E; [|discriminate]. injection C1 as ->.
      destruct (sizes _ _ _ _ _ _ eq_refl E C2). split; cbn; congruence.
  - destruct (input_fit _ _ _ _ _) as [x|] eqn:E; [|discriminate]. cbn in H. injection H as -> ->.
    apply input_shape in E as (A & B & C). split; [split; cbn in *; congruence|]. split; [exact A|]. split; [exact B|discriminate].
  - destruct (true_fit _ _ _ _) as [x|] eqn:E; [|discriminate]. cbn in H. injection H as -> ->.
    apply true_shape in E as (A & B & C). specialize (HV eq_refl). cbn in HV. split; [split; cbn in *; congruence|]. split; [exact A|].
    cbn [fst]. split; congruence.
Qed.
End Fits.

Lemma fitted_thm g ev meanflux slope minimizer input_cont true_cont :
  (forall c v e s a0 r, g_model g = Picca -> minimizer c v e s a0 = Some r -> m_valid r = true ->
     length (m_x r) = S (eff_order g) /\ square (S (eff_order g)) (m_xcov r)) ->
  forall sx k b, fitted (init_one g input_cont) (fit_one g ev meanflux slope minimizer input_cont true_cont) sx k b ->
  same_quasar (fst sx) (fst b) /\
  (1 <= k -> s_valid (fst b) = false -> s_chi2 (fst b) = Fin (- (1))) /\
  (forall m dof, s_msnr (fst sx) = Some m -> length m <= 3 -> fits_row (S (eff_order g)) (mkEntry (fst b) (snd b) dof)).
Proof.
  intros Hm sx k b F.
  assert (G : sized g b /\ same_quasar (fst sx) (fst b) /\ (g_model g = TrueCont -> s_valid (fst b) = true) /\
              (1 <= k -> s_valid (fst b) = false -> s_chi2 (fst b) = Fin (- (1)))).
  { induction F as [sx a E|sx k t a b F IH E].
    - apply init_shape in E as (A & B & C). split; [exact A|]. split; [exact B|]. split; [exact C|lia].
    - destruct IH as (A & (B1 & B2 & B3) & C & _). apply (fit_shape g ev meanflux slope minimizer input_cont true_cont Hm) in E as (A' & (D1 & D2 & D3) & E' & F'); [|assumption|assumption].
      split; [exact A'|]. split; [|split; [exact F'|intros _; exact E']]. unfold same_quasar. repeat split; congruence. }
  destruct G as ((S1 & S2) & (Q1 & Q2 & Q3) & _ & X). split; [now repeat split|]. split; [exact X|].
  intros m dof Em Lm. split; [exists m; cbn; split; [congruence|exact Lm]|]. cbn. split; [left; exact S1|left; exact S2].
Qed.
