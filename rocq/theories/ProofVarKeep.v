(** What the statistics of a VarLSSFitter leave alone: a reset brings back the state of before. *)
From Coq Require Import ZArith String List Bool Arith Lia Qcanon.
From Verif Require Import Num NpList Exn Dict Mpi ModelSubsample ModelVarFit ProofCatalog.
Import ListNotations.
Local Open Scope nat_scope.

Definition keeps4 (s s' : sub) : Prop :=
  nsamples s' = nsamples s /\ nset s' = nset s /\ ndata s' = ndata s /\ istart s' = istart s.
Lemma keeps4_refl s : keeps4 s s. Proof. now repeat split. Qed.
Lemma keeps4_trans a b c : keeps4 a b -> keeps4 b c -> keeps4 a c.
Proof. intros (? & ? & ? & ?) (? & ? & ? & ?). repeat split; congruence. Qed.
Lemma ensure_keeps4 b s : keeps4 s (ensure_mean b s).
Proof. destruct s as [n1 n2 n3 i1 i2 m w nrm mean cov var xd]. destruct mean; [now repeat split|]. destruct nrm; now repeat split. Qed.
Lemma var_keeps4 b s : keeps4 s (fst (get_mean_n_var b s)).
Proof.
  unfold get_mean_n_var. pose proof (ensure_keeps4 b s) as K. destruct (ensure_mean b s) as [n1 n2 n3 i1 i2 m w nrm mean cov var xd].
  cbn. destruct xd; [|exact K]. destruct mean; exact K.
Qed.
Lemma cov_loop_keeps4 b idx : forall s acc, keeps4 s (fst (cov_loop b idx s acc)).
Proof.
  induction idx as [|j idx IH]; intros s acc; [now repeat split|]. cbn. destruct (s_xdiff s) eqn:E; [|now repeat split].
  destruct (negb _); [now repeat split|]. apply (IH s).
Qed.
Lemma cov_keeps4 ix b c s : keeps4 s (fst (get_mean_n_cov ix b c s)).
Proof.
  unfold get_mean_n_cov. pose proof (ensure_keeps4 c s) as K. set (s1 := ensure_mean c s) in *.
  destruct (match b with Some _ => _ | None => _ end); [exact K|].
  match goal with |- context [cov_loop ?B ?I ?S ?A] => pose proof (cov_loop_keeps4 B I S A) as K2; destruct (cov_loop B I S A) as [s2 r] end.
  cbn [fst] in K2. assert (keeps4 s s2) by now apply keeps4_trans with s1.
  destruct r; [|assumption]. destruct (s_mean s2); [|assumption]. destruct (s_cov s2); assumption.
Qed.
Lemma add_keeps4 x w s : keeps4 s (fst (add_measurement x w s)).
Proof. unfold add_measurement. destruct (normalized s); now repeat split. Qed.

Lemma sub_reset_keeps s s' : keeps4 s s' -> sub_reset s' = sub_reset s.
Proof. intros (E1 & E2 & E3 & E4). unfold sub_reset. congruence. Qed.
Lemma local_stats_reset v v' : local_stats v = Ok v' -> vfit_reset v' = vfit_reset v.
Proof.
  unfold local_stats. pose proof (var_keeps4 false (v_sub v)) as K. destruct (get_mean_n_var false (v_sub v)) as [s r].
  cbn [fst] in K. intro H. apply rbind_Ok in H as ([m var] & _ & H). destruct (v_usecov v) eqn:U.
  - pose proof (cov_keeps4 (Some [0; 1]) (Some (v_nv v + 2)) false s) as K2. destruct (get_mean_n_cov _ _ _ s) as [s' r'].
    cbn [fst] in K2. destruct r'; [|discriminate]. cbn [rmap rbind] in H.
    assert (keeps4 (v_sub v) s') as K3 by now apply keeps4_trans with s.
    destruct (s_cov s') as [[|[[|]|] [|[[|]|] [|? [|? [|]]]]]|]; try discriminate. injection H as <-.
    unfold vfit_reset, v_set. cbn. f_equal. now apply sub_reset_keeps.
  - cbn [rbind] in H. injection H as <-. unfold vfit_reset, v_set. cbn. f_equal. now apply sub_reset_keeps.
Qed.
(** everything but the counts *)
Definition rest (v : vfit) := (v_nw v, v_nv v, v_wave v, v_dw v, v_edges v, v_usecov v, v_valid v, sub_reset (v_sub v)).
Lemma add_rest w d i v : rest (fst (vfit_add w d i v)) = rest v.
Proof.
  unfold vfit_add. destruct (v_wave v); [reflexivity|]. destruct (_ || _); [reflexivity|]. cbv zeta.
  destruct (negb _); [reflexivity|].
  match goal with |- context [add_measurement ?X ?W ?S] => pose proof (add_keeps4 X W S) as K; destruct (add_measurement X W S) as [s r] end.
  cbn [fst] in K. destruct r; unfold rest, v_set; cbn; now rewrite (sub_reset_keeps _ _ K).
Qed.
Lemma add_all_rest l : forall v v', vfit_add_all l v = Ok v' -> rest v' = rest v.
Proof.
  induction l as [|[[w d] i] l IH]; intros v v' H; cbn in H; [now injection H as <-|].
  pose proof (add_rest w d i v) as R. destruct (vfit_add w d i v) as [v1 ok]. apply rbind_Ok in H as (? & _ & H).
  rewrite (IH _ _ H). exact R.
Qed.
