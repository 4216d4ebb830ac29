(** num_qso counts arms (C79). *)
From Coq Require Import ZArith String List Bool Arith Lia Qcanon.
From Verif Require Import Num NpList Exn Mpi ModelSubsample ModelSpectrum ModelVarFit SpecVarFit SpecNumQso ProofVarFit4.
Import ListNotations.
Local Open Scope nat_scope.

Lemma flat_nth {A} (f : nat -> nat -> A) nv iv : forall n s k, k < n -> iv < nv ->
  nth_error (flat_map (fun iw => map (f iw) (seq 0 nv)) (seq s n)) (k * nv + iv) = Some (f (s + k) iv).
Proof.
  induction n as [|n IH]; intros s k Hk Hv; [lia|]. cbn [seq flat_map]. destruct k as [|k].
  - cbn [Nat.mul Nat.add]. rewrite nth_error_app1 by (rewrite map_length, seq_length; exact Hv).
    rewrite nth_error_map. assert (nth_error (seq 0 nv) iv = Some iv) as ->.
    { rewrite (nth_error_nth' _ 0) by (rewrite seq_length; exact Hv). rewrite seq_nth by exact Hv. reflexivity. }
    cbn. now rewrite Nat.add_0_r.
  - rewrite nth_error_app2 by (rewrite map_length, seq_length; lia). rewrite map_length, seq_length.
    replace (S k * nv + iv - nv) with (k * nv + iv) by lia. rewrite IH by lia. do 2 f_equal. lia.
Qed.
Lemma arms_in_zero B q : arms_in B q = 0 <-> existsb B (concat q) = false.
Proof.
  unfold arms_in. induction q as [|a q IH]; cbn; [now split|]. rewrite existsb_app. destruct (existsb B a); cbn; [split; discriminate|exact IH].
Qed.
Lemma count_quasars B (m : nat) : forall qs : list quasar,
  quasars_in B qs <= count (existsb B) (concat qs) /\
  ((forall q, In q qs -> arms_in B q <= m) -> count (existsb B) (concat qs) <= m * quasars_in B qs) /\
  ((exists q, In q qs /\ 2 <= arms_in B q) -> quasars_in B qs < count (existsb B) (concat qs)).
Proof.
  induction qs as [|q qs (IH1 & IH2 & IH3)]; [cbn; split; [lia|]; split; [lia|intros (q & [] & _)]|].
  unfold quasars_in, count in *. cbn [concat filter]. rewrite filter_app, app_length.
  change (length (filter (existsb B) q)) with (arms_in B q). pose proof (arms_in_zero B q) as Z. destruct (existsb B (concat q)) eqn:E.
  - assert (arms_in B q <> 0) as NZ by (intro H; apply Z in H; discriminate). cbn [length]. split; [lia|]. split.
    + intro H. specialize (IH2 (fun x Hx => H x (or_intror Hx))). pose proof (H q (or_introl eq_refl)). lia.
    + intros (x & [<-|Hx] & H); [lia|]. specialize (IH3 (ex_intro _ x (conj Hx H))). lia.
  - assert (arms_in B q = 0) as Q by now apply Z. rewrite Q. split; [lia|]. split.
    + intro H. specialize (IH2 (fun x Hx => H x (or_intror Hx))). lia.
    + intros (x & [<-|Hx] & H); [lia|]. specialize (IH3 (ex_intro _ x (conj Hx H))). lia.
Qed.
Lemma concat_ranks {A} (f : nat -> list (list A)) l : concat (map (fun r => concat (f r)) l) = concat (concat (map f l)).
Proof. induction l as [|a l IH]; cbn; [reflexivity|]. now rewrite concat_app, IH. Qed.

Theorem num_qso_thm size w1 w2 nw nv edges nsub usecov (qs : nat -> list quasar) :
  1 <= size -> (w1 < w2)%Qc -> 1 <= nw -> good_edges nv edges -> 1 <= subsamples nsub nv ->
  exists vs : nat -> vfit,
    spmd size (collect size w1 w2 nw nv edges nsub usecov (fun r => concat (qs r))) = Done (map (fun r => Finished (vs r)) (seq 0 size)) /\
    forall r iw iv, r < size -> iw < nw -> iv < nv ->
      let B := in_lss_bin w1 w2 nw edges iw iv in let all := concat (map qs (seq 0 size)) in
      exists k, nth_error (num_qso (vs r)) (iw * nv + iv) = Some k /\ quasars_in B all <= k /\
        (forall m, (forall q, In q all -> arms_in B q <= m) -> k <= m * quasars_in B all) /\
        ((exists q, In q all /\ 2 <= arms_in B q) -> quasars_in B all < k).
Proof.
  intros H1 H2 H3 H4 H5. destruct (collect_all size w1 w2 nw nv edges nsub usecov (fun r => concat (qs r)) H1 H2 H3 H4 H5) as (vs & E & S).
  exists vs. split; [exact E|]. intros r iw iv Hr Hw Hv B all. destruct (S r Hr) as ((_ & N & _) & _). rewrite N. unfold by_bin.
  rewrite (flat_nth _ _ _ nw 0 iw Hw Hv). cbn [Nat.add]. eexists. split; [reflexivity|]. unfold bin_arms. fold B. rewrite concat_ranks. fold all.
  split; [apply (count_quasars B 0)|]. split; [intro m; apply (count_quasars B m)|apply (count_quasars B 0)].
Qed.
