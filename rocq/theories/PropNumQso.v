(** C79: the number of quasars in a bin of the variance statistics. *)
From Coq Require Import ZArith QArith String List Bool Arith Lia Qcanon.
From Verif Require Import Num NpList Exn Mpi ModelSubsample ModelVarFit SpecVarFit SpecNumQso PropVarFit ProofNumQso.
Import ListNotations.
Local Open Scope nat_scope.

(** If the arms of the quasars of all ranks are added one by one, num_qso of a bin is on every rank at least the number
    of quasars that have a pixel in the bin, at most m times this number if no quasar has more than m arms with pixels in
    it (so exactly this number for m = 1), and larger as soon as one quasar has two. *)
Theorem C79_bounds : forall size w1 w2 nw nv edges nsub usecov (qs : nat -> list quasar),
  1 <= size -> (w1 < w2)%Qc -> 1 <= nw -> good_edges nv edges -> 1 <= subsamples nsub nv ->
  exists vs : nat -> vfit,
    spmd size (collect size w1 w2 nw nv edges nsub usecov (fun r => concat (qs r))) = Done (map (fun r => Finished (vs r)) (seq 0 size)) /\
    forall r iw iv, r < size -> iw < nw -> iv < nv ->
      let B := in_lss_bin w1 w2 nw edges iw iv in let all := concat (map qs (seq 0 size)) in
      exists k, nth_error (num_qso (vs r)) (iw * nv + iv) = Some k /\ quasars_in B all <= k /\
        (forall m, (forall q, In q all -> arms_in B q <= m) -> k <= m * quasars_in B all) /\
        ((exists q, In q all /\ 2 <= arms_in B q) -> quasars_in B all < k).
Proof. exact num_qso_thm. Qed.
Print Assumptions C79_bounds.

(** the arms of [ex_arms]: one quasar on each rank, the second with two arms *)
Definition two_quasars (r : nat) : list quasar := [ex_arms r].
Example C79_ex :
  good_edges 5 ex_edges /\ 1 <= subsamples (Some 3) 5 /\ (zq 10 < zq 30)%Qc /\
  let B := in_lss_bin (zq 10) (zq 30) 2 ex_edges in let all := concat (map two_quasars (seq 0 2)) in
  map (fun q => (arms_in (B 0 1) q, arms_in (B 0 4) q)) all = [(1, 0); (0, 2)] /\
  quasars_in (B 0 1) all = 1 /\ quasars_in (B 0 4) all = 1 /\
  match spmd 2 (collect 2 (zq 10) (zq 30) 2 5 ex_edges (Some 3) false (fun r => concat (two_quasars r))) with
  | Done [Finished a; Finished b] => nth_error (num_qso a) 1 = Some 1 /\ nth_error (num_qso a) 4 = Some 2 /\ num_qso b = num_qso a
  | _ => False
  end.
Proof. destruct C42_ex as (A & B & C & _). split; [exact A|]. split; [exact B|]. split; [exact C|]. vm_compute. repeat split. Qed.

Lemma two_arms : exists q, In q (concat (map two_quasars (seq 0 2))) /\ 2 <= arms_in (in_lss_bin (zq 10) (zq 30) 2 ex_edges 0 4) q.
Proof. exists (ex_arms 1). split; [right; left; reflexivity|]. vm_compute. lia. Qed.
Lemma two_counted : ~ (forall (qs : nat -> list quasar) vs,
    spmd 2 (collect 2 (zq 10) (zq 30) 2 5 ex_edges (Some 3) false (fun r => concat (qs r))) = Done (map (fun r => Finished (vs r)) (seq 0 2)) ->
    nth_error (num_qso (vs 0)) 4 = Some (quasars_in (in_lss_bin (zq 10) (zq 30) 2 ex_edges 0 4) (concat (map qs (seq 0 2))))).
Proof.
  intro H. destruct C79_ex as (A & B & C & _).
  destruct (num_qso_thm 2 (zq 10) (zq 30) 2 5 ex_edges (Some 3) false two_quasars ltac:(lia) C ltac:(lia) A B) as (vs & E & K).
  specialize (H two_quasars vs E). destruct (K 0 0 4 ltac:(lia) ltac:(lia) ltac:(lia)) as (k & N & _ & _ & L). cbn [Nat.mul Nat.add] in N.
  specialize (L two_arms). assert (k = quasars_in (in_lss_bin (zq 10) (zq 30) 2 ex_edges 0 4) (concat (map two_quasars (seq 0 2)))) by congruence. lia.
Qed.
(** num_qso is not the number of quasars: a quasar counts once for each of its arms. *)
Theorem C79_quasars_refuted : ~ (forall (qs : nat -> list quasar) vs,
    spmd 2 (collect 2 (zq 10) (zq 30) 2 5 ex_edges (Some 3) false (fun r => concat (qs r))) = Done (map (fun r => Finished (vs r)) (seq 0 2)) ->
    nth_error (num_qso (vs 0)) 4 = Some (quasars_in (in_lss_bin (zq 10) (zq 30) 2 ex_edges 0 4) (concat (map qs (seq 0 2))))).
Proof. exact two_counted. Qed.
Print Assumptions C79_quasars_refuted.
