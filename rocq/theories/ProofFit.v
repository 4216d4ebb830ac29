(** Proofs about the blinding decision and the options of qsonic-fit. *)
From Coq Require Import ZArith String List Bool Arith Lia Qcanon Permutation.
From Verif Require Import Num NpList NpListFacts Exn Dict Mpi ProofMpi ModelSpectrum ModelBlinding ModelFitArgs SpecFit.
Import ListNotations.
Local Open Scope nat_scope.

Lemma fold_max_spec l : forall x, (In (fold_left Z.max l x) (x :: l)) /\
  (forall y, In y (x :: l) -> (y <= fold_left Z.max l x)%Z).
Proof.
  induction l as [|a l IH]; intro x; cbn [fold_left].
  - split; [now left|]. intros y [<-|[]]. lia.
  - destruct (IH (Z.max x a)) as [H1 H2]. split.
    + destruct H1 as [H1|H1]; [|now right; right].
      rewrite <- H1. destruct (Z.max_spec x a) as [[_ ->]|[_ ->]]; [right; now left|now left].
    + intros y [<-|[<-|Hy]].
      * apply Z.le_trans with (Z.max x a); [lia|]. apply H2. now left.
      * apply Z.le_trans with (Z.max x a); [lia|]. apply H2. now left.
      * apply H2. now right.
Qed.
Lemma zmax_list_ok l : l <> [] -> exists m, zmax_list l = Ok m /\ In m l /\ forall y, In y l -> (y <= m)%Z.
Proof.
  destruct l as [|x l]; [easy|]. intros _. exists (fold_left Z.max l x).
  destruct (fold_max_spec l x). now split.
Qed.
Lemma local_ok q : q <> [] -> ~ In [] q ->
  exists m, local_lastnight q = Ok m /\ (exists g, In g q /\ In m g) /\
    forall g y, In g q -> In y g -> (y <= m)%Z.
Proof.
  intros H0 H1.
  assert (exists ms, rseq (map zmax_list q) = Ok ms /\ length ms = length q /\
    (forall m, In m ms -> exists g, In g q /\ In m g) /\
    (forall g y, In g q -> In y g -> exists m, In m ms /\ (y <= m)%Z)) as (ms & E & L & A & B).
  { clear H0. induction q as [|g q IH].
    - exists []. cbn. repeat split; easy.
    - destruct IH as (ms & E & L & A & B); [intro H; apply H1; now right|].
      destruct (zmax_list_ok g) as (m & Em & Im & Mm); [intro H; apply H1; now left|].
      exists (m :: ms). cbn [map rseq rbind rmap]. rewrite Em. cbn [rbind]. rewrite E. cbn [rmap length].
      split; [easy|]. split; [now rewrite L|]. split.
      + intros x [<-|Hx]; [exists g; split; [now left|easy]|].
        destruct (A x Hx) as (g' & G1 & G2). exists g'. split; [now right|easy].
      + intros g' y [<-|Hg] Hy; [exists m; split; [now left|now apply Mm]|].
        destruct (B g' y Hg Hy) as (x & X1 & X2). exists x. split; [now right|easy]. }
  destruct (zmax_list_ok ms) as (m & Em & Im & Mm).
  { intro H. apply H0. rewrite H in L. now destruct q. }
  exists m. unfold local_lastnight. rewrite E. cbn [rbind]. split; [easy|]. split; [now apply A|].
  intros g y Hg Hy. destruct (B g y Hg Hy) as (x & X1 & X2). specialize (Mm x X1). lia.
Qed.

Lemma pick_strategy mock fw1 m :
  exists b, strategy_for mock fw1 m b /\
  (if mock || qltb wave_lya fw1 then Ok "none"%string
   else if (m <? 20210514)%Z then Ok "none"%string
   else if (m <? 20210801)%Z then Ok "desi_m2"%string
   else if (m <? 20220801)%Z then Ok "desi_y1"%string
   else Ok "desi_y3"%string) = Ok b.
Proof.
  destruct mock.
  { exists "none"%string. split; [|easy]. unfold strategy_for. split; [tauto|]. repeat split; intuition discriminate. }
  cbn [orb]. destruct (qltb wave_lya fw1) eqn:E.
  { apply qltb_true in E. exists "none"%string. split; [|easy].
    unfold strategy_for, wave_lya in *. split; [tauto|].
    repeat split; try discriminate; intros (_ & H & _); exfalso; revert E; now apply Qcle_not_lt. }
  apply qltb_false in E. unfold wave_lya in E.
  destruct (m <? 20210514)%Z eqn:E1; [|destruct (m <? 20210801)%Z eqn:E2; [|destruct (m <? 20220801)%Z eqn:E3]];
    rewrite ?Z.ltb_lt, ?Z.ltb_ge in *; eexists; (split; [|reflexivity]); unfold strategy_for;
    repeat split; try discriminate; try tauto; try lia; intros H; exfalso;
    try (destruct H as [H|[H|H]]; [discriminate|revert H; now apply Qcle_not_lt|lia]); lia.
Qed.

Lemma in_nth_seq {A} (n : nat) (l : list A) d q : length l = n -> In q l -> exists r, r < n /\ nth r l d = q.
Proof. intros L H. destruct (In_nth l q d H) as (r & R1 & R2). exists r. split; [lia|easy]. Qed.

Lemma blinding_same_ranks n mock skip fw1 queues :
  length queues = n -> 1 <= n -> all_have_rows queues ->
  exists m b st', newest_night queues m /\ strategy_for mock fw1 m b /\
    spmd n (blinding_prog mock skip fw1 queues statics0) = Done (repeat (Finished st') n) /\
    st_blinding st' = Some b /\ st_colnames st' = columns b skip.
Proof.
  intros L Hn Hrows.
  assert (forall r, r < n -> exists m, local_lastnight (nth r queues []) = Ok m /\
    (exists g, In g (nth r queues []) /\ In m g) /\
    forall g y, In g (nth r queues []) -> In y g -> (y <= m)%Z) as Hr.
  { intros r Hr. destruct (Hrows (nth r queues [])) as [A B]; [apply nth_In; lia|]. now apply local_ok. }
  set (v := fun r => match local_lastnight (nth r queues []) with Ok m => m | Err _ => 0%Z end).
  set (m := fold_left Z.max (map v (seq 1 (n - 1))) (v 0)).
  assert (newest_night queues m) as Hm.
  { destruct (fold_max_spec (map v (seq 1 (n - 1))) (v 0)) as [A B]. fold m in A, B.
    assert (map v (seq 0 n) = v 0 :: map v (seq 1 (n - 1))) as E.
    { destruct n as [|k]; [lia|]. cbn [seq map]. now replace (S k - 1) with k by lia. }
    rewrite <- E in A, B. split.
    - apply in_map_iff in A as (r & Er & Ir). apply in_seq in Ir.
      destruct (Hr r) as (x & E1 & (g & G1 & G2) & _); [lia|].
      assert (x = m) as <- by (rewrite <- Er; unfold v; now rewrite E1).
      exists (nth r queues []), g. split; [apply nth_In; lia|now split].
    - intros q g x Hq Hg Hx. destruct (in_nth_seq n queues [] q L Hq) as (r & R1 & <-).
      destruct (Hr r R1) as (y & E1 & _ & M). specialize (M g x Hg Hx).
      apply Z.le_trans with (v r).
      + unfold v. now rewrite E1.
      + apply B. apply in_map. apply in_seq. lia. }
  destruct (pick_strategy mock fw1 m) as (b & Sb & Eb).
  set (st' := mkStatics [] [] 0 (Some b) (columns b skip)).
  assert (forall o, (mock = false -> o = Some m) -> set_blinding o mock fw1 skip statics0 = Ok st') as Eset.
  { intros o Ho. unfold set_blinding.
    assert ((if mock || qltb wave_lya fw1 then Ok "none"%string
         else match o with
              | None => Err (OtherExn "TypeError")
              | Some n =>
                  if (n <? 20210514)%Z then Ok "none"%string
                  else if (n <? 20210801)%Z then Ok "desi_m2"%string
                  else if (n <? 20220801)%Z then Ok "desi_y1"%string
                  else Ok "desi_y3"%string
              end) = Ok b) as ->.
    { destruct mock; [exact Eb|]. now rewrite Ho. }
    cbn [rbind]. unfold st', columns, statics0. cbn [st_wave st_coadd st_dwave st_colnames].
    destruct (String.eqb b "none"), skip; reflexivity. }
  exists m, b, st'. split; [exact Hm|]. split; [exact Sb|]. split; [|now split].
  transitivity (spmd n (fun _ => @Ret Z statics st')).
  - unfold blinding_prog. destruct mock.
    + apply spmd_ext. intros r _. now rewrite (Eset None).
    + transitivity (spmd n (fun r => Allreduce Z.max (v r) (fun x => @of_res Z statics (set_blinding (Some x) false fw1 skip statics0)))).
      * apply spmd_ext. intros r R. unfold v. destruct (Hr r R) as (x & E1 & _). now rewrite E1.
      * rewrite spmd_allreduce by exact Hn. fold m. apply spmd_ext. intros r _. now rewrite (Eset (Some m)).
  - rewrite (spmd_ret n (fun _ => st')). f_equal.
    rewrite <- (seq_length n 0) at 2. generalize (seq 0 n) as l. induction l as [|a l IH]; [easy|]. cbn. now f_equal.
Qed.

Lemma run_nonempty_err {V A} (p0 : prog V A) ps : existsb aborts (p0 :: ps) = true ->
  (forall p, In p (p0 :: ps) -> (exists e, p = Raise (OtherExn e)) \/ exists op v k, p = Allreduce op v k) ->
  (exists p, In p (p0 :: ps) /\ exists op v k, p = Allreduce op v k) ->
  run p0 ps = Aborted.
Proof.
  intros Hab Hform (p & Hp & op & v & k & ->).
  assert (forall l : list (prog V A), (exists e, In (Raise (OtherExn e)) l) -> all_some (map allreduce_k l) = None) as Hr.
  { induction l as [|q l IH]; intros (e & He); [easy|]. destruct He as [->|He]; [easy|].
    cbn [map all_some]. destruct (allreduce_k q); [|easy]. now rewrite IH by (now exists e). }
  assert (forall l : list (prog V A), (exists op v k, In (Allreduce op v k) l) -> all_some (map ending_of l) = None) as He.
  { induction l as [|q l IH]; intros (o' & v' & k' & H); [easy|]. destruct H as [->|H]; [easy|].
    cbn [map all_some]. destruct (ending_of q); [|easy]. rewrite IH by (now exists o', v', k'). easy. }
  destruct (Hform p0 (or_introl eq_refl)) as [(e & ->)|(o' & v' & k' & ->)].
  - cbn [run]. unfold final. rewrite He by (now exists op, v, k). unfold mismatch. now rewrite Hab.
  - cbn [run]. rewrite Hr.
    + unfold mismatch. now rewrite Hab.
    + apply existsb_exists in Hab as (q & Q1 & Q2). destruct Q1 as [<-|Q1]; [easy|].
      destruct (Hform q (or_intror Q1)) as [(e & ->)|(? & ? & ? & ->)]; [now exists e|easy].
Qed.
Lemma run_all_other {V A} p0 (ps : list (prog V A)) :
  (forall p, In p (p0 :: ps) -> exists e, p = Raise (OtherExn e)) -> exists l, run p0 ps = Done l.
Proof.
  intro H. destruct (H p0 (or_introl eq_refl)) as (e & ->). cbn [run]. unfold final.
  assert (forall l : list (prog V A), (forall p, In p l -> exists e, p = Raise (OtherExn e)) -> exists r, all_some (map ending_of l) = Some r) as K.
  { induction l as [|q l IH]; intro Hl; [now exists []|]. destruct (Hl q (or_introl eq_refl)) as (e' & ->).
    destruct IH as (r & E); [intros; apply Hl; now right|]. cbn [map ending_of all_some]. rewrite E. now exists (Failed (OtherExn e') :: r). }
  destruct (K _ H) as (r & ->). now exists r.
Qed.

Lemma blinding_empty_rank n skip fw1 queues st q0 :
  length queues = n -> In [] queues -> In q0 queues -> q0 <> [] -> (forall q, In q queues -> ~ In [] q) ->
  spmd n (blinding_prog false skip fw1 queues st) = Aborted.
Proof.
  intros L He H0 Hne Hg.
  assert (forall r, r < n ->
    (nth r queues [] = [] /\ blinding_prog false skip fw1 queues st r = Raise (OtherExn "ValueError")) \/
    (nth r queues [] <> [] /\ exists op v k, blinding_prog false skip fw1 queues st r = Allreduce op v k)) as F.
  { intros r R. unfold blinding_prog. destruct (nth r queues []) as [|g q] eqn:E.
    - left. split; [easy|]. reflexivity.
    - right. split; [easy|]. destruct (local_ok (g :: q)) as (m & Em & _); [easy| |].
      { rewrite <- E. apply Hg. apply nth_In. lia. }
      rewrite Em. cbn [of_res pbind]. do 3 eexists. reflexivity. }
  destruct (in_nth_seq n queues [] [] L He) as (r0 & R0 & E0).
  destruct (in_nth_seq n queues [] q0 L H0) as (r1 & R1 & E1).
  destruct n as [|k]; [lia|]. unfold spmd.
  assert (forall r, r < S k -> In (blinding_prog false skip fw1 queues st r)
    (blinding_prog false skip fw1 queues st 0 :: map (blinding_prog false skip fw1 queues st) (seq 1 k))) as Hin.
  { intros r R. destruct r as [|r]; [now left|]. right. apply in_map. apply in_seq. lia. }
  apply run_nonempty_err.
  - apply existsb_exists. eexists. split; [apply (Hin r0 R0)|].
    destruct (F r0 R0) as [[_ ->]|[C _]]; [reflexivity|congruence].
  - intros p Hp. assert (exists r, r < S k /\ blinding_prog false skip fw1 queues st r = p) as (r & R & <-).
    { destruct Hp as [<-|Hp]; [exists 0; split; [lia|easy]|]. apply in_map_iff in Hp as (r & <- & Hr). apply in_seq in Hr. exists r. split; [lia|easy]. }
    destruct (F r R) as [[_ ->]|[_ ?]]; [left; now eexists|now right].
  - exists (blinding_prog false skip fw1 queues st r1). split; [now apply Hin|].
    destruct (F r1 R1) as [[C _]|[_ ?]]; [congruence|easy].
Qed.

(** ** histories *)
Lemma for_each_snoc {A B} (body : A -> B -> res B) l x acc :
  for_each (l ++ [x]) body acc = rbind (for_each l body acc) (body x).
Proof.
  revert acc. induction l as [|a l IH]; intro acc; cbn [for_each app].
  - cbn [rbind]. now destruct (body x acc).
  - destruct (body a acc); cbn [rbind]; [apply IH|easy].
Qed.
(** the state after any history *)
Definition hist_inv (st : statics) : Prop :=
  exists d rest, st_colnames st = ("LAMBDA" :: d :: "IVAR" :: "WEIGHT" :: "CONT" :: rest)%string /\
    (forall b, st_blinding st = Some b -> b <> "none"%string -> d = "DELTA_BLIND"%string) /\
    (d = "DELTA"%string \/ d = "DELTA_BLIND"%string) /\ Forall (eq "RESOMAT"%string) rest.
Lemma blind_call_inv c st st' : hist_inv st -> blind_call c st = Ok st' -> hist_inv st'.
Proof.
  intros (d & rest & E & H1 & H2 & H3). unfold blind_call, set_blinding.
  match goal with |- rbind ?x _ = _ -> _ => destruct x as [b|] end; [|easy].
  cbn [rbind]. intro K. injection K as <-. unfold hist_inv. cbn [st_colnames st_blinding].
  rewrite E. destruct (String.eqb b "none") eqn:Eb.
  - apply String.eqb_eq in Eb. subst b. exists d.
    exists (if b_skip c then rest else rest ++ ["RESOMAT"%string]).
    split; [now destruct (b_skip c)|]. split; [congruence|]. split; [easy|].
    destruct (b_skip c); [easy|]. apply Forall_app. split; [easy|now constructor].
  - exists "DELTA_BLIND"%string.
    exists (if b_skip c then rest else rest ++ ["RESOMAT"%string]).
    split; [now destruct (b_skip c)|]. split; [congruence|]. split; [now right|].
    destruct (b_skip c); [easy|]. apply Forall_app. split; [easy|now constructor].
Qed.
Lemma history_inv calls st st' : hist_inv st -> blind_history calls st = Ok st' -> hist_inv st'.
Proof.
  unfold blind_history. revert st. induction calls as [|c l IH]; intros st H; cbn [for_each].
  - intro E. now injection E as <-.
  - destruct (blind_call c st) as [s1|] eqn:E; cbn [rbind]; [|easy]. apply IH. now apply (blind_call_inv c st).
Qed.
Lemma history_names calls st :
  blind_history calls statics0 = Ok st ->
  (forall b, st_blinding st = Some b -> b <> "none"%string -> nth_error (st_colnames st) 1 = Some "DELTA_BLIND"%string) /\
  (nth_error (st_colnames st) 1 = Some "DELTA"%string -> st_blinding st = None \/ st_blinding st = Some "none"%string).
Proof.
  intro H. apply history_inv in H as (d & rest & E & H1 & H2 & _).
  - rewrite E. cbn [nth_error]. split.
    + intros b B N. now rewrite (H1 b B N).
    + intro K. injection K as ->. destruct (st_blinding st) as [b|]; [|now left]. right.
      destruct (string_dec b "none") as [->|N]; [easy|]. now specialize (H1 b eq_refl N).
  - exists "DELTA"%string, []. unfold statics0. cbn. repeat split; try easy. now left.
Qed.
(** what the last call decides *)
Lemma history_last calls c st :
  blind_history (calls ++ [c]) statics0 = Ok st ->
  exists b, st_blinding st = Some b /\
   (forall m, (b_mock c = false -> (b_fw1 c <= fq 121567 100)%Qc -> b_last c = Some m) ->
              strategy_for (b_mock c) (b_fw1 c) m b).
Proof.
  unfold blind_history. rewrite for_each_snoc. destruct (for_each calls blind_call statics0) as [s|]; [|easy].
  cbn [rbind]. unfold blind_call, set_blinding.
  match goal with |- rbind ?x _ = _ -> _ => destruct x as [b|] eqn:Eb end; [|easy].
  cbn [rbind]. intro K. injection K as <-. exists b. split; [reflexivity|]. intros m Hm.
  destruct (pick_strategy (b_mock c) (b_fw1 c) m) as (b' & S & E').
  replace b with b'; [exact S|]. enough (Ok b' = Ok b) as Q by now injection Q.
  rewrite <- E', <- Eb. destruct (b_mock c); [reflexivity|]. cbn [orb].
  destruct (qltb wave_lya (b_fw1 c)) eqn:Q; [reflexivity|]. apply qltb_false in Q.
  now rewrite (Hm eq_refl Q).
Qed.

(** ** options *)
Lemma nleb_fin x y : nleb (Fin x) (Fin y) = false <-> (y < x)%Qc.
Proof.
  unfold nleb, nltb, neqb. split; intro H.
  - destruct (qltb x y) eqn:A; [easy|]. cbn [orb] in H. apply qltb_false in A. apply qeqb_false in H.
    apply Qcle_lt_or_eq in A as [A|A]; [easy|congruence].
  - rewrite (proj2 (qltb_false x y)) by (now apply Qclt_le_weak).
    rewrite (proj2 (qeqb_false x y)); [easy|]. intros ->. now apply (Qcle_not_lt y y (Qcle_refl y)).
Qed.
Lemma filter_len_zero l : Nat.eqb (length (filter (fun c : bool => c) l)) 0 = true <-> forall c, In c l -> c = false.
Proof.
  induction l as [|c l IH]; [easy|]. cbn [filter]. destruct c.
  - split; [easy|]. intro H. specialize (H true (or_introl eq_refl)). easy.
  - rewrite IH. split; intros H c Hc; [destruct Hc as [<-|Hc]; [easy|now apply H]|apply H; now right].
Qed.
Lemma args_accept set_list a :
  nfinite (a_wave1 a) = true -> nfinite (a_wave2 a) = true -> nfinite (a_fw1 a) = true -> nfinite (a_fw2 a) = true ->
  (a_model a = "input"%string -> a_inputdir a <> ""%string) ->
  (snd (args_logic set_list a) = true <-> documented a).
Proof.
  intros F1 F2 F3 F4 Hin.
  destruct a as [arms tru model mock mf vl dir w1 w2 f1 f2 tile hpx ex]. cbn in F1, F2, F3, F4, Hin.
  destruct w1 as [w1| | |], w2 as [w2| | |], f1 as [f1| | |], f2 as [f2| | |]; try discriminate.
  unfold args_logic. cbn [snd a_arms a_true a_model a_mock a_meanflux a_varlss a_inputdir a_wave1 a_wave2 a_fw1 a_fw2 a_tile a_byhpx a_exposures].
  rewrite filter_len_zero.
  set (t := tru || String.eqb model "true").
  assert (t = true <-> tru = true \/ model = "true"%string) as Ht.
  { unfold t. rewrite orb_true_iff, String.eqb_eq. tauto. }
  assert (forall p, given p = true <-> p <> ""%string) as Hg.
  { intro p. unfold given. rewrite negb_true_iff, String.eqb_neq. tauto. }
  assert (forall p, given p = false <-> p = ""%string) as Hg'.
  { intro p. unfold given. rewrite negb_false_iff, String.eqb_eq. tauto. }
  clearbody t. split.
  - intro H.
    assert (t && negb mock = false) as C1 by (apply H; cbn; tauto).
    assert (t && negb (given mf) = false) as C2 by (apply H; cbn; tauto).
    assert (t && negb (given vl) = false) as C3 by (apply H; cbn; tauto).
    assert (t && given dir = false) as C4 by (apply H; cbn; tauto).
    assert (nleb (Fin w2) (Fin w1) = false) as C5 by (apply H; cbn; tauto).
    assert (nleb (Fin f2) (Fin f1) = false) as C6 by (apply H; cbn; tauto).
    assert (mock && tile = false) as C7 by (apply H; cbn; tauto).
    assert (tile && hpx = false) as C8 by (apply H; cbn; tauto).
    assert (negb (String.eqb ex "disable") && tile = false) as C9 by (apply H; cbn; tauto).
    apply (proj1 (nleb_fin _ _)) in C5, C6.
    split; unfold wants_true; cbn [a_arms a_true a_model a_mock a_meanflux a_varlss a_inputdir a_wave1 a_wave2 a_fw1 a_fw2 a_tile a_byhpx a_exposures];
      try (intro T; apply Ht in T; rewrite T in *; cbn [andb] in * ).
    + now destruct mock.
    + apply Hg. now destruct (given mf).
    + apply Hg. now destruct (given vl).
    + now apply Hg'.
    + now exists w1, w2.
    + now exists f1, f2.
    + now intros ->.
    + now intros ->.
    + intros ->. rewrite andb_true_r in C9. apply negb_false_iff in C9. now apply String.eqb_eq.
    + exact Hin.
  - intros [D1 D2 D3 D4 (x & y & X & Y & D5) (x' & y' & X' & Y' & D6) D7 D8 D9 _].
    unfold wants_true in *. cbn [a_arms a_true a_model a_mock a_meanflux a_varlss a_inputdir a_wave1 a_wave2 a_fw1 a_fw2 a_tile a_byhpx a_exposures] in *.
    rewrite <- Ht in *. injection X as ->; injection Y as ->; injection X' as ->; injection Y' as ->.
    intros c Hc. cbn [In] in Hc.
    decompose [or] Hc; try contradiction; subst c.
    + destruct t; [|easy]. now rewrite (D1 eq_refl).
    + destruct t; [|easy]. now rewrite (proj2 (Hg _) (D2 eq_refl)).
    + destruct t; [|easy]. now rewrite (proj2 (Hg _) (D3 eq_refl)).
    + destruct t; [|easy]. now rewrite (proj2 (Hg' _) (D4 eq_refl)).
    + now apply nleb_fin.
    + now apply nleb_fin.
    + destruct mock; [|easy]. now rewrite D7.
    + destruct tile; [|easy]. now rewrite D8.
    + destruct tile; [|apply andb_false_r]. now rewrite D9.
Qed.
Lemma args_model set_list a :
  snd (args_logic set_list a) = true ->
  let a' := fst (args_logic set_list a) in
  (a_model a' = "true"%string <-> wants_true a) /\ (a_true a' = true <-> wants_true a) /\
  (a_model a' = "input"%string <-> a_inputdir a <> ""%string \/ ~ wants_true a /\ a_model a = "input"%string) /\
  (~ wants_true a -> a_inputdir a = ""%string -> a_model a' = a_model a) /\
  a_arms a' = set_list (a_arms a).
Proof.
  destruct a as [arms tru model mock mf vl dir w1 w2 f1 f2 tile hpx ex].
  unfold args_logic, wants_true. cbn [fst snd a_arms a_true a_model a_mock a_meanflux a_varlss a_inputdir a_wave1 a_wave2 a_fw1 a_fw2 a_tile a_byhpx a_exposures].
  rewrite filter_len_zero.
  set (t := tru || String.eqb model "true").
  assert (t = true <-> tru = true \/ model = "true"%string) as Ht.
  { unfold t. rewrite orb_true_iff, String.eqb_eq. tauto. }
  assert (given dir = true <-> dir <> ""%string) as Hg.
  { unfold given. rewrite negb_true_iff, String.eqb_neq. tauto. }
  intro H. assert (t && given dir = false) as C4 by (apply H; cbn; tauto). clear H. rewrite <- Ht, <- Hg.
  assert (t = false -> model <> "true"%string) as Hm.
  { intros E K. assert (t = true) by (apply Ht; now right). congruence. }
  assert (dir = ""%string -> given dir = false) as Hd by (now intros ->).
  clear Ht Hg. clearbody t. destruct t; [|specialize (Hm eq_refl)]; destruct (given dir) eqn:Eg; cbn [andb] in C4; try discriminate.
  - repeat split; try easy. intros [?|[K _]]; [discriminate|now contradict K].
  - repeat split; try easy; [now left|].  intros _ E. now specialize (Hd E).
  - repeat split; try easy. intro E. right. split; [discriminate|exact E].
    intros [?|[_ E]]; [discriminate|exact E].
Qed.
Lemma float_range_fin parse f1 f2 arg x :
  parse arg = Some (Fin x) ->
  (float_range parse (Fin f1) (Fin f2) arg = Ok (Fin x) <-> (f1 <= x /\ x <= f2)%Qc) /\
  (~ (f1 <= x /\ x <= f2)%Qc -> exists e, float_range parse (Fin f1) (Fin f2) arg = Err e).
Proof.
  intro E. unfold float_range. rewrite E. cbn [nltb].
  destruct (qltb x f1) eqn:A; cbn [orb].
  - apply qltb_true in A. split; [|intros _; now eexists]. split; [easy|]. intros [B _]. exfalso. revert A. now apply Qcle_not_lt.
  - apply qltb_false in A. destruct (qltb f2 x) eqn:B.
    + apply qltb_true in B. split; [|intros _; now eexists]. split; [easy|]. intros [_ C]. exfalso. revert B. now apply Qcle_not_lt.
    + apply qltb_false in B. split; [now split|]. intro C. exfalso. now apply C.
Qed.
Lemma float_range_sound parse f1 f2 arg v :
  float_range parse (Fin f1) (Fin f2) arg = Ok v ->
  parse arg = Some v /\ (v = NaN \/ exists x, v = Fin x /\ (f1 <= x /\ x <= f2)%Qc).
Proof.
  unfold float_range. destruct (parse arg) as [u|] eqn:E; [|easy]. destruct (nltb u (Fin f1) || nltb (Fin f2) u) eqn:C; [easy|].
  intro K. injection K as <-. split; [easy|]. destruct u as [x| | |]; cbn in C; try easy.
  - right. exists x. split; [easy|]. apply orb_false_iff in C as [A B]. cbn in *. now rewrite qltb_false in A, B.
  - now left.
Qed.
