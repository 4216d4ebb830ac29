(** C77: the run, with two contents of np.empty. *)
From Coq Require Import ZArith String List Bool Arith Lia Qcanon.
From Verif Require Import Num NpList NpListFacts Exn Dict Mpi ModelMpiUtils ModelSpectrum ModelDelta ModelIO ModelVarFit ModelFitter ModelPipeline
  SpecMemory ProofSpectrum1 ProofMpi ProofMpi2 ProofFinal ProofMemory ProofMemory2 ProofMemory3.
Import ListNotations.
Local Open Scope nat_scope.

(** ** Lists *)
Lemma rseq_same {A B} (R : A -> A -> Prop) (S : B -> B -> Prop) (f f' : A -> res B) l l' :
  (forall x y, R x y -> same_res S (f x) (f' y)) -> Forall2 R l l' -> same_res (Forall2 S) (rseq (map f l)) (rseq (map f' l')).
Proof.
  intros H F. induction F as [|x y l l' Hxy F IH]; [constructor|]. cbn [map rseq]. specialize (H x y Hxy).
  destruct (f x), (f' y); cbn [same_res] in H; try contradiction; cbn [rbind]; [|exact H].
  destruct (rseq (map f l)), (rseq (map f' l')); cbn [same_res] in IH; try contradiction; cbn [rbind rmap same_res] in *; [now constructor|exact IH].
Qed.
Lemma Forall2_diag {A} (R : A -> A -> Prop) l : (forall x, R x x) -> Forall2 R l l.
Proof. intro H. induction l; constructor; auto. Qed.
Lemma Forall2_skip {A} (R : A -> A -> Prop) n : forall l l', Forall2 R l l' -> Forall2 R (skipn n l) (skipn n l').
Proof. induction n as [|n IH]; intros l l' F; [exact F|]. destruct F; [constructor|]. cbn. auto. Qed.
Lemma Forall2_first {A} (R : A -> A -> Prop) n : forall l l', Forall2 R l l' -> Forall2 R (firstn n l) (firstn n l').
Proof. induction n as [|n IH]; intros l l' F; [constructor|]. destruct F; [constructor|]. cbn. constructor; auto. Qed.
Lemma split_same {A} (R : A -> A -> Prop) l l' idx : Forall2 R l l' -> forall s, Forall2 (Forall2 R) (split_from l s idx) (split_from l' s idx).
Proof.
  intro F. induction idx as [|j idx IH]; intro s; cbn [split_from].
  - constructor; [now apply Forall2_skip|constructor].
  - constructor; [|apply IH]. unfold slice. now apply Forall2_first, Forall2_skip.
Qed.
Lemma nth_same {A} (R : A -> A -> Prop) l l' : Forall2 R l l' -> forall k,
  match nth_error l k, nth_error l' k with Some x, Some y => R x y | None, None => True | _, _ => False end.
Proof. induction 1 as [|x y l l' H F IH]; intros [|k]; cbn; auto. apply IH. Qed.
Lemma take_same {A} (R : A -> A -> Prop) l l' : Forall2 R l l' -> forall idx,
  match take_idx l idx, take_idx l' idx with Some x, Some y => Forall2 R x y | None, None => True | _, _ => False end.
Proof.
  intros F idx. induction idx as [|i idx IH]; cbn [take_idx]; [constructor|]. pose proof (nth_same R l l' F i) as N.
  destruct (nth_error l i), (nth_error l' i); try contradiction; [|exact I].
  destruct (take_idx l idx), (take_idx l' idx); try contradiction; [now constructor|exact I].
Qed.
Lemma filter_same {A} (R : A -> A -> Prop) f l l' : (forall x y, R x y -> f x = f y) -> Forall2 R l l' -> Forall2 R (filter f l) (filter f l').
Proof. intros H F. induction F as [|x y l l' Hxy F IH]; cbn; [constructor|]. rewrite <- (H x y Hxy). destruct (f x); [now constructor|exact IH]. Qed.
Lemma combine_same {A} (R : A -> A -> Prop) (k : list Z) l l' : Forall2 (Forall2 R) l l' ->
  Forall2 (fun f f' => fst f = fst f' /\ Forall2 R (snd f) (snd f')) (combine k l) (combine k l').
Proof. intro F. revert k. induction F as [|x y l l' Hxy F IH]; intros [|z k]; cbn; try constructor; auto. Qed.

(** ** Saving *)
Lemma save_same (R : spec -> spec -> Prop) hpix argsort l l' x b rk s :
  (forall s s', R s s' -> hpix s = hpix s' /\ s_valid s = s_valid s') -> Forall2 R l l' ->
  same_res (Forall2 (fun f f' : Z * list spec => fst f = fst f' /\ Forall2 R (snd f) (snd f')))
    (save_deltas hpix s_valid argsort l x b rk s) (save_deltas hpix s_valid argsort l' x b rk s).
Proof.
  intros H F. unfold save_deltas. destruct x; [constructor|].
  assert (map hpix l = map hpix l') as E by (clear - H F; induction F as [|u v l l' Huv F IH]; cbn; [reflexivity|]; rewrite IH; f_equal; now apply H).
  assert (same_res (fun g g' => fst g = fst g' /\ Forall2 (Forall2 R) (snd g) (snd g'))
    (if b then rbind (of_option "IndexError" (take_idx (map hpix l) (argsort (map hpix l)))) (fun pixnos =>
      rbind (of_option "IndexError" (take_idx l (argsort (map hpix l)))) (fun specs => Ok (np_unique pixnos, np_split specs (tl (np_unique_index pixnos)))))
     else match rk with Some r => Ok ([r], [l]) | None => Err (QsonicExn "save_by_hpx and mpi_rank can't both be None.") end)
    (if b then rbind (of_option "IndexError" (take_idx (map hpix l') (argsort (map hpix l')))) (fun pixnos =>
      rbind (of_option "IndexError" (take_idx l' (argsort (map hpix l')))) (fun specs => Ok (np_unique pixnos, np_split specs (tl (np_unique_index pixnos)))))
     else match rk with Some r => Ok ([r], [l']) | None => Err (QsonicExn "save_by_hpx and mpi_rank can't both be None.") end)) as G.
  { destruct b.
    - rewrite <- E. destruct (take_idx (map hpix l) (argsort (map hpix l))) as [p|]; [|reflexivity]. cbn [of_option rbind].
      pose proof (take_same R l l' F (argsort (map hpix l))) as T. destruct (take_idx l _), (take_idx l' _); try contradiction; [|reflexivity].
      cbn. split; [reflexivity|]. now apply split_same.
    - destruct rk; cbn; [|reflexivity]. split; [reflexivity|]. constructor; [exact F|constructor]. }
  cbv zeta. match goal with |- same_res _ (rbind ?u _) (rbind ?v _) => destruct u as [g|], v as [g'|] end; cbn [same_res] in G; try contradiction; cbn [rbind]; [|exact G].
  destruct s; cbn [negb same_res]; [|reflexivity]. destruct G as [E1 G]. rewrite <- E1. pose proof (combine_same R (fst g) _ _ G) as C. clear - C H.
  induction C as [|u v l l' [Euv Fuv] C IH]; cbn [map]; constructor; [|exact IH]. cbn. split; [exact Euv|]. apply filter_same; [|exact Fuv]. intros; now apply H.
Qed.

(** ** Spectra *)
Lemma alikes_same s s' : alikes s s' -> set_cont [] s = set_cont [] s'.
Proof. intros [<-|(w & fl & iv & wt & c & c' & _ & _ & _ & _ & _ & -> & _)]; reflexivity. Qed.
Lemma alikes_fields s s' : alikes s s' -> s_cat s = s_cat s' /\ s_chi2 s = s_chi2 s' /\ s_valid s = s_valid s' /\ s_x s = s_x s' /\ s_f s = s_f s'.
Proof. intro H. apply alikes_same in H. injection H. intuition. Qed.
Lemma drop_alikes dw l1 l2 sk s s' : alikes s s' -> alikes (drop_short_arms dw l1 l2 sk s) (drop_short_arms dw l1 l2 sk s').
Proof.
  intros [<-|T]; [now left|]. pose proof T as (w & fl & iv & wt & c & c' & W & F & I & Wt & C & -> & L & H).
  unfold drop_short_arms. cbn [s_f set_cont s_z s_cat]. rewrite I. cbn [dkeys map fst filter dget]. rewrite String.eqb_refl.
  destruct (_ <? _)%Z.
  - left. cbn [fold_left]. unfold drop_arm. cbn [s_f s_cont set_cont]. rewrite C. reflexivity.
  - right. exact T.
Qed.
Lemma quasar_alikes mr rd st s s' : (forall s c arm, mr (set_cont c s) arm = mr s arm) -> alikes s s' -> same_quasar (spec_write mr rd st) s s'.
Proof.
  intros Mr A. destruct (alikes_fields s s' A) as (E1 & E2 & E3 & E4 & _). repeat (split; [assumption|]).
  destruct A as [<-|T]; [|now apply write_twin].
  destruct (spec_write mr rd st s) as [l|] eqn:Ew; [|reflexivity]. cbn [same_res].
  assert (Forall (fun h => exists names wave delta ivar weight cont rest,
    h_cols h = combine names (CWave wave :: CNum delta :: CNum ivar :: CNum weight :: CNum cont :: rest)) l) as Fl.
  { unfold spec_write in Ew. destruct (s_msnr s) as [m|]; [|discriminate]. cbn [of_option rbind] in Ew.
    revert Ew. apply for_each_inv with (P := Forall (fun h => exists names wave delta ivar weight cont rest,
      h_cols h = combine names (CWave wave :: CNum delta :: CNum ivar :: CNum weight :: CNum cont :: rest))); [|constructor].
    intros [arm wave] acc acc' _ Fa Eb. cbn [fst snd] in Eb. destruct (rget arm m) as [snr|]; [|discriminate]. cbn [rbind] in Eb.
    destruct (neqb snr n0); [now injection Eb as <-|]. destruct (write_arm mr rd st s arm wave snr) as [h|] eqn:Eh; [|discriminate].
    injection Eb as <-. apply Forall_app. split; [exact Fa|]. constructor; [|constructor]. clear - Eh. unfold write_arm in Eh.
    destruct (rget arm (s_cont s)) as [cont|]; [|discriminate]. cbn [rbind] in Eh.
    destruct (rget arm (ff (s_f s))) as [fl|]; [|discriminate]. cbn [rbind] in Eh.
    destruct (rget arm (fivar (s_f s))) as [iv|]; [|discriminate]. cbn [rbind] in Eh.
    destruct (rget arm (fweight (s_f s))) as [wt|]; [|discriminate]. cbn [rbind] in Eh.
    destruct (zip2 _ fl cont) as [d0|]; [|discriminate]. cbn [rbind] in Eh. destruct (zip2 _ iv cont) as [ivar|]; [|discriminate]. cbn [rbind] in Eh.
    destruct (zip2 _ wt cont) as [weight|]; [|discriminate]. cbn [rbind] in Eh. destruct (zip2 _ ivar d0) as [delta|]; [|discriminate]. cbn [rbind] in Eh.
    destruct (if dtrue (fr (s_f s)) then _ else _) as [cols|] eqn:Ec; [|discriminate]. cbn [rbind] in Eh.
    unfold fits_table in Eh. destruct (Nat.eqb _ _); [|discriminate]. injection Eh as <-. cbn [h_cols].
    exists (st_colnames st), wave, delta, ivar, weight, cont. destruct (dtrue (fr (s_f s))).
    - destruct (mr s arm); [|discriminate]. cbn [rbind] in Ec. destruct (rget arm (fr (s_f s))) as [mm|]; [|discriminate]. injection Ec as <-. now exists [CMat mm].
    - injection Ec as <-. now exists []. }
  clear - Fl. induction Fl as [|h l (names & wave & delta & ivar & weight & cont & rest & E) Fl IH]; constructor; [|exact IH].
  unfold same_hdu. repeat (split; [reflexivity|]). exists names, wave, delta, ivar, weight, cont, cont, rest. repeat split; try assumption. now left.
Qed.
