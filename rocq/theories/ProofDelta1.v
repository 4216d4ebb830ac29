(** C35: delta files. *)
From Coq Require Import Field ZArith String List Bool Arith Lia Qcanon.
From Verif Require Import Num NpList NpListFacts Exn Dict ModelSpectrum ModelDelta SpecSpectrum SpecMasks SpecWeights SpecCoadd SpecDelta
  ProofSpectrum1 ProofMasks ProofCoadd.
Import ListNotations.
Local Open Scope nat_scope.

Lemma file_delta_fin f i c :
  exists d, (if neqb (nmul (Fin i) (nsq (Fin c))) n0 then n0 else nsub (ndiv (Fin f) (Fin c)) n1) = Fin d /\
  ((i * (c * c) = 0)%Qc -> d = 0%Qc) /\ ((i * (c * c) <> 0)%Qc -> d = (f / c - 1)%Qc).
Proof.
  unfold nsq, n0, n1. cbn [nmul neqb]. destruct (qeqb (i * (c * c)) 0) eqn:E.
  - apply qeqb_true in E. exists 0%Qc. easy.
  - apply qeqb_false in E. assert (c <> 0)%Qc as Hc by (intros ->; apply E; ring).
    rewrite ndiv_fin by easy. eexists. split; [reflexivity|]. easy.
Qed.

Lemma file_flux f i w c d i' w' : file_pixel f i w c d i' w' -> i' <> 0%Qc -> f = ((d + 1) * c)%Qc.
Proof.
  intros (E & _ & _ & H) N. rewrite (H N). assert (c <> 0)%Qc by (intro C; apply N; rewrite E, C; ring). field. assumption.
Qed.

Section W.
Variable mean_resolution : spec -> string -> res num.
Variable ra_dec : catrow -> Qc * Qc.
Variable set_pop : list string -> string.
Variable pow10 : Qc -> Qc.
Hypothesis pop_in : forall l, l <> [] -> In (set_pop l) l.
Lemma pop1 x : set_pop [x] = x.
Proof. destruct (pop_in [x]) as [E|[]]; [discriminate|]. now symmetry. Qed.

Lemma read_table tid arm ex snr b rd wave dl iv wt ct blind ms :
  length iv = length dl ->
  delta_read set_pop pow10 (mkHdu tid arm ex snr b rd (combine (names_of blind (match ms with Some _ => true | None => false end))
      ([CWave wave; CNum dl; CNum iv; CNum wt; CNum ct] ++ match ms with Some m => [CMat m] | None => [] end))) =
  Ok (mkDelta tid rd snr wave (map2 (fun i d => if neqb i n0 then n0 else d) iv dl) iv wt ct ms blind).
Proof.
  intro L. unfold delta_read, names_of. cbn [h_cols h_targetid h_ra_dec h_meansnr].
  destruct blind; destruct ms as [m|]; unfold check_hdu; cbn; rewrite pop1; cbn; rewrite pop1; cbn;
    rewrite zip2_eq by easy; cbn; reflexivity.
Qed.

Lemma write_arm_spec st s blind arm wave snr :
  proper s -> cont_matches s ->
  all_finite (ff (s_f s)) -> all_finite (fivar (s_f s)) -> all_finite (fweight (s_f s)) -> all_finite (s_cont s) ->
  st_colnames st = names_of blind (dtrue (fr (s_f s))) ->
  (fr (s_f s) <> [] -> dget arm (fr (s_f s)) <> None /\ exists r, mean_resolution s arm = Ok r) ->
  dget arm (fw (s_f s)) = Some wave ->
  exists h d, write_arm mean_resolution ra_dec st s arm wave snr = Ok h /\
    h_arm h = arm /\ h_targetid h = c_targetid (s_cat s) /\ h_expid h = c_expid (s_cat s) /\ h_meansnr h = snr /\
    h_blinding h = st_blinding st /\ dkeys (h_cols h) = st_colnames st /\
    delta_read set_pop pow10 h = Ok d /\ d_targetid d = c_targetid (s_cat s) /\ d_meansnr d = snr /\ d_wave d = wave /\
    d_blinded d = blind /\ d_reso d = dget arm (fr (s_f s)) /\ Some (d_cont d) = dget arm (s_cont s) /\
    length (d_delta d) = length wave /\ length (d_ivar d) = length wave /\ length (d_weight d) = length wave /\
    forall k, k < length wave -> exists f i w c dl i' w',
      finite_at (ff (s_f s)) arm k f /\ finite_at (fivar (s_f s)) arm k i /\ finite_at (fweight (s_f s)) arm k w /\
      finite_at (s_cont s) arm k c /\
      nth_error (d_delta d) k = Some (Fin dl) /\ nth_error (d_ivar d) k = Some (Fin i') /\
      nth_error (d_weight d) k = Some (Fin w') /\ file_pixel f i w c dl i' w'.
Proof.
  intros (A & _) C F1 F2 F3 F4 Hn Hr E. destruct (A arm) as (L1 & L2 & _ & L4).
  assert (len_at (s_cont s) arm = len_at (fw (s_f s)) arm) as L5 by (apply C; congruence).
  destruct (len_dget _ _ _ _ L1 E) as (f & Ef & Lf). destruct (len_dget _ _ _ _ L2 E) as (i & Ei & Li).
  destruct (len_dget _ _ _ _ L4 E) as (w & Ew & Lw). destruct (len_dget _ _ _ _ L5 E) as (c & Ec & Lc).
  unfold write_arm, rget. rewrite Ec, Ef, Ei, Ew. cbn [of_option rbind].
  rewrite !zip2_eq; rewrite ?map2_length; try lia. cbn [rbind]. rewrite zip2_eq by (rewrite !map2_length; lia). cbn [rbind].
  set (ivar := map2 (fun i c => nmul i (nsq c)) i c). set (weight := map2 (fun w c => nmul w (nsq c)) w c).
  set (dl0 := map2 (fun f c => nsub (ndiv f c) n1) f c).
  set (dl := map2 (fun i d => if neqb i n0 then n0 else d) ivar dl0).
  assert (exists cols', (if dtrue (fr (s_f s))
         then rbind (mean_resolution s arm) (fun _ =>
              rbind (of_option "KeyError" (dget arm (fr (s_f s)))) (fun m =>
              Ok ([CWave wave; CNum dl; CNum ivar; CNum weight; CNum c] ++ [CMat m])))
         else Ok [CWave wave; CNum dl; CNum ivar; CNum weight; CNum c]) = Ok cols' /\
    cols' = [CWave wave; CNum dl; CNum ivar; CNum weight; CNum c] ++ match dget arm (fr (s_f s)) with Some m => [CMat m] | None => [] end /\
    dtrue (fr (s_f s)) = match dget arm (fr (s_f s)) with Some _ => true | None => false end) as (cols' & -> & -> & Ed).
  { destruct (fr (s_f s)) as [|p r] eqn:Q; cbn [dtrue]; [eexists; split; [reflexivity|]; easy|].
    destruct Hr as (H1 & rr & H2); [easy|]. rewrite H2. cbn [rbind].
    destruct (dget arm (p :: r)) as [m|]; [|easy]. cbn [of_option rbind]. eexists. split; [reflexivity|]. easy. }
  cbn [rbind]. rewrite Ed in Hn. rewrite Hn. unfold fits_table.
  assert (length (names_of blind match dget arm (fr (s_f s)) with Some _ => true | None => false end) =
    length ([CWave wave; CNum dl; CNum ivar; CNum weight; CNum c] ++ match dget arm (fr (s_f s)) with Some m => [CMat m] | None => [] end)) as LL.
  { destruct (dget arm (fr (s_f s))); reflexivity. }
  rewrite LL, Nat.eqb_refl. cbn [rbind].
  eexists _, _. split; [reflexivity|]. cbn [h_arm h_targetid h_expid h_meansnr h_blinding h_cols].
  repeat (split; [reflexivity|]). split.
  { unfold dkeys. revert LL. clear. generalize (names_of blind match dget arm (fr (s_f s)) with Some _ => true | None => false end).
    generalize ([CWave wave; CNum dl; CNum ivar; CNum weight; CNum c] ++ match dget arm (fr (s_f s)) with Some m => [CMat m] | None => [] end).
    intros l1 l2. revert l1. induction l2; intros [|x l1] H; try discriminate H; cbn; [easy|]. f_equal. apply IHl2. now injection H. }
  assert (length ivar = length wave) as Liv by (unfold ivar; rewrite map2_length; lia).
  assert (length dl = length wave) as Ldl by (unfold dl, dl0; rewrite !map2_length; lia).
  split; [apply read_table; lia|]. cbn [d_targetid d_meansnr d_wave d_blinded d_reso d_cont d_delta d_ivar d_weight].
  repeat (split; [reflexivity|]). split; [rewrite map2_length; lia|]. split; [lia|].
  split; [unfold weight; rewrite map2_length; lia|].
  intros k Hk.
  assert (forall (l : list num), fin_of l -> length l = length wave -> exists q, nth_error l k = Some (Fin q)) as G.
  { intros l Fl Ll. destruct (nth_error l k) as [x|] eqn:Q.
    - apply nth_error_In in Q as Hin. unfold fin_of in Fl. rewrite Forall_forall in Fl. specialize (Fl x Hin).
      destruct x; try discriminate Fl. eauto.
    - apply nth_error_None in Q. lia. }
  destruct (G f (F1 _ _ Ef) Lf) as (qf & Qf). destruct (G i (F2 _ _ Ei) Li) as (qi & Qi).
  destruct (G w (F3 _ _ Ew) Lw) as (qw & Qw). destruct (G c (F4 _ _ Ec) Lc) as (qc & Qcc).
  destruct (file_delta_fin qf qi qc) as (d & Ed' & D1 & D2).
  exists qf, qi, qw, qc, d, (qi * (qc * qc))%Qc, (qw * (qc * qc))%Qc.
  unfold finite_at, at_pix. rewrite Ef, Ei, Ew, Ec. repeat (split; [easy|]).
  assert (nth_error ivar k = Some (Fin (qi * (qc * qc)))) as Qiv by (unfold ivar; rewrite nth_error_map2, Qi, Qcc; easy).
  assert (nth_error dl k = Some (Fin d)) as Qdl.
  { unfold dl, dl0. rewrite nth_error_map2, Qiv, nth_error_map2, Qf, Qcc. rewrite <- Ed'. easy. }
  split.
  { rewrite nth_error_map2, Qiv, Qdl. f_equal. destruct (neqb (Fin (qi * (qc * qc))) n0) eqn:Z; [|easy].
    unfold n0 in *. cbn in Z. apply qeqb_true in Z. now rewrite D1. }
  split; [easy|]. split; [unfold weight; rewrite nth_error_map2, Qw, Qcc; easy|].
  unfold file_pixel. easy.
Qed.

Lemma spec_write_spec st s blind m :
  proper s -> cont_matches s ->
  all_finite (ff (s_f s)) -> all_finite (fivar (s_f s)) -> all_finite (fweight (s_f s)) -> all_finite (s_cont s) ->
  st_colnames st = names_of blind (dtrue (fr (s_f s))) ->
  (fr (s_f s) <> [] -> forall arm, dget arm (fw (s_f s)) <> None -> dget arm (fr (s_f s)) <> None /\ exists r, mean_resolution s arm = Ok r) ->
  s_msnr s = Some m -> (forall arm, dget arm (fw (s_f s)) <> None -> dget arm m <> None) ->
  exists hs, spec_write mean_resolution ra_dec st s = Ok hs /\
    map h_arm hs = filter (arm_written m) (dkeys (fw (s_f s))) /\
    (forall h, In h hs -> Some (h_meansnr h) = dget (h_arm h) m /\ exists d, arm_file set_pop pow10 st s blind h d).
Proof.
  intros P C F1 F2 F3 F4 Hn Hr Em Hm. pose proof P as (_ & Nd & _).
  unfold spec_write. rewrite Em. cbn [of_option rbind].
  set (body := fun (aw : string * list Qc) (acc : list hdu) => _).
  assert (forall d acc, (forall arm w, In (arm, w) d -> dget arm (fw (s_f s)) = Some w) ->
    exists hs, for_each d body acc = Ok (acc ++ hs) /\ map h_arm hs = filter (arm_written m) (dkeys d) /\
    (forall h, In h hs -> Some (h_meansnr h) = dget (h_arm h) m /\ exists d, arm_file set_pop pow10 st s blind h d)) as K.
  { induction d as [|(arm, w) d IH]; intros acc Hd; cbn [for_each].
    - exists []. rewrite app_nil_r. repeat split; easy.
    - assert (dget arm (fw (s_f s)) = Some w) as Ew by (apply Hd; now left).
      unfold body at 1. cbn [fst snd]. unfold rget. destruct (dget arm m) as [snr|] eqn:Es; [|exfalso; apply (Hm arm); congruence].
      cbn [of_option rbind]. cbn [dkeys map fst filter]. unfold arm_written at 1. rewrite Es. destruct (neqb snr n0) eqn:En; cbn [negb].
      + cbn [rbind]. apply IH. intros; apply Hd; now right.
      + destruct (write_arm_spec st s blind arm w snr) as (h & dd & Eh & H1 & H2 & H3 & H4 & H5 & H6 & H7 & H8 & H9 & H10 & H11 & H12 & H13 & H14 & H15 & H16 & H17); auto.
        { intro Q. apply Hr; [easy|congruence]. }
        rewrite Eh. cbn [rbind].
        destruct (IH (acc ++ [h])) as (hs & -> & M & G); [intros; apply Hd; now right|].
        exists (h :: hs). split; [now rewrite <- app_assoc|]. split; [cbn; rewrite H1; f_equal; exact M|].
        intros h' [<-|Hh]; [|now apply G]. split; [rewrite H1, H4; now symmetry|]. exists dd.
        unfold arm_file. rewrite H1, H4, H10, H9, H8, H2, H3. rewrite Ew, H12, H13. repeat (split; [easy|]). exact H17. }
  destruct (K (fw (s_f s)) []) as (hs & E & M & G); [intros; now apply NoDup_dget|].
  exists hs. auto.
Qed.

Lemma delta_round_trip d : length (d_ivar d) = length (d_delta d) ->
  (forall k, nth_error (d_ivar d) k = Some n0 -> nth_error (d_delta d) k = Some n0) ->
  delta_read set_pop pow10 (delta_hdu d) = Ok d.
Proof.
  intros L Z. destruct d as [tid rd snr wave dl iv wt ct ms b]. cbn [d_ivar d_delta] in *.
  pose proof (read_table tid "" None snr None rd wave dl iv wt ct b ms L) as R.
  assert (delta_columns (mkDelta tid rd snr wave dl iv wt ct ms b) =
    combine (names_of b (match ms with Some _ => true | None => false end))
      ([CWave wave; CNum dl; CNum iv; CNum wt; CNum ct] ++ match ms with Some m => [CMat m] | None => [] end)) as E.
  { destruct b, ms; reflexivity. }
  unfold delta_hdu. rewrite E. cbn [d_targetid d_meansnr d_radec]. rewrite R. f_equal. f_equal.
  apply list_eq_nth_error. intro k. rewrite nth_error_map2. specialize (Z k).
  destruct (nth_error iv k) as [x|] eqn:E1.
  - destruct (nth_error dl k) as [y|] eqn:E2; [|easy]. destruct (neqb x n0) eqn:Q; [|easy].
    assert (x = n0) as ->.
    { destruct x; try discriminate Q. unfold n0 in *. cbn in Q. apply qeqb_true in Q. now rewrite Q. }
    symmetry. now apply Z.
  - apply nth_error_None in E1. symmetry. apply nth_error_None. lia.
Qed.
End W.
