(** C37: the coadd script. *)
From Coq Require Import ZArith String List Bool Arith Lia Permutation Qcanon.
From Verif Require Import Num NpList NpListFacts Exn Dict ModelSpectrum ModelDelta SpecWeights SpecDelta ProofDelta3.
Import ListNotations.
Local Open Scope nat_scope.

Section S.
Variable coadd : delta -> delta -> res delta.
Variable hpx : delta -> Z.
Hypothesis keeps_id : forall a b c, coadd a b = Ok c -> d_targetid c = d_targetid a.

(** what the dictionary holds after the deltas of l *)
Definition dict_inv (l : list delta) (fd : list (Z * delta)) : Prop :=
  NoDup (map fst fd) /\
  (forall t, In t (map d_targetid l) <-> In t (map fst fd)) /\
  (forall t d, In (t, d) fd -> d_targetid d = t /\
     exists d0 r, of_target t l = d0 :: r /\ coadd_all coadd d0 r = Ok d).

Lemma of_target_app t l x : of_target t (l ++ [x]) = of_target t l ++ (if Z.eqb (d_targetid x) t then [x] else []).
Proof. unfold of_target. rewrite filter_app. cbn. now destruct (Z.eqb (d_targetid x) t). Qed.
Lemma of_target_none t l : ~ In t (map d_targetid l) -> of_target t l = [].
Proof.
  induction l as [|d l IH]; intro H; [easy|]. cbn. destruct (Z.eqb_spec (d_targetid d) t) as [E|E].
  - exfalso. apply H. now left.
  - apply IH. intro C. apply H. now right.
Qed.
Lemma coadd_all_app d0 r x : coadd_all coadd d0 (r ++ [x]) = rbind (coadd_all coadd d0 r) (fun d => coadd d x).
Proof.
  unfold coadd_all. revert d0. induction r as [|y r IH]; intro d0; cbn [app for_each].
  - cbn [rbind]. now destruct (coadd d0 x).
  - destruct (coadd d0 y) as [d|e]; cbn [rbind]; [apply IH|easy].
Qed.

Lemma forest_add_inv x : forall fd fd', forest_add coadd x fd = Ok fd' -> NoDup (map fst fd) ->
  (In (d_targetid x) (map fst fd) /\ map fst fd' = map fst fd /\
     exists d d', In (d_targetid x, d) fd /\ coadd d x = Ok d' /\
       forall t e, In (t, e) fd' <-> (t <> d_targetid x /\ In (t, e) fd) \/ (t = d_targetid x /\ e = d')) \/
  (~ In (d_targetid x) (map fst fd) /\ fd' = fd ++ [(d_targetid x, x)]).
Proof.
  induction fd as [|(k, e) fd IH]; intros fd' E N; cbn [forest_add] in E.
  - injection E as <-. right. easy.
  - cbn [map fst] in N. inversion N as [|? ? N1 N2]; subst. destruct (Z.eqb_spec (d_targetid x) k) as [Q|Q].
    + destruct (coadd e x) as [e'|] eqn:C; cbn in E; [|discriminate E]. injection E as <-. left.
      split; [now left|]. split; [easy|]. exists e, e'. rewrite Q. split; [now left|]. split; [easy|].
      intros t f. cbn [In]. assert (forall f', In (k, f') fd -> False) as Nk.
      { intros f' Hf. apply N1. apply in_map_iff. now exists (k, f'). }
      split.
      * intros [Z|Z]; [injection Z as <- <-; now right|]. left. split; [|now right]. intros ->. eauto.
      * intros [(Z1 & [Z|Z])|(-> & ->)]; [injection Z as <- <-; easy|now right|now left].
    + destruct (forest_add coadd x fd) as [fd1|] eqn:C; cbn in E; [|discriminate E]. injection E as <-.
      destruct (IH fd1 eq_refl N2) as [(I1 & I2 & d & d' & I3 & I4 & I5)|(I1 & ->)].
      * left. split; [now right|]. split; [cbn; now f_equal|]. exists d, d'. split; [now right|]. split; [easy|].
        intros t f. cbn [In]. rewrite I5. split.
        -- intros [Z|[Z|Z]]; [injection Z as <- <-; left; split; [congruence|now left]|left; split; [easy|now right]|now right].
        -- intros [(Z1 & [Z|Z])|Z]; auto.
      * right. split; [|easy]. cbn. intros [Z|Z]; [congruence|easy].
Qed.

Lemma dict_step l fd x fd' : dict_inv l fd -> forest_add coadd x fd = Ok fd' -> dict_inv (l ++ [x]) fd'.
Proof.
  intros (N & K & V) E. destruct (forest_add_inv x fd fd' E N) as [(I1 & I2 & d & d' & I3 & I4 & I5)|(I1 & ->)].
  - unfold dict_inv. rewrite I2. split; [easy|]. split.
    + intro t. rewrite map_app, in_app_iff, K. cbn. split; [intros [?|[<-|[]]]; easy|now left].
    + intros t e He. apply I5 in He as [(T & He)|(-> & ->)].
      * destruct (V t e He) as (V1 & d0 & r & V2 & V3). split; [easy|]. exists d0, r. split; [|easy].
        rewrite of_target_app. destruct (Z.eqb_spec (d_targetid x) t); [congruence|]. now rewrite app_nil_r.
      * destruct (V _ d I3) as (V1 & d0 & r & V2 & V3). split; [rewrite (keeps_id _ _ _ I4); easy|].
        exists d0, (r ++ [x]). rewrite of_target_app, V2, Z.eqb_refl. split; [easy|]. rewrite coadd_all_app, V3. exact I4.
  - unfold dict_inv. rewrite map_app. cbn [map fst]. split; [|split].
    + eapply Permutation_NoDup; [apply Permutation_app_comm|]. cbn. now constructor.
    + intro t. rewrite map_app, !in_app_iff, K. easy.
    + intros t e He. apply in_app_or in He as [He|[He|[]]].
      * destruct (V t e He) as (V1 & d0 & r & V2 & V3). split; [easy|]. exists d0, r. split; [|easy].
        rewrite of_target_app. destruct (Z.eqb_spec (d_targetid x) t) as [Q|Q]; [|now rewrite app_nil_r].
        exfalso. apply I1. rewrite Q. apply in_map_iff. now exists (t, e).
      * injection He as <- <-. split; [easy|]. exists x, []. rewrite of_target_app, Z.eqb_refl.
        rewrite of_target_none by (intro C; apply I1; now apply K). easy.
Qed.
Lemma read_dirs_inv files fd : read_dirs_to_dict coadd files = Ok fd -> dict_inv (concat files) fd.
Proof.
  unfold read_dirs_to_dict. destruct files as [|f fs] eqn:Q; [easy|]. rewrite <- Q. clear Q.
  assert (forall l done acc fd, dict_inv done acc -> for_each l (forest_add coadd) acc = Ok fd -> dict_inv (done ++ l) fd) as G.
  { induction l as [|x l IH]; intros done acc fd' D E; cbn [for_each] in E.
    - injection E as <-. now rewrite app_nil_r.
    - destruct (forest_add coadd x acc) as [acc'|] eqn:C; cbn [rbind] in E; [|discriminate E].
      change (x :: l) with ([x] ++ l). rewrite app_assoc. eapply IH; [|exact E]. eapply dict_step; eauto. }
  intro E. apply (G _ [] [] _); [|exact E]. repeat split; easy || constructor.
Qed.

(** grouping by pixel *)
Lemma group_add_spec d : forall g,
  NoDup (map fst g) -> (forall p l x, In (p, l) g -> In x l -> hpx x = p) ->
  NoDup (map fst (group_add hpx d g)) /\
  (forall p l x, In (p, l) (group_add hpx d g) -> In x l -> hpx x = p) /\
  Permutation (concat (map snd (group_add hpx d g))) (d :: concat (map snd g)) /\
  (forall p, In p (map fst (group_add hpx d g)) -> p = hpx d \/ In p (map fst g)).
Proof.
  induction g as [|(k, l) g IH]; intros N P; cbn [group_add].
  - cbn. split; [constructor; [easy|constructor]|]. split; [|split; [easy|]].
    + intros p l x [E|[]] Hx. injection E as <- <-. destruct Hx as [<-|[]]. easy.
    + intros p [<-|[]]. now left.
  - inversion N as [|? ? N1 N2]; subst. destruct (Z.eqb_spec (hpx d) k) as [Q|Q].
    + cbn [map fst snd concat]. split; [easy|]. split; [|split].
      * intros p l' x [E|E] Hx; [|apply (P p l'); [now right|easy]]. injection E as <- <-.
        apply in_app_or in Hx as [Hx|[<-|[]]]; [|easy]. apply (P k l); [now left|easy].
      * rewrite <- app_assoc. cbn. apply Permutation_sym, Permutation_middle.
      * intros p Hp. now right.
    + destruct (IH N2) as (A1 & A2 & A3 & A4); [intros p l' x Hl; apply P; now right|].
      cbn [map fst snd concat]. split; [|split; [|split]].
      * constructor; [|easy]. intro C. apply A4 in C as [C|C]; [congruence|easy].
      * intros p l' x [E|E] Hx; [injection E as <- <-; apply (P k l); [now left|easy]|now apply (A2 p l')].
      * etransitivity; [apply Permutation_app_head, A3|]. apply Permutation_sym, Permutation_middle.
      * intros p [<-|Hp]; [right; now left|]. apply A4 in Hp as [Hp|Hp]; [now left|right; now right].
Qed.
Lemma groups_spec fd : let g := fold_left (fun g kd => group_add hpx (snd kd) g) fd [] in
  NoDup (map fst g) /\ (forall p (l : list delta) x, In (p, l) g -> In x l -> hpx x = p) /\
  Permutation (concat (map snd g)) (map (@snd Z delta) fd).
Proof.
  cbn zeta.
  assert (forall fd g, NoDup (map fst g) -> (forall p l x, In (p, l) g -> In x l -> hpx x = p) ->
    let g' := fold_left (fun g kd => group_add hpx (snd kd) g) fd g in
    NoDup (map fst g') /\ (forall p (l : list delta) x, In (p, l) g' -> In x l -> hpx x = p) /\
    Permutation (concat (map snd g')) (map (@snd Z delta) fd ++ concat (map snd g))) as G.
  { clear fd. induction fd as [|kd fd IH]; intros g N P; [cbn; auto|]. cbn [fold_left map].
    destruct (group_add_spec (snd kd) g N P) as (A1 & A2 & A3 & A4). destruct (IH _ A1 A2) as (B1 & B2 & B3).
    split; [easy|]. split; [easy|]. etransitivity; [exact B3|]. etransitivity; [apply Permutation_app_head, A3|].
    apply Permutation_sym. cbn. apply Permutation_middle. }
  destruct (G fd [] (NoDup_nil _)) as (A1 & A2 & A3); [easy|]. rewrite app_nil_r in A3. auto.
Qed.

Lemma coadd_main_spec files out : coadd_main coadd hpx files = Ok out ->
  NoDup (map fst out) /\ NoDup (map h_targetid (concat (map snd out))) /\
  (forall t, In t (map d_targetid (concat files)) <-> In t (map h_targetid (concat (map snd out)))) /\
  (forall p hs h, In (p, hs) out -> In h hs -> exists d d0 r,
     h = delta_hdu d /\ hpx d = p /\ of_target (h_targetid h) (concat files) = d0 :: r /\ coadd_all coadd d0 r = Ok d).
Proof.
  unfold coadd_main. intro E. destruct (read_dirs_to_dict coadd files) as [fd|] eqn:R; cbn [rbind] in E; [|discriminate E].
  injection E as <-. destruct (read_dirs_inv files fd R) as (N & K & V).
  destruct (groups_spec fd) as (G1 & G2 & G3). set (g := fold_left _ fd []) in *. clearbody g.
  assert (map fst (map (fun p : Z * list delta => (fst p, map delta_hdu (snd p))) g) = map fst g) as Ef by (rewrite map_map; reflexivity).
  assert (concat (map snd (map (fun p : Z * list delta => (fst p, map delta_hdu (snd p))) g)) = map delta_hdu (concat (map snd g))) as Es.
  { rewrite map_map. cbn [snd]. rewrite concat_map, map_map. reflexivity. }
  rewrite Ef, Es, map_map. cbn [h_targetid delta_hdu].
  assert (map (fun x => h_targetid (delta_hdu x)) (map (@snd Z delta) fd) = map fst fd) as Et.
  { rewrite map_map. apply map_ext_in. intros (t, d) Hd. now destruct (V t d Hd). }
  pose proof (Permutation_map (fun x => h_targetid (delta_hdu x)) G3) as G4. rewrite Et in G4.
  split; [easy|]. split; [eapply Permutation_NoDup; [apply Permutation_sym, G4|easy]|]. split.
  - intro t. rewrite K. split; apply Permutation_in; [now apply Permutation_sym|easy].
  - intros p hs h Hp Hh. apply in_map_iff in Hp as ((p', l) & Q & Hl). injection Q as <- <-.
    apply in_map_iff in Hh as (d & <- & Hd). cbn [snd] in Hd.
    assert (In d (map (@snd Z delta) fd)) as Hfd.
    { eapply Permutation_in; [exact G3|]. apply in_concat. exists l. split; [|easy]. apply in_map_iff. now exists (p', l). }
    apply in_map_iff in Hfd as ((t, d') & Q & Hfd). cbn in Q. subst d'.
    destruct (V t d Hfd) as (V1 & d0 & r & V2 & V3). exists d, d0, r. split; [easy|]. split; [now apply (G2 p' l)|].
    cbn. rewrite V1. easy.
Qed.

(** Nothing is written if there is no file; otherwise the script fails only if a coadd fails. *)
Lemma coadd_main_total files : files <> [] ->
  (forall a b, In b (concat files) -> exists c, coadd a b = Ok c) -> exists out, coadd_main coadd hpx files = Ok out.
Proof.
  intros Ne T. unfold coadd_main, read_dirs_to_dict. destruct files as [|f r] eqn:Q; [easy|]. rewrite <- Q in *. clear Q.
  assert (forall l acc, (forall x, In x l -> In x (concat files)) -> exists fd, for_each l (forest_add coadd) acc = Ok fd) as G.
  { induction l as [|x l IH]; intros acc H; cbn [for_each]; [eauto|].
    assert (forall fd, exists fd', forest_add coadd x fd = Ok fd') as A.
    { induction fd as [|(k, e) fd IHf]; cbn; [eauto|]. destruct (Z.eqb (d_targetid x) k).
      - destruct (T e x) as (c & ->); [apply H; now left|]. cbn. eauto.
      - destruct IHf as (fd' & ->). cbn. eauto. }
    destruct (A acc) as (fd' & ->). cbn [rbind]. apply IH. intros; apply H; now right. }
  destruct (G (concat files) []) as (fd & ->); [easy|]. cbn. eauto.
Qed.
End S.

Section Order.
Variable coadd : delta -> delta -> res delta.
Variable hpx : delta -> Z.
Hypothesis keeps_id : forall a b c, coadd a b = Ok c -> d_targetid c = d_targetid a.
Hypothesis keeps_hpx : forall a b c, coadd a b = Ok c -> hpx c = hpx a.
Lemma coadd_all_hpx d0 r d : coadd_all coadd d0 r = Ok d -> hpx d = hpx d0.
Proof.
  unfold coadd_all. revert d0. induction r as [|x r IH]; intros d0 E; cbn [for_each] in E; [congruence|].
  destruct (coadd d0 x) as [d1|] eqn:C; cbn [rbind] in E; [|discriminate E].
  rewrite (IH _ E). now apply keeps_hpx in C.
Qed.
Lemma coadd_all_id d0 r d : coadd_all coadd d0 r = Ok d -> d_targetid d = d_targetid d0.
Proof.
  unfold coadd_all. revert d0. induction r as [|x r IH]; intros d0 E; cbn [for_each] in E; [congruence|].
  destruct (coadd d0 x) as [d1|] eqn:C; cbn [rbind] in E; [|discriminate E].
  rewrite (IH _ E). now apply keeps_id in C.
Qed.
Lemma written_in_spec files out : coadd_main coadd hpx files = Ok out -> one_place hpx (concat files) ->
  forall t p, written_in t p out <-> exists d, In d (concat files) /\ d_targetid d = t /\ hpx d = p.
Proof.
  intros E O t p. destruct (coadd_main_spec coadd hpx keeps_id files out E) as (N1 & N2 & K & V).
  assert (forall d0 r, of_target t (concat files) = d0 :: r -> In d0 (concat files) /\ d_targetid d0 = t) as F.
  { intros d0 r Q. assert (In d0 (of_target t (concat files))) as Hin by (rewrite Q; now left).
    apply filter_In in Hin as (Hin & Hq). now apply Z.eqb_eq in Hq. }
  split.
  - intros (hs & h & Hp & Hh & <-). destruct (V p hs h Hp Hh) as (d & d0 & r & -> & <- & Q & C).
    destruct (F d0 r Q) as (F1 & F2). exists d0. split; [easy|]. split; [easy|]. now rewrite (coadd_all_hpx _ _ _ C).
  - intros (d & Hd & <- & <-). assert (In (d_targetid d) (map h_targetid (concat (map snd out)))) as Hin by (apply K; now apply in_map).
    apply in_map_iff in Hin as (h & Eh & Hh). apply in_concat in Hh as (hs & Hs & Hh). apply in_map_iff in Hs as ((p, hs') & <- & Hp).
    cbn in Hh. destruct (V p hs' h Hp Hh) as (d' & d0 & r & -> & <- & Q & C). rewrite Eh in Q. destruct (F d0 r Q) as (F1 & F2).
    exists hs', (delta_hdu d'). split; [|easy]. rewrite (coadd_all_hpx _ _ _ C) in Hp. rewrite (O d d0); auto.
Qed.

Lemma file_order files out files' out' :
  coadd_main coadd hpx files = Ok out -> coadd_main coadd hpx files' = Ok out' ->
  Permutation (concat files) (concat files') -> one_place hpx (concat files) ->
  forall t p, written_in t p out <-> written_in t p out'.
Proof.
  intros E E' P O t p. rewrite (written_in_spec files out E O).
  rewrite (written_in_spec files' out' E').
  - split; intros (d & H1 & H2); exists d; (split; [|easy]).
    + now apply (Permutation_in d P).
    + now apply (Permutation_in d (Permutation_sym P)).
  - intros a b Ha Hb. apply O; [apply (Permutation_in a (Permutation_sym P))|apply (Permutation_in b (Permutation_sym P))]; assumption.
Qed.
End Order.

Lemma coadd_keeps nsqrt dw a b c : delta_coadd nsqrt dw a b = Ok c -> d_targetid c = d_targetid a /\ d_radec c = d_radec a.
Proof.
  unfold delta_coadd. intro E.
  repeat match type of E with
  | rbind ?x _ = _ => destruct x; cbn [rbind] in E; [|discriminate E]
  end.
  injection E as <-. easy.
Qed.

Lemma filter_perm {A} (f : A -> bool) l l' : Permutation l l' -> Permutation (filter f l) (filter f l').
Proof.
  induction 1; cbn.
  - constructor.
  - destruct (f x); [now constructor|easy].
  - destruct (f x), (f y); try apply Permutation_refl. constructor.
  - etransitivity; eauto.
Qed.
Lemma delta_hdu_inj d d' : delta_hdu d = delta_hdu d' -> d_reso d = None -> d_reso d' = None -> same_arrays d d'.
Proof.
  intros E R R'. assert (delta_columns d = delta_columns d') as C by exact (f_equal h_cols E).
  unfold delta_columns in C. rewrite R, R' in C. cbn in C. injection C as C1 C2 C3 C4 C5 C6.
  unfold same_arrays. easy.
Qed.
Lemma contents_order nsqrt dw w hpx files out files' out' :
  (0 < dw)%Qc -> uniform dw w -> Forall (plain w) (concat files) ->
  coadd_main (delta_coadd nsqrt dw) hpx files = Ok out -> coadd_main (delta_coadd nsqrt dw) hpx files' = Ok out' ->
  Permutation (concat files) (concat files') ->
  forall d d', In (delta_hdu d) (concat (map snd out)) -> In (delta_hdu d') (concat (map snd out')) ->
    d_targetid d = d_targetid d' -> d_reso d = None -> d_reso d' = None -> same_arrays d d'.
Proof.
  intros H U F E E' P d d' Hd Hd' T R R'.
  assert (forall a b c, delta_coadd nsqrt dw a b = Ok c -> d_targetid c = d_targetid a) as K
    by (intros a b c Q; now apply coadd_keeps in Q).
  destruct (coadd_main_spec _ hpx K files out E) as (_ & _ & _ & V).
  destruct (coadd_main_spec _ hpx K files' out' E') as (_ & _ & _ & V').
  apply in_concat in Hd as (hs & Hs & Hd). apply in_map_iff in Hs as ((p, hs1) & <- & Hp). cbn in Hd.
  apply in_concat in Hd' as (hs' & Hs' & Hd'). apply in_map_iff in Hs' as ((p', hs1') & <- & Hp'). cbn in Hd'.
  destruct (V _ _ _ Hp Hd) as (e & d0 & r & Eh & _ & Q & C).
  destruct (V' _ _ _ Hp' Hd') as (e' & d0' & r' & Eh' & _ & Q' & C').
  cbn [h_targetid delta_hdu] in Q, Q'. rewrite <- T in Q'.
  assert (Permutation (d0 :: r) (d0' :: r')) as P2 by (rewrite <- Q, <- Q'; now apply filter_perm).
  assert (Forall (plain w) (d0 :: r)) as F2.
  { rewrite <- Q. rewrite Forall_forall in *. intros x Hx. apply filter_In in Hx as (Hx & _). now apply F. }
  destruct (plain_order nsqrt dw w d0 r d0' r' H U F2 P2) as (x & x' & X1 & X2 & X3).
  assert (x = e) as -> by congruence. assert (x' = e') as -> by congruence.
  assert (d_reso e = None /\ d_reso e' = None) as (Re & Re').
  { assert (Forall (plain w) (d0' :: r')) as F3 by (now apply (Permutation_Forall P2)).
    rewrite Forall_forall in F2, F3.
    destruct (plain_all nsqrt dw w H U r d0) as (y & Y1 & Y2 & _); [apply F2; now left|intros; apply F2; now right|].
    destruct (plain_all nsqrt dw w H U r' d0') as (y' & Y1' & Y2' & _); [apply F3; now left|intros; apply F3; now right|].
    assert (y = e) as -> by congruence. assert (y' = e') as -> by congruence.
    split; [apply Y2|apply Y2']. }
  destruct (delta_hdu_inj d e Eh R Re) as (A1 & A2 & A3 & A4 & A5).
  destruct (delta_hdu_inj d' e' Eh' R' Re') as (B1 & B2 & B3 & B4 & B5).
  destruct X3 as (D1 & D2 & D3 & D4 & D5). unfold same_arrays. repeat split; congruence.
Qed.
