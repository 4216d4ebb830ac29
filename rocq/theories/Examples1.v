(** Concrete values used by the non-vacuity examples and by the witnesses of the
    refutations. *)
From Coq Require Import String ZArith List Bool Arith Lia Permutation Sorting.Sorted Qcanon.
From Verif Require Import Num Exn NpList NpListFacts ModelCatalog ModelIO SpecCatalog.
Import ListNotations.
Local Open Scope nat_scope.

(** A stable argsort. *)
Definition argsort_ex (l : list Z) : list nat :=
  map snd (isort (fun a b => Z.leb (fst a) (fst b)) (combine l (seq 0 (List.length l)))).

Lemma argsort_ex_ok : argsort_ok argsort_ex.
Proof.
  intro l. unfold argsort_ex.
  set (leb := fun a b : Z * nat => Z.leb (fst a) (fst b)).
  set (c := combine l (seq 0 (List.length l))).
  assert (map snd c = seq 0 (List.length l)) as E1.
  { unfold c. generalize 0. induction l as [|x l IH]; intro s; cbn; [easy|]. now rewrite IH. }
  assert (forall p, In p c -> nth (snd p) l 0%Z = fst p) as E2.
  { unfold c.
    assert (forall pre p, In p (combine l (seq (List.length pre) (List.length l))) ->
              nth (snd p) (pre ++ l) 0%Z = fst p) as G.
    { clear. induction l as [|x l IH]; intros pre p H; cbn in *; [easy|].
      destruct H as [<-|H]; cbn.
      - rewrite app_nth2, Nat.sub_diag by lia. reflexivity.
      - specialize (IH (pre ++ [x]) p). rewrite app_length, <- app_assoc in IH. cbn in IH.
        rewrite Nat.add_1_r in IH. now apply IH. }
    intros p H. now apply (G [] p). }
  split.
  - rewrite <- E1. apply Permutation_map, isort_perm.
  - rewrite map_map. rewrite (map_ext_in _ fst).
    + apply (StronglySorted_map fst Z.le).
      eapply StronglySorted_impl; [|apply (isort_sorted leb)].
      * cbn. intros a b _ _ H. now apply Z.leb_le.
      * unfold leb. intros a b. destruct (Z.leb_spec (fst a) (fst b)); [now left|right; apply Z.leb_le; lia].
      * unfold leb. intros a b d H1 H2. apply Z.leb_le in H1, H2. apply Z.leb_le. lia.
    + intros p H. apply E2. eapply Permutation_in; [apply isort_perm|exact H].
Qed.

(** rows (TARGETID, Z, SURVEY, HPXPIXEL) *)
Definition mkr (tid z survey pix tile : Z) : row :=
  mkrow tid (Fin (zq z)) (Fin (zq pix)) (Fin 0%Qc) survey pix tile 0 20210101.
Definition cols_ex : list string :=
  ["TARGETID"; "Z"; "RA"; "DEC"; "SURVEY"; "LASTNIGHT"; "TILEID"; "PETAL_LOC"; "HPXPIXEL"]%string.
(** ang2pix is not used for catalogs with an HPXPIXEL column *)
Definition pix_ex : Z -> num -> num -> Z := fun _ _ _ => 0%Z.

(** three quasars in one healpix, the middle one from another survey; one
    quasar in another healpix; one outside of the redshift range *)
Definition catalog_ex : catalog :=
  mkcat cols_ex [mkr 3 2 1 7 10; mkr 1 2 1 7 10; mkr 2 3 2 7 11; mkr 9 2 1 8 11; mkr 5 50 1 8 10].
(** files of the surveys 1 and 2 of healpix 7; image rows are numbers *)
Definition files_ex (survey : Z) : specfile Z unit :=
  if Z.eqb survey 1 then mkfile [(3, tt); (4, tt); (1, tt)]%Z [103; 104; 101]%Z
  else mkfile [(3, tt); (2, tt)]%Z [203; 202]%Z.
