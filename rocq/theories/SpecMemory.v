(** Specification vocabulary for the independence from uninitialised memory (C77). *)
From Coq Require Import ZArith String List Bool Arith Qcanon.
From Verif Require Import Num NpList Exn Dict Mpi ModelSpectrum ModelDelta ModelIO.
Import ListNotations.
Local Open Scope nat_scope.

(** two computations raise the same exception, or return values related by R *)
Definition same_res {A B} (R : A -> B -> Prop) (x : res A) (y : res B) : Prop :=
  match x, y with Ok a, Ok b => R a b | Err e, Err e' => e = e' | _, _ => False end.
(** two parallel runs hang, are aborted or end the same way; a rank that finishes in one
    finishes in the other with a related value *)
Definition same_ending {A} (R : A -> A -> Prop) (x y : ending A) : Prop :=
  match x, y with Finished a, Finished b => R a b | Failed e, Failed e' => e = e' | _, _ => False end.
Definition same_outcome {A} (R : A -> A -> Prop) (x y : outcome A) : Prop :=
  match x, y with
  | Done l, Done l' => Forall2 (same_ending R) l l'
  | Deadlock, Deadlock | Aborted, Aborted => True
  | _, _ => False
  end.

(** two HDUs of delta files have the same header and the same columns LAMBDA, DELTA, IVAR, WEIGHT
    and RESOMAT; CONT is the same in all pixels but those with DELTA = IVAR = 0 *)
Definition same_hdu (h h' : hdu) : Prop :=
  h_targetid h = h_targetid h' /\ h_arm h = h_arm h' /\ h_expid h = h_expid h' /\ h_meansnr h = h_meansnr h' /\
  h_blinding h = h_blinding h' /\ h_ra_dec h = h_ra_dec h' /\
  exists names wave delta ivar weight cont cont' rest,
    h_cols h = combine names (CWave wave :: CNum delta :: CNum ivar :: CNum weight :: CNum cont :: rest) /\
    h_cols h' = combine names (CWave wave :: CNum delta :: CNum ivar :: CNum weight :: CNum cont' :: rest) /\
    length cont = length cont' /\
    forall k, nth_error cont k = nth_error cont' k \/ (nth_error ivar k = Some n0 /\ nth_error delta k = Some n0).

(** the same quasar with the same chi2, which [write] puts into the same HDUs *)
Definition same_quasar (write : spec -> res (list hdu)) (s s' : spec) : Prop :=
  s_cat s = s_cat s' /\ s_chi2 s = s_chi2 s' /\ s_valid s = s_valid s' /\ s_x s = s_x s' /\
  same_res (Forall2 same_hdu) (write s) (write s').
(** the same delta files *)
Definition same_files (write : spec -> res (list hdu)) (x y : @saved spec) : Prop :=
  Forall2 (fun f f' => fst f = fst f' /\ Forall2 (same_quasar write) (snd f) (snd f')) x y.

(** smoothing the inverse variance leaves masked pixels masked *)
Definition keeps_masked (smooth : arr -> Qc -> arr) : Prop :=
  forall a x k, nth_error a k = Some n0 -> nth_error (smooth a x) k = Some n0.
Definition finite (junk : nat -> num) : Prop := forall k, exists q, junk k = Fin q.

(** some pixel of the arms is put into pixel k of the grid of the coadd, which has n pixels *)
Definition covered (dwave min_wave : Qc) (n : nat) (d : dict (list Qc)) (k : nat) : Prop :=
  exists arm wave w, In (arm, wave) d /\ In w wave /\ norm_idx n (pix_idx min_wave dwave w) = Ok k.
(** all pixels of the coadd, whose grid goes from the first to the last wavelength of the arms, are covered *)
Definition arms_cover (dwave : Qc) (s : spec) : Prop :=
  forall firsts lasts mn mx k, rseq (map rfirst (dvals (fw (s_f s)))) = Ok firsts -> rseq (map rlast (dvals (fw (s_f s)))) = Ok lasts ->
    rmin firsts = Ok mn -> rmax lasts = Ok mx ->
    let n := Z.to_nat (qtrunc ((mx - mn) / dwave + fq 1 10) + 1) in k < n -> covered dwave mn n (fw (s_f s)) k.
