(** Specification vocabulary for delta files (C35, C36, C37). *)
From Coq Require Import ZArith String List Bool Arith Qcanon.
From Verif Require Import Num NpList Exn Dict ModelSpectrum ModelDelta SpecSpectrum SpecCoadd.
Import ListNotations.
Local Open Scope nat_scope.

(** column names of a delta file *)
Definition names_of (blind reso : bool) : list string :=
  ["LAMBDA"; if blind then "DELTA_BLIND" else "DELTA"; "IVAR"; "WEIGHT"; "CONT"]%string
  ++ (if reso then ["RESOMAT"%string] else []).
(** what must be in the file for a pixel of flux f, ivar i, weight w and continuum c *)
Definition file_pixel (f i w c d i' w' : Qc) : Prop :=
  i' = (i * (c * c))%Qc /\ w' = (w * (c * c))%Qc /\
  (i' = 0%Qc -> d = 0%Qc) /\ (i' <> 0%Qc -> d = (f / c - 1)%Qc).
Definition finite_at (d : dict (list num)) (arm : string) (k : nat) (q : Qc) : Prop := at_pix d arm k = Some (Fin q).
(** the arms that are written: those whose mean S/N is not 0 *)
Definition arm_written (m : dict num) (arm : string) : bool :=
  match dget arm m with Some v => negb (neqb v n0) | None => false end.

(** a delta whose arrays have the length of its grid of step dw and are finite *)
Definition all_fin (l : list num) : Prop := Forall (fun x => nfinite x = true) l.
Definition delta_ok (d : delta) : Prop :=
  d_wave d <> [] /\ ascending (d_wave d) /\
  length (d_delta d) = length (d_wave d) /\ length (d_ivar d) = length (d_wave d) /\
  length (d_weight d) = length (d_wave d) /\ length (d_cont d) = length (d_wave d) /\
  all_fin (d_delta d) /\ all_fin (d_ivar d) /\ all_fin (d_weight d) /\ all_fin (d_cont d).
(** the pixels of a delta; [e_flux] is delta or the continuum *)
Definition delta_entries (d : delta) : list entry := zip4 (d_wave d) (d_weight d) (d_delta d) (d_ivar d).
Definition cont_entries (d : delta) : list entry := zip4 (d_wave d) (d_weight d) (d_cont d) (d_ivar d).
Definition lands (mn dw : Qc) (j : nat) (l : list entry) : list entry :=
  filter (fun e => on_pixel mn dw j (e_wave e)) l.

(** pixels of both deltas that go to pixel j of the coadded grid *)
Definition both (ents : delta -> list entry) (mn dw : Qc) (j : nat) (d1 d2 : delta) : list entry :=
  lands mn dw j (ents d1) ++ lands mn dw j (ents d2).
(** the weights do not exceed the inverse variances *)
Definition weight_le_ivar (l : list entry) : Prop := forall e, In e l -> (e_weight e <= e_ivar e)%Qc.
(** large-scale-structure variance: the coadded weight w satisfies 1/w = 1/ivar + lss where lss is
    the average of (1/weight - 1/ivar), weighted by weight, over the given pixels *)
Definition lss_term (e : entry) : Qc := if qltb 0 (e_ivar e) then (1 - e_weight e / e_ivar e)%Qc else 1%Qc.
Definition coadded_weight (l : list entry) (iv w : Qc) : Prop :=
  let W := qsum (map e_weight l) in
  (W = 0%Qc -> w = 0%Qc) /\
  ((0 < W)%Qc -> (0 < w)%Qc /\ (/ w = / iv + qsum (map lss_term l) / W)%Qc).

(** ** Coadding many deltas *)
Definition qv (a : list num) (j : nat) : Qc := nval (nth j a NaN).
(** grid w, every pixel has weight = ivar > 0 (no large-scale-structure variance), no resolution *)
Definition plain (w : list Qc) (d : delta) : Prop :=
  delta_ok d /\ d_wave d = w /\ d_reso d = None /\ d_weight d = d_ivar d /\
  Forall (fun x => (0 < nval x)%Qc) (d_ivar d).
Definition coadd_all (coadd : delta -> delta -> res delta) (d : delta) (ds : list delta) : res delta :=
  for_each ds (fun x acc => coadd acc x) d.
Definition same_arrays (d d' : delta) : Prop :=
  d_wave d = d_wave d' /\ d_delta d = d_delta d' /\ d_ivar d = d_ivar d' /\ d_weight d = d_weight d' /\ d_cont d = d_cont d'.
(** mn is the smallest and mx the largest wavelength of the two deltas *)
Definition spans (d1 d2 : delta) (mn mx : Qc) : Prop :=
  (In mn (d_wave d1 ++ d_wave d2) /\ forall x, In x (d_wave d1 ++ d_wave d2) -> (mn <= x)%Qc) /\
  (In mx (d_wave d1 ++ d_wave d2) /\ forall x, In x (d_wave d1 ++ d_wave d2) -> (x <= mx)%Qc).

(** ** Coadd script *)
(** the deltas with this TARGETID, in order *)
Definition of_target (t : Z) (l : list delta) : list delta := filter (fun d => Z.eqb (d_targetid d) t) l.
(** the deltas of one quasar are at one place on the sky *)
Definition one_place (hpx : delta -> Z) (l : list delta) : Prop :=
  forall a b, In a l -> In b l -> d_targetid a = d_targetid b -> hpx a = hpx b.
(** file p of the output has a delta of target t *)
Definition written_in (t p : Z) (out : list (Z * list hdu)) : Prop :=
  exists hs h, In (p, hs) out /\ In h hs /\ h_targetid h = t.

(** [h] is the HDU of one arm of s, and [d] what is read back from it *)
Definition arm_file (set_pop : list string -> string) (pow10 : Qc -> Qc) (st : statics) (s : spec) (blind : bool) (h : hdu) (d : delta) : Prop :=
  h_targetid h = c_targetid (s_cat s) /\ h_expid h = c_expid (s_cat s) /\
  h_blinding h = st_blinding st /\ dkeys (h_cols h) = st_colnames st /\
  delta_read set_pop pow10 h = Ok d /\ d_targetid d = c_targetid (s_cat s) /\ d_meansnr d = h_meansnr h /\
  Some (d_wave d) = dget (h_arm h) (fw (s_f s)) /\
  d_blinded d = blind /\ d_reso d = dget (h_arm h) (fr (s_f s)) /\ Some (d_cont d) = dget (h_arm h) (s_cont s) /\
  length (d_delta d) = length (d_wave d) /\ length (d_ivar d) = length (d_wave d) /\ length (d_weight d) = length (d_wave d) /\
  forall k, k < length (d_wave d) -> exists f i w c dl i' w',
    finite_at (ff (s_f s)) (h_arm h) k f /\ finite_at (fivar (s_f s)) (h_arm h) k i /\
    finite_at (fweight (s_f s)) (h_arm h) k w /\ finite_at (s_cont s) (h_arm h) k c /\
    nth_error (d_delta d) k = Some (Fin dl) /\ nth_error (d_ivar d) k = Some (Fin i') /\
    nth_error (d_weight d) k = Some (Fin w') /\ file_pixel f i w c dl i' w'.

