(** Model of Spectrum.mean_resolution (py/qsonic/spectrum.py 678-714) over the reals; rounding
    is not modelled.  [None] is nan. *)
From Coq Require Import Bool Reals List ZArith.
Import ListNotations.
Local Open Scope R_scope.

Notation val := (option R).

(** np.dot of a row with the weights: nan as soon as one entry is, even with weight 0
    (lines 701-702) *)
Fixpoint vdot (row : list val) (w : list R) : val :=
  match row, w with
  | x :: row, y :: w =>
      match x, vdot row w with Some x, Some s => Some (x * y + s) | _, _ => None end
  | _, _ => Some 0
  end.
Fixpoint rsum (l : list R) : R := match l with [] => 0 | x :: l => x + rsum l end.
(** division by the total weight.  Weights are nonnegative, so that the numerator is 0 if the
    total is: 0/0 = nan *)
Definition vdiv (x : val) (t : R) : val :=
  match x with Some x => if Req_EM_T t 0 then None else Some (x / t) | None => None end.

(** ndarray.argmax (line 704): the first nan if there is one, else the first largest entry *)
Fixpoint first_nan (i : nat) (l : list val) : option nat :=
  match l with [] => None | None :: _ => Some i | Some _ :: l => first_nan (S i) l end.
Fixpoint argmax_from (bi : nat) (b : R) (i : nat) (l : list val) : nat :=
  match l with
  | Some x :: l => if Rlt_dec b x then argmax_from i x (S i) l else argmax_from bi b (S i) l
  | _ => bi
  end.
(** None: ValueError of the empty array *)
Definition argmax (l : list val) : option nat :=
  match first_nan 0 l with
  | Some i => Some i
  | None => match l with Some x :: l' => Some (argmax_from 0 x 1 l') | _ => None end
  end.

(** integer indexing: negative indices count from the end, None is IndexError (line 706) *)
Definition index (l : list val) (i : Z) : option val :=
  let n := Z.of_nat (length l) in
  let j := (if i <? 0 then i + n else i)%Z in
  if (j <? 0)%Z then None else nth_error l (Z.to_nat j).

(** np.log of the ratio (lines 706-707) *)
Inductive lg := LNan | LFin (x : R) | LPInf | LNInf.
Definition log_ratio (p x : val) : lg :=
  match p, x with
  | Some p, Some x =>
      if Req_EM_T x 0 then (if Rlt_dec 0 p then LPInf else LNan)
      else if Rlt_dec 0 (p / x) then LFin (ln (p / x))
      else if Req_EM_T (p / x) 0 then LNInf else LNan
  | _, _ => LNan
  end.
(** w2 (line 708), and new_ratios (710-711) *)
Definition positive (x : lg) : bool :=
  match x with LFin x => if Rlt_dec 0 x then true else false | LPInf => true | _ => false end.
Definition new_ratio (x : lg) : R :=
  match x with LFin y => if positive x then 1 / sqrt y else 0 | _ => 0 end.

Definition off_idx : list Z := [-2; -1; 1; 2]%Z.

Inductive reso_out := Absent | Raised | Nan | Value (v : R).

(** indexing with an array of integers *)
Fixpoint indices (l : list val) (is : list Z) : option (list val) :=
  match is with
  | [] => Some []
  | i :: is => match index l i, indices l is with Some v, Some vs => Some (v :: vs) | _, _ => None end
  end.
(** spectrum.py 694-714 for one arm: the resolution matrix (rows are diagonals), wavelengths and
    weights of this arm.  Arrays that do not match raise. *)
Definition mean_resolution (dwave : R) (forestreso : option (list (list val))) (wave weight : list R) : reso_out :=
  match forestreso with
  | None => Absent
  | Some m =>
      if forallb (fun row => Nat.eqb (length row) (length weight)) m && Nat.eqb (length wave) (length weight) then
        let total := rsum weight in
        let reso := map (fun row => vdiv (vdot row weight) total) m in
        let lambda_eff := vdiv (vdot (map Some wave) weight) total in
        match argmax reso with
        | None => Raised
        | Some c =>
            match nth_error reso c, indices reso (map (fun o => (Z.of_nat c + o)%Z) off_idx) with
            | Some p, Some xs =>
                let ratios := map (log_ratio p) xs in
                let norm := rsum (map (fun r => if positive r then 1 else 0) ratios) in
                let s := rsum (map (fun or => IZR (Z.abs (fst or)) * new_ratio (snd or)) (combine off_idx ratios)) in
                match vdiv (Some (s / sqrt 2)) norm, lambda_eff with
                | Some rms, Some l => Value (rms * 300000 * dwave / l)
                | _, _ => Nan
                end
            | _, _ => Raised
            end
        end
      else Raised
  end.
