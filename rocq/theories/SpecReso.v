(** Specification vocabulary for coadded resolution matrices (C62). *)
From Coq Require Import ZArith String List Bool Arith Qcanon.
From Verif Require Import Num NpList Dict ModelSpectrum SpecSpectrum SpecCoadd.
Import ListNotations.
Local Open Scope nat_scope.

(** The rows of a resolution matrix are its diagonals, one column per pixel; the
    middle row is the main diagonal.  Entry of column k on the diagonal at offset o. *)
Definition middle (m : mat) : Z := Z.of_nat ((length m - 1) / 2).
Definition diagonal (m : mat) (k : nat) (o : Z) : Qc :=
  if (middle m + o <? 0)%Z then 0%Qc
  else match nth_error m (Z.to_nat (middle m + o)) with
       | Some row => match nth_error row k with Some (Fin q) => q | _ => 0%Qc end
       | None => 0%Qc
       end.

(** weight of a pixel; pixels without weight count 1e-8 *)
Definition used_weight (s : spec) (arm : string) (k : nat) : Qc :=
  match at_pix (fweight (s_f s)) arm k with
  | Some (Fin q) => if Qc_eq_dec q 0 then fq 1 100000000 else q
  | _ => 0%Qc
  end.
(** pixel k of this arm belongs to coadded pixel j *)
Definition lands (s : spec) (mn dw : Qc) (j : nat) (arm : string) (k : nat) : bool :=
  match at_pix (fw (s_f s)) arm k with Some x => on_pixel mn dw j x | None => false end.

(** the columns that are averaged in coadded pixel j, with their weights *)
Definition contributions (s : spec) (mn dw : Qc) (j : nat) : list (Qc * (Z -> Qc)) :=
  flat_map (fun am => map (fun k => (used_weight s (fst am) k, diagonal (snd am) k))
                          (filter (lands s mn dw j (fst am)) (seq 0 (length (dlist (fst am) (fw (s_f s)))))))
           (fr (s_f s)).
Definition mean_at (l : list (Qc * (Z -> Qc))) (o : Z) : Qc :=
  (qsum (map (fun c => fst c * snd c o) l) / qsum (map fst l))%Qc.

(** entry of row d, column j *)
Definition entry_at (m : mat) (d j : nat) : option num :=
  match nth_error m d with Some row => nth_error row j | None => None end.
(** sum of a column *)
Definition column_sum (m : mat) (j : nat) : Qc := qsum (map (fun d => diagonal m j (Z.of_nat d - middle m)) (seq 0 (length m))).

Definition reso_finite (s : spec) : Prop :=
  forall arm m row, In (arm, m) (fr (s_f s)) -> In row m -> Forall (fun x => nfinite x = true) row.
(** M is the coadded matrix of s on n pixels: the largest number of diagonals; each column is, diagonal by diagonal, the weighted
    mean of the columns that land there, and nan where none does *)
Definition coadded_reso (s : spec) (mn dw : Qc) (n : nat) (M : mat) : Prop :=
  (forall arm m, In (arm, m) (fr (s_f s)) -> length m <= length M) /\ (exists arm m, In (arm, m) (fr (s_f s)) /\ length m = length M) /\
  Forall (fun row => length row = n) M /\
  forall j d, j < n -> d < length M ->
    (contributions s mn dw j <> [] -> entry_at M d j = Some (Fin (mean_at (contributions s mn dw j) (Z.of_nat d - middle M)))) /\
    (contributions s mn dw j = [] -> entry_at M d j = Some NaN).
