(** Model of reading calibration and fiducial tables: py/qsonic/picca_continuum.py 149-198
    and py/qsonic/calibration.py 69-94, 163-184.

    A FITS table is given by its columns, lists of finite values of the same length;
    a missing extension or column is an exception before anything else happens. *)
From Coq Require Import String ZArith List Bool Arith Qcanon.
From Verif Require Import Num Exn ModelInterp.
Import ListNotations.
Local Open Scope nat_scope.

Definition abs_q (x : Qc) : Qc := if qleb 0 x then x else (- x)%Qc.
(** np.diff *)
Fixpoint np_diff (l : list Qc) : list Qc :=
  match l with a :: ((b :: _) as r) => (b - a)%Qc :: np_diff r | _ => [] end.
(** np.allclose(a, b) of an array and a number: |a - b| <= 1e-8 + 1e-5 |b| *)
Definition allclose (l : list Qc) (b : Qc) : bool :=
  forallb (fun a => qleb (abs_q (a - b)) (fq 1 100000000 + fq 1 100000 * abs_q b)) l.

(** picca_continuum.py 181-189, calibration.py 73-82, 167-176: waves[0] and the spacing *)
Definition spacing (waves : list Qc) : res (Qc * Qc) :=
  match waves with
  | w0 :: w1 :: _ =>
      let dwave := (w1 - w0)%Qc in
      if allclose (np_diff waves) dwave then Ok (w0, dwave) else Err (OtherExn "wave is not equally spaced.")
  | _ => Err (OtherExn "IndexError")
  end.

(** eta[eta == 0] = 1 *)
Definition zero_to_one (l : list Qc) : list Qc := map (fun x => if qeqb x 0 then 1%Qc else x) l.

(** picca_continuum.py 177-193 _get_fiducial_interp._read *)
Definition read_fiducial (waves col : list Qc) : res linterp :=
  rmap (fun s => mklin (fst s) (snd s) col) (spacing waves).
(** calibration.py 163-184 FluxCalibrator._read *)
Definition read_stacked_flux (waves stacked_flux : list Qc) : res linterp :=
  rmap (fun s => mklin (fst s) (snd s) (zero_to_one stacked_flux)) (spacing waves).
(** calibration.py 69-94 NoiseCalibrator._read: (eta, var_lss); [junk] are the contents of
    np.empty in the two splines *)
Definition read_var_func (junk junk' : nat -> Qc) (waves var_lss eta : list Qc) : res (cinterp * cinterp) :=
  rbind (spacing waves) (fun s =>
  rbind (cubic_init junk (fst s) (snd s) var_lss NotAKnot) (fun v =>
  rbind (cubic_init junk' (fst s) (snd s) (zero_to_one eta) NotAKnot) (fun e => Ok (e, v)))).
