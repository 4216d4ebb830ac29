(** Model of the chi2 catalog (picca_continuum.py 632-681).

    The columns are exact (the code writes f4 and i4).  The degrees of freedom
    of a spectrum are kept beside it. *)
From Coq Require Import ZArith String List Bool Arith Qcanon.
From Verif Require Import Num NpList Exn Dict Mpi ModelSpectrum.
Import ListNotations.
Local Open Scope nat_scope.

(** a spectrum with cont_params['xcov'] and cont_params['dof'] *)
Record entry := mkEntry { e_spec : spec; e_xcov : mat; e_dof : Z }.

(** 648-655: dtype of the catalog *)
Record chi2row := mkRow {
  r_id : Z; r_z : Qc; r_hpx : Z; r_arms : string; r_snr : list num; r_rsnr : num; r_rank : nat;
  r_valid : bool; r_chi2 : num; r_dof : Z; r_x : list num; r_xcov : list num }.

(** numpy: assignment of a vector to a field of n numbers; one number is repeated *)
Definition assign (n : nat) (v : list num) : res (list num) :=
  if Nat.eqb (length v) n then Ok v
  else match v with [x] => Ok (repeat x n) | _ => Err (OtherExn "ValueError") end.

(** 659-661: at most three arms have a place *)
Definition snr_column (m : dict num) : res (list num) :=
  if Nat.leb (length m) 3 then Ok (dvals m ++ repeat n0 (3 - length m)) else Err (OtherExn "ValueError").

(** 658-673, one row; 'U5' keeps five characters *)
Definition chi2_row (rank corder : nat) (e : entry) : res chi2row :=
  let s := e_spec e in
  rbind (of_option "AttributeError" (s_msnr s)) (fun m =>
  rbind (snr_column m) (fun snr =>
  rbind (assign corder (s_x s)) (fun x =>
  rbind (assign (corder * corder) (concat (e_xcov e))) (fun xcov =>
  Ok (mkRow (c_targetid (s_cat s)) (s_z s) (c_hpix (s_cat s)) (substring 0 5 (String.concat "," (dkeys m))) snr (s_rsnr s) rank
        (s_valid s) (s_chi2 s) (e_dof e) x xcov))))).

(** 632-681 save_contchi2_catalog; [writes]: the file can be written.  comm.gather:
    the parts in the order of the ranks.  The result is what is written. *)
Definition save_contchi2_catalog (outdir writes : bool) (corder rank : nat) (l : list entry)
  : prog (list chi2row) (option (list chi2row)) :=
  if outdir then
    pbind (of_res (rseq (map (chi2_row rank corder) l))) (fun rows =>
    Allreduce (@app chi2row) rows (fun all =>
      if Nat.eqb rank 0 then if writes then Ret (Some all) else Raise (OtherExn "OSError") else Ret None))
  else Ret None.
