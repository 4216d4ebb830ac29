(** Model of what the continuum fit minimizes: PiccaContinuumModel._continuum_costfn
    and the two minimizers (continuum_models/picca_continuum_model.py). *)
From Coq Require Import ZArith String List Bool Arith Qcanon.
From Verif Require Import Num NpList Exn Dict ModelSpectrum ModelContinuum.
Import ListNotations.
Local Open Scope nat_scope.

Section Cost.
Variables meanflux varlss eta meancont slope : Qc -> num.
(** np.log *)
Variable nlog : num -> num.

(** picca_continuum_model.py 86-99: one arm *)
Definition cost_arm (x : list num) (z : Qc) (wave : list Qc) (fl iv : arr) : res num :=
  let est := map2 nmul (map (fun w => cont_model meancont slope x (w / (1 + z))%Qc) wave) (map meanflux wave) in
  rbind (zip2 (fun w c => nmul (varlss w) (nsq c)) wave est) (fun vl =>
  rbind (zip2 nmul iv vl) (fun ivl =>
  rbind (zip2 (fun w v => nadd (eta w) v) wave ivl) (fun den =>
  rbind (zip2 ndiv iv den) (fun weight =>
  rbind (zip2 (fun f c => nsq (nsub f c)) fl est) (fun d2 =>
  rbind (ndot weight d2) (fun d =>
  Ok (nsub d (nsum (map nlog (filter npos weight)))))))))).

(** 59-101 _continuum_costfn(x, wave, flux, ivar_sm, z_qso) of a spectrum *)
Definition costfn (s : spec) (x : list num) : res num :=
  for_each (fw (s_f s)) (fun aw (cost : num) =>
    rbind (rget (fst aw) (fivar_sm (s_f s))) (fun iv =>
    rbind (rget (fst aw) (ff (s_f s))) (fun fl =>
    rbind (cost_arm x (s_z s) (snd aw) fl iv) (fun c =>
    Ok (nadd cost c))))) n0.

(** 132-133 and 150-151: the starting point *)
Definition start (s : spec) (a0 : num) : res (list num) :=
  match s_x s with
  | [] => Err (OtherExn "IndexError")
  | _ :: r => Ok (a0 :: map (fun _ => n0) r)
  end.

(** 126-146 _iminuit_minimizer and 148-170 _scipy_l_bfgs_b_minimizer.  [opt] is the
    library: it may evaluate the function wherever it likes, and return anything. *)
Definition minimize (opt : (list num -> res num) -> list num -> res minres) (s : spec) (a0 : num) : res minres :=
  rbind (start s a0) (fun x0 => opt (costfn s) x0).
End Cost.
