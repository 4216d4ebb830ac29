(** What the var_lss and eta tables of the continuum fitter must be fitted to (C58). *)
From Coq Require Import ZArith String List Bool Arith Qcanon.
From Verif Require Import Num NpList Exn Dict Mpi ModelSpectrum ModelSubsample ModelVarFit ModelFitter SpecVarFit.
Import ListNotations.
Local Open Scope nat_scope.

(** the arms of the spectra *)
Definition arms_of (l : list spec) : list (spec * (string * list Qc)) :=
  flat_map (fun s => map (pair s) (fw (s_f s))) l.
(** P: the pixels of one arm, each with delta = flux / cont - 1 and inverse
    variance ivar cont^2; flux, ivar and cont are finite and cont is not zero *)
Definition delta_pixels (x : spec * (string * list Qc)) (P : list lsspix) : Prop :=
  let '(s, (arm, wave)) := x in
  exists D : list (Qc * Qc * Qc * Qc),
    map (fun d => fst (fst (fst d))) D = wave /\
    dget arm (ff (s_f s)) = Some (map (fun d => Fin (snd (fst (fst d)))) D) /\
    dget arm (fivar (s_f s)) = Some (map (fun d => Fin (snd (fst d))) D) /\
    dget arm (s_cont s) = Some (map (fun d => Fin (snd d)) D) /\
    Forall (fun d => snd d <> 0%Qc) D /\
    P = map (fun d => let '(w, f, i, c) := d in mkLP w (f / c - 1)%Qc (i * (c * c))%Qc) D.

(** The tables of t (values and errors of var_lss, and of eta if it is fitted)
    are the result of the fit (C43) to the variances of the deltas of the valid
    spectra l r of all ranks r, from some initial guess. *)
Definition fitted_tables (g : config) np nq nsqrt cholesky curve_fit spline (n : nat) (l : nat -> list spec) (t : fitter) : Prop :=
  exists (arms : nat -> list (list lsspix)) guess y e,
    (forall r, r < n -> Forall2 delta_pixels (arms_of (filter s_valid (l r))) (arms r)) /\
    fit_result (g_w1 g) (g_w2 g) (g_nw g) (g_nv g) (g_edges g) (g_usecov g) (g_nv g * g_nv g) eps
      (concat (map arms (seq 0 n))) (tagged_pixels n (g_nv g * g_nv g) arms)
      np nq nsqrt cholesky curve_fit spline (if g_fit_eta g then 2 else 1) guess true = Ok (y, e) /\
    i_fp (deref t (t_var t)) = map (fun row => nth 0 row NaN) y /\
    i_ep (deref t (t_var t)) = map (fun row => nth 0 row NaN) e /\
    (g_fit_eta g = true ->
     i_fp (deref t (t_eta t)) = map (fun row => nth 1 row NaN) y /\
     i_ep (deref t (t_eta t)) = map (fun row => nth 1 row NaN) e).
