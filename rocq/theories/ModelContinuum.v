(** Model of py/qsonic/continuum_models: fitting one spectrum.

    Interpolators act pixel by pixel and are functions; the minimizer (iminuit
    or scipy) is a parameter that may return anything or raise.  xcov is kept
    beside the spectrum.  cont_params['cont'] = None is the empty dictionary:
    both are false, and the code only tests the truth value. *)
From Coq Require Import ZArith String List Bool Arith Qcanon.
From Verif Require Import Num NpList Exn Dict ModelSpectrum.
Import ListNotations.
Local Open Scope nat_scope.

(** mathtools.py 150-169 mypoly1d, for any floats *)
Definition npow (x : num) (i : nat) : num := Nat.iter i (nmul x) n1.
Definition npoly (coef : list num) (x : num) : num :=
  fold_left (fun acc ia => nadd acc (nmul (snd ia) (npow x (fst ia))))
            (combine (seq 0 (length coef)) coef) n0.

(** what a minimizer returns: valid, x, xcov *)
Record minres := mkMin { m_valid : bool; m_x : list num; m_xcov : mat }.

Section Fit.
Variables meanflux varlss eta : Qc -> num.

(** picca_continuum_model.py 218-226 get_a0 *)
Definition get_a0 (s : spec) : res num :=
  rmap (fun p : num * num => ndiv (fst p) (snd p))
  (for_each (fivar_sm (s_f s)) (fun ai (acc : num * num) =>
    rbind (rget (fst ai) (ff (s_f s))) (fun fl =>
    rbind (ndot fl (snd ai)) (fun d =>
    Ok (nadd (fst acc) d, nadd (snd acc) (nsum (snd ai)))))) (n0, nlit 1 1000000)).

(** ** PiccaContinuumModel *)
(** meancont_interp; [slope w] = np.log(w / rfwave0) / denom *)
Variables meancont slope : Qc -> num.
Variable minimizer : spec -> num -> res minres.

(** picca_continuum_model.py 103-124 get_continuum_model, one pixel *)
Definition cont_model (x : list num) (w : Qc) : num :=
  nmul (meancont w) (npoly x (nsub (nmul (Fin (1 + 1)) (slope w)) n1)).

(** picca_continuum_model.py 232-243: the loop over the arms, with its break *)
Fixpoint picca_arms (x : list num) (z : Qc) (arms : dict (list Qc)) (cont : dict arr) : bool * dict arr :=
  match arms with
  | [] => (true, cont)
  | (arm, wave) :: r =>
      let est := map (fun w => cont_model x (w / (1 + z))%Qc) wave in
      if existsb (fun c => nltb c n0) est then (false, cont)
      else picca_arms x z r (dset arm (map2 nmul est (map meanflux wave)) cont)
  end.

(** 192-251 fit_continuum *)
Definition picca_fit (s : spec) (xcov : mat) : res (spec * mat) :=
  rbind (get_a0 s) (fun a0 =>
  rbind (minimizer s a0) (fun r =>
  let s1 := if m_valid r
            then let '(ok, cont) := picca_arms (m_x r) (s_z s) (fw (s_f s)) [] in
                 set_cont cont (set_valid ok s)
            else set_valid false s in
  rbind (set_forest_weight varlss eta s1) (fun s2 =>
  rbind (calc_continuum_chi2 s2) (fun s3 =>
  Ok (if s_valid s3 then (set_x (m_x r) s3, m_xcov r)
      else (set_chi2 (Fin (- (1))) (set_cont [] s3), xcov)))))).

(** 253-271 init_spectra (method and dof are not modelled) *)
Definition eye (n : nat) : mat :=
  map (fun i => map (fun j => if Nat.eqb i j then n1 else n0) (seq 0 n)) (seq 0 n).
Definition picca_init (order : nat) (s : spec) : res (spec * mat) :=
  match s_x s with
  | [] => Err (OtherExn "IndexError")
  | x0 :: _ => Ok (set_x (x0 :: repeat n0 order) s, eye (S order))
  end.

(** ** InputContinuumModel *)
(** input_continuum_model.py 204-213: the loop over the arms; [cubic] is
    FastCubic1DInterp(input_w1, input_dwave, input_data) *)
Fixpoint input_arms (cubic : Qc -> num) (z : Qc) (arms : dict (list Qc)) (cont : dict arr) : bool * dict arr :=
  match arms with
  | [] => (true, cont)
  | (arm, wave) :: r =>
      let est := map (fun w => cubic (w / (1 + z))%Qc) wave in
      if existsb (fun c => nleb c n0) est || existsb nisnan est then (false, cont)
      else input_arms cubic z r (dset arm (map2 nmul est (map meanflux wave)) cont)
  end.

(** 185-220 fit_continuum *)
Definition input_fit (cubic : Qc -> num) (s : spec) : res spec :=
  if negb (s_valid s) then Ok (set_chi2 (Fin (- (1))) (set_cont [] s))
  else
    let '(ok, cont) := input_arms cubic (s_z s) (fw (s_f s)) (s_cont s) in
    let s1 := set_cont cont (if ok then s else set_valid false s) in
    rbind (set_forest_weight varlss eta s1) (fun s2 =>
    rbind (calc_continuum_chi2 s2) (fun s3 =>
    Ok (if s_valid s3 then s3 else set_chi2 (Fin (- (1))) (set_cont [] s3)))).

(** 222-243 init_spectra, for a spectrum whose continuum was found ([found]) or not *)
Definition input_init (found : bool) (s : spec) : spec * mat :=
  (set_valid found (set_cont [] (set_x [n0] s)), eye 1).

(** ** TrueContinuumModel *)
(** true_continuum_model.py 28-51 fit_continuum: no check of the continuum;
    set_forest_weight without eta (one). *)
Definition true_fit (cubic : Qc -> num) (s : spec) : res spec :=
  let cont := fold_left (fun c aw => dset (fst aw) (map2 nmul (map cubic (snd aw)) (map meanflux (snd aw))) c)
                        (fw (s_f s)) (s_cont s) in
  rbind (set_forest_weight varlss (fun _ => n1) (set_cont cont s)) calc_continuum_chi2.

(** 53-71 init_spectra *)
Definition true_init (s : spec) : spec * mat := (set_valid true (set_cont [] (set_x [n0] s)), eye 1).
End Fit.
