(** Specification of the binned delta statistics, independent of the model's helpers. *)
From Coq Require Import ZArith String List Bool Arith Qcanon.
From Verif Require Import Num NpList Exn Mpi ModelSubsample ModelSpectrum ModelVarFit SpecStack.
Import ListNotations.
Local Open Scope nat_scope.

(** A pixel and a forest arm that is added as one array. *)
Record lsspix := mkLP { l_wave : Qc; l_delta : Qc; l_ivar : Qc }.
Definition call_of (s : list lsspix) : list Qc * list Qc * list Qc :=
  (map l_wave s, map l_delta s, map l_ivar s).

(** Wavelength bin iw of [nw] equal bins from w1 to w2; inverse variance bin iv
    between the (ascending, positive) edges iv and iv + 1. *)
Definition in_ivar_bin (edges : list Qc) (iv : nat) (x : Qc) : bool :=
  qltb (nth iv edges 0%Qc) x && qleb x (nth (S iv) edges 0%Qc).
Definition in_lss_bin (w1 w2 : Qc) (nw : nat) (edges : list Qc) (iw iv : nat) (p : lsspix) : bool :=
  in_bin w1 ((w2 - w1) / zq (Z.of_nat nw))%Qc iw (l_wave p) && in_ivar_bin edges iv (l_ivar p).

Definition good_edges (nv : nat) (edges : list Qc) : Prop :=
  length edges = S nv /\ (0 < nth 0 edges 0)%Qc /\
  forall i j, i < j < length edges -> (nth i edges 0 < nth j edges 0)%Qc.

(** plain average; 0 of no pixels *)
Definition plain_mean (g : lsspix -> Qc) (l : list lsspix) : Qc :=
  match l with [] => 0%Qc | _ => (qsum (map g l) / zq (Z.of_nat (length l)))%Qc end.
(** average over the pixels and average squared deviation from it *)
Definition pix_mean (l : list lsspix) : Qc := plain_mean l_delta l.
Definition pix_variance (l : list lsspix) : Qc :=
  plain_mean (fun p => (l_delta p - pix_mean l) * (l_delta p - pix_mean l))%Qc l.
Definition pix_noise (l : list lsspix) : Qc := plain_mean (fun p => 1 / l_ivar p)%Qc l.
(** variance of the squared deltas in the bin, for the error of the average *)
Definition pix_var2 (l : list lsspix) : Qc :=
  match l with
  | [] => 0%Qc
  | _ => ((plain_mean (fun p => (l_delta p * l_delta p) * (l_delta p * l_delta p)) l
           - pix_variance l * pix_variance l) / zq (Z.of_nat (length l)))%Qc
  end.

(** ** Delete-one jackknife errors *)
(** The t-th array added on a rank belongs to subsample (first + t) mod n.  The
    pixels of all ranks with their subsample: *)
Definition tag_arms (n first : nat) (arms : list (list lsspix)) : list (nat * lsspix) :=
  concat (map (fun ta : nat * list lsspix => map (pair ((first + fst ta) mod n)) (snd ta))
              (combine (seq 0 (length arms)) arms)).
Definition tagged_pixels (size n : nat) (arms : nat -> list (list lsspix)) : list (nat * lsspix) :=
  concat (map (fun r => tag_arms n ((r * n) / size) (arms r)) (seq 0 size)).
(** sum of g over the pixels in bin B, and their number *)
Definition bin_total (g : lsspix -> Qc) (B : lsspix -> bool) (l : list lsspix) : Qc := qsum (map g (filter B l)).
Definition bin_count (B : lsspix -> bool) (l : list lsspix) : Qc := zq (Z.of_nat (count B l)).
(** average of g in bin B without subsample i; the number of pixels is
    regularised by [eps] times the number of pixels in the bin *)
Definition without (i : nat) (T : list (nat * lsspix)) : list lsspix :=
  map snd (filter (fun p => negb (Nat.eqb (fst p) i)) T).
Definition leave_one_out (eps : Qc) (g : lsspix -> Qc) (B : lsspix -> bool) (T : list (nat * lsspix)) (i : nat) : Qc :=
  if Nat.eqb (count B (map snd T)) 0 then 0%Qc
  else (bin_total g B (without i T) / (bin_count B (without i T) + eps * bin_count B (map snd T)))%Qc.
Definition jack_covariance (eps : Qc) (n : nat) (g : lsspix -> Qc) (B B' : lsspix -> bool)
  (T : list (nat * lsspix)) : Qc :=
  let nq := zq (Z.of_nat n) in
  let avg b := (qsum (map (leave_one_out eps g b T) (seq 0 n)) / nq)%Qc in
  let dev b i := (leave_one_out eps g b T i - avg b)%Qc in
  ((nq - 1) / nq * qsum (map (fun i => dev B i * dev B' i) (seq 0 n)))%Qc.

(** ** The fit *)
Section Fit.
Variables (w1 w2 : Qc) (nw nv : nat) (edges : list Qc) (usecov : bool) (n : nat) (eps : Qc).
(** the arrays added on all ranks, and their pixels with the subsample *)
Variables (arms : list (list lsspix)) (T : list (nat * lsspix)).
Definition the_bin (iw iv : nat) : list lsspix := filter (in_lss_bin w1 w2 nw edges iw iv) (concat arms).
Definition bin_arms (iw iv : nat) : nat := count (existsb (in_lss_bin w1 w2 nw edges iw iv)) arms.
Definition jack (g : lsspix -> Qc) (iw i j : nat) : Qc :=
  jack_covariance eps n g (in_lss_bin w1 w2 nw edges iw i) (in_lss_bin w1 w2 nw edges iw j) T.
Definition sq_delta (p : lsspix) : Qc := (l_delta p * l_delta p)%Qc.
(** squared error of the variance in a bin: jackknife error of the average
    squared delta and of the squared average, but at least the Gaussian estimate *)
Definition variance_error2 (iw iv : nat) : Qc :=
  let j := jack l_delta iw iv iv in
  let m := pix_mean (the_bin iw iv) in
  if usecov then jack sq_delta iw iv iv
  else qmax (jack sq_delta iw iv iv + zq 4 * (m * m) * j + zq 2 * (j * j))%Qc (pix_var2 (the_bin iw iv)).
(** covariance of the variances in the bins i and j of one wavelength *)
Definition variance_cov (iw i j : nat) : Qc :=
  let c a b := jack l_delta iw a b in
  let m a := pix_mean (the_bin iw a) in
  (jack sq_delta iw i j
   + (c i i * c j j + c i j * c i j + zq 2 * c i j * (m i * m j)
      + (c i i * (m j * m j) + c j j * (m i * m i))))%Qc.

(** inverse variance bins of wavelength iw with enough pixels and arms *)
Definition enough (np nq iw iv : nat) : bool := Nat.leb np (length (the_bin iw iv)) && Nat.leb nq (bin_arms iw iv).
Definition usable (np nq iw : nat) : list nat :=
  let strict := filter (enough np nq iw) (seq 0 nv) in
  if Nat.ltb (length strict) 5 then filter (enough (np / 2) (nq / 2) iw) (seq 0 nv) else strict.

(** All values, ordered by wavelength and then by inverse variance. *)
Definition by_bin {A} (g : nat -> nat -> A) : list A := flat_map (fun iw => map (g iw) (seq 0 nv)) (seq 0 nw).
(** What a fitter shows after the arms were added on all ranks. *)
Definition shows (v : vfit) : Prop :=
  num_pixels v = by_bin (fun iw iv => length (the_bin iw iv)) /\
  num_qso v = by_bin bin_arms /\
  mean_delta v = by_bin (fun iw iv => pix_mean (the_bin iw iv)) /\
  var_delta v = by_bin (fun iw iv => pix_variance (the_bin iw iv)) /\
  var2_delta v = by_bin (fun iw iv => pix_var2 (the_bin iw iv)) /\
  var_centers v = by_bin (fun iw iv => pix_noise (the_bin iw iv)) /\
  variance_var_delta v = by_bin variance_error2 /\
  (forall iw i j, iw < nw -> i < nv -> j < nv ->
     cov_var_delta v iw i j = if usecov then Some (variance_cov iw i j) else None).

Variables (np nq : nat) (nsqrt : num -> num) (cholesky : list (list Qc) -> bool)
  (curve_fit : list Qc -> list Qc -> list num -> errors -> option (list num * list num))
  (spline : list Qc -> list num -> list num -> option (list num)).
(** fit at wavelength iw from the first guess p0; None: not possible *)
Definition fit_errors (iw : nat) (u : list nat) : errors :=
  let diag := Diag (map (fun iv => nsqrt (Fin (variance_error2 iw iv))) u) in
  let c := map (fun i => map (variance_cov iw i) u) u in
  if usecov && cholesky c then Full c else diag.
Definition wave_fit (p0 : list num) (iw : nat) : option (list num * list num) :=
  let u := usable np nq iw in
  if Nat.ltb (length u) 5 then None
  else curve_fit (map (fun iv => pix_noise (the_bin iw iv)) u) (map (fun iv => pix_variance (the_bin iw iv)) u)
                 p0 (fit_errors iw u).
Definition wave_fits (guess : list (list num)) : list (option (list num * list num)) :=
  map (fun iw => wave_fit (nth iw guess []) iw) (seq 0 nw).
Definition is_none {A} (o : option A) : bool := match o with None => true | _ => false end.

(** parameter j and its error at each wavelength: 0 where the fit failed *)
Definition fitted (npar : nat) (o : option (list num * list num)) : list num :=
  match o with Some r => fst r | None => repeat n0 npar end.
Definition fitted_error (npar : nat) (o : option (list num * list num)) : list num :=
  match o with Some r => snd r | None => repeat n0 npar end.
(** the wavelengths where the fit succeeded with positive var_lss, and the
    interpolation (a value for each of the nw wavelengths) of parameter j
    through those, weighted with the inverse errors; [None] if it raises *)
Definition good_wave (guess : list (list num)) (iw : nat) : bool :=
  match wave_fit (nth iw guess []) iw with Some r => npos (nth 0 (fst r) NaN) | None => false end.
Definition bin_center (iw : nat) : Qc := (w1 + (zq (Z.of_nat iw) + fq 1 2) * ((w2 - w1) / zq (Z.of_nat nw)))%Qc.
Definition interpolated (guess : list (list num)) (j : nat) : option (list num) :=
  let good := filter (good_wave guess) (seq 0 nw) in
  let at_j (f : list num * list num -> list num) iw :=
    match wave_fit (nth iw guess []) iw with Some r => nth j (f r) NaN | None => NaN end in
  spline (map bin_center good) (map (at_j fst) good) (map (fun iw => ndiv n1 (at_j snd iw)) good).
(** what fit returns: parameters and errors for each wavelength *)
Definition fit_result (npar : nat) (guess : list (list num)) (smooth : bool) : res (list (list num) * list (list num)) :=
  let fits := wave_fits guess in
  let std := map (fitted_error npar) fits in
  if Nat.ltb (2 * nw) (5 * count is_none fits) (* more than 40% failed *)
  then Err (QsonicExn "VarLSSFitter failed at more than 40% points.")
  else if smooth then
    match interpolated guess 0 with
    | None => Err (OtherExn "ValueError")
    | Some a =>
        if Nat.eqb npar 1 then Ok (map (fun x => [x]) a, std)
        else match interpolated guess 1 with
             | None => Err (OtherExn "ValueError")
             | Some b => Ok (map2 (fun x y => [x; y]) a b, std)
             end
    end
  else Ok (map (fitted npar) fits, std).
End Fit.

(** ** The calls on one rank *)
Definition collect (size : nat) (w1 w2 : Qc) (nw nv : nat) (e : list Qc) (nsub : option nat) (usecov : bool)
  (arms : nat -> list (list lsspix)) (r : nat) : prog vval vfit :=
  pbind (of_res (vfit_add_all (map call_of (arms r)) (vfit_init w1 w2 nw nv e nsub usecov r size))) calculate_stats.
Definition subsamples (nsub : option nat) (nv : nat) : nat := match nsub with Some n => n | None => nv * nv end.

(** the fit on all ranks, after adding the arms of each rank *)
Definition fit_ranks (np nq : nat) nsqrt cholesky curve_fit spline (size : nat) (w1 w2 : Qc) (nw nv : nat) (e : list Qc) (nsub : option nat) (usecov : bool)
  (arms : nat -> list (list lsspix)) npar guess smooth (r : nat) : prog vval (vfit * (list (list num) * list (list num))) :=
  pbind (of_res (vfit_add_all (map call_of (arms r)) (vfit_init w1 w2 nw nv e nsub usecov r size))) (fun v =>
  vfit_fit np nq nsqrt cholesky curve_fit spline v npar guess smooth).


