(** C42, C43: binning of the deltas by wavelength and inverse variance, and the fit of var_lss and eta. *)
From Coq Require Import ZArith QArith String List Bool Arith Lia Qcanon.
From Verif Require Import Num NpList Exn Mpi ModelSubsample ModelVarFit SpecVarFit ProofVarFit4.
Import ListNotations.
Local Open Scope nat_scope.

(** However the forest arms are distributed over the ranks: every rank ends with the number of pixels and arms, the mean,
    the variance and the average noise variance of the pixels in each bin, and the jackknife errors.  The number of pixels
    over all bins (with the overflow bins) is the number of pixels added. *)
Theorem C42_statistics : forall size w1 w2 nw nv edges nsub usecov (arms : nat -> list (list lsspix)),
  1 <= size -> (w1 < w2)%Qc -> 1 <= nw -> good_edges nv edges -> 1 <= subsamples nsub nv ->
  exists vs : nat -> vfit,
    spmd size (collect size w1 w2 nw nv edges nsub usecov arms) = Done (map (fun r => Finished (vs r)) (seq 0 size)) /\
    forall r, r < size ->
      shows w1 w2 nw nv edges usecov (subsamples nsub nv) eps (concat (map arms (seq 0 size)))
        (tagged_pixels size (subsamples nsub nv) arms) (vs r) /\
      list_sum (v_npix (vs r)) = length (concat (concat (map arms (seq 0 size)))).
Proof. exact collect_all. Qed.
Print Assumptions C42_statistics.

(** A masked pixel is in none of the bins. *)
Theorem C42_masked : forall w1 w2 nw nv edges iw iv p,
  good_edges nv edges -> iv < nv -> (l_ivar p <= 0)%Qc -> in_lss_bin w1 w2 nw edges iw iv p = false.
Proof. exact masked_no_bin. Qed.
Print Assumptions C42_masked.

(** A pixel within the limits is in exactly one bin. *)
Theorem C42_one_bin : forall w1 w2 nw nv edges p,
  1 <= nw -> good_edges nv edges ->
  (w1 <= l_wave p)%Qc -> (l_wave p < w2)%Qc -> (nth 0 edges 0 < l_ivar p)%Qc -> (l_ivar p <= nth nv edges 0)%Qc ->
  exists iw iv, iw < nw /\ iv < nv /\
    forall i j, j < nv -> (in_lss_bin w1 w2 nw edges i j p = true <-> i = iw /\ j = iv).
Proof. exact one_lss_bin. Qed.
Print Assumptions C42_one_bin.

(** The slice [iw*nv : iw*nv + nv] used for the fit of wavelength iw holds the statistics of the bins of this wavelength. *)
Theorem C42_slices : forall w1 w2 nw nv edges usecov n arms T v iw,
  shows w1 w2 nw nv edges usecov n eps arms T v -> iw < nw ->
  let at_wave {A} (l : list A) := slice (iw * nv) (iw * nv + nv) l in
  let b := the_bin w1 w2 nw edges arms iw in
  at_wave (num_pixels v) = map (fun iv => length (b iv)) (seq 0 nv) /\
  at_wave (num_qso v) = map (bin_arms w1 w2 nw edges arms iw) (seq 0 nv) /\
  at_wave (var_centers v) = map (fun iv => pix_noise (b iv)) (seq 0 nv) /\
  at_wave (var_delta v) = map (fun iv => pix_variance (b iv)) (seq 0 nv) /\
  at_wave (variance_var_delta v) = map (variance_error2 w1 w2 nw edges usecov n eps arms T iw) (seq 0 nv).
Proof. exact wave_slices. Qed.
Print Assumptions C42_slices.

(** All ranks end alike: with the result computed from the bins of all ranks, or with the same exception. *)
Theorem C43_fit : forall np nq nsqrt cholesky curve_fit spline size w1 w2 nw nv edges nsub usecov
    (arms : nat -> list (list lsspix)) npar guess smooth,
  1 <= size -> (w1 < w2)%Qc -> 1 <= nw -> good_edges nv edges -> 1 <= subsamples nsub nv -> npar = 1 \/ npar = 2 ->
  length guess = nw -> (forall g, In g guess -> length g = npar) ->
  (forall x y w r, spline x y w = Some r -> length r = nw) ->
  exists vs : nat -> vfit,
    spmd size (fit_ranks np nq nsqrt cholesky curve_fit spline size w1 w2 nw nv edges nsub usecov arms npar guess smooth)
    = Done (map (fun r =>
        match fit_result w1 w2 nw nv edges usecov (subsamples nsub nv) eps (concat (map arms (seq 0 size)))
                (tagged_pixels size (subsamples nsub nv) arms) np nq nsqrt cholesky curve_fit spline npar guess smooth with
        | Ok a => Finished (vs r, a)
        | Err x => Failed x
        end) (seq 0 size)).
Proof.
  exact (fun np nq s c f sp size w1 w2 nw nv e ns uc arms npar g sm H1 H2 H3 H4 H5 H6 H7 H8 H9 =>
    match fit_all np nq s c f sp size w1 w2 nw nv e ns uc arms npar g sm H1 H2 H3 H4 H5 H6 H7 H8 H9 with
    | ex_intro _ vs H => ex_intro _ vs (proj2 H) end).
Qed.
Print Assumptions C43_fit.

(** QsonicException if and only if the fit failed at more than 40% of the wavelengths. *)
Theorem C43_exception : forall w1 w2 nw nv edges usecov n arms T np nq nsqrt cholesky curve_fit spline npar guess smooth,
  (exists m, fit_result w1 w2 nw nv edges usecov n eps arms T np nq nsqrt cholesky curve_fit spline npar guess smooth = Err (QsonicExn m)) <->
  2 * nw < 5 * count is_none (wave_fits w1 w2 nw nv edges usecov n eps arms T np nq nsqrt cholesky curve_fit guess).
Proof. exact fit_result_exn. Qed.
Print Assumptions C43_exception.

(** Otherwise one row per wavelength. *)
Theorem C43_rows : forall w1 w2 nw nv edges usecov n arms T np nq nsqrt cholesky curve_fit spline npar guess smooth p s,
  (forall x y w r, spline x y w = Some r -> length r = nw) ->
  fit_result w1 w2 nw nv edges usecov n eps arms T np nq nsqrt cholesky curve_fit spline npar guess smooth = Ok (p, s) ->
  length p = nw /\ length s = nw.
Proof. exact fit_result_length. Qed.
Print Assumptions C43_rows.

(** Two ranks, two wavelengths, five inverse variance bins; the second wavelength only has pixels in one bin.  A fit that
    succeeds at one of the two wavelengths is a failure at 50% of them. *)
Definition ex_edges : list Qc := map zq [1; 2; 3; 4; 5; 6]%Z.
Definition ex_arms (r : nat) : list (list lsspix) :=
  match r with
  | 0 => [[mkLP (zq 10) 1 (zq 2); mkLP (zq 11) (zq 2) (zq 3); mkLP (zq 12) (zq 3) (zq 4); mkLP (zq 25) 0 (zq 2)]]
  | _ => [[mkLP (zq 13) 1 (zq 5); mkLP (zq 14) 0 (zq 6); mkLP (zq 15) 0 0]; [mkLP (zq 19) 1 (zq 6)]]
  end.
Definition ex_curve (x y : list Qc) (p0 : list num) (s : errors) : option (list num * list num) :=
  Some ([Fin (qsum y)], [Fin 1]).
Definition ex_spline (n : nat) (x : list Qc) (y w : list num) : option (list num) := Some (repeat (hd NaN y) n).
Example C42_ex :
  good_edges 5 ex_edges /\ 1 <= subsamples (Some 3) 5 /\ (zq 10 < zq 30)%Qc /\
  match spmd 2 (collect 2 (zq 10) (zq 30) 2 5 ex_edges (Some 3) false ex_arms) with
  | Done [Finished a; Finished b] =>
      num_pixels a = [1; 1; 1; 1; 2; 1; 0; 0; 0; 0] /\ num_pixels b = num_pixels a /\
      num_qso a = [1; 1; 1; 1; 2; 1; 0; 0; 0; 0] /\
      map (fun x => this x) (var_delta a) = [0; 0; 0; 0; 1 # 4; 0; 0; 0; 0; 0]%Q /\ list_sum (v_npix a) = 8
  | _ => False
  end.
Proof.
  split; [|split; [cbn; lia|split; [reflexivity|vm_compute; repeat split]]].
  split; [reflexivity|]. split; [reflexivity|]. intros i j H. cbn [ex_edges map length] in H.
  destruct i as [|[|[|[|[|[|i]]]]]], j as [|[|[|[|[|[|j]]]]]]; try (exfalso; lia); reflexivity.
Qed.
Definition ex_result nw w2 npar smooth :=
  fit_result (zq 10) (zq w2) nw 5 ex_edges false 3 eps (concat (map ex_arms (seq 0 2))) (tagged_pixels 2 3 ex_arms)
    2 2 (fun x => x) (fun _ => true) ex_curve (ex_spline nw) npar (repeat (repeat n0 npar) nw) smooth.
Example C43_ex :
  (forall nw x y w r, ex_spline nw x y w = Some r -> length r = nw) /\
  ex_result 2 30 1 true = Err (QsonicExn "VarLSSFitter failed at more than 40% points.") /\
  match ex_result 1 20 1 true with Ok (p, _) => map (map (fun x => this (nval x))) p = [[1 # 4]]%Q | Err _ => False end.
Proof.
  split; [|split].
  - intros nw x y w r H. injection H as <-. apply repeat_length.
  - vm_compute. reflexivity.
  - vm_compute; reflexivity.
Qed.
