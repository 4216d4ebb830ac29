(** Model of VarLSSFitter (py/qsonic/picca_continuum.py 685-1225).

    Wavelengths, deltas and inverse variances are exact rationals (no nan or inf
    in the statistics).  np.logspace (the inverse variance edges), np.sqrt,
    np.linalg.cholesky, scipy's curve_fit and UnivariateSpline are parameters.
    The subsampler is the model of ModelSubsample.v. *)
From Coq Require Import ZArith String List Bool Arith Qcanon.
From Verif Require Import Num NpList Exn Dict Mpi ModelSubsample ModelSpectrum ModelStack.
Import ListNotations.
Local Open Scope nat_scope.

(** Values exchanged by calculate_subsampler_stats: float arrays of the
    subsampler and integer arrays. *)
Inductive vval := VSub (a : arr3) | VInt (l : list nat).
Definition vsub_of (v : vval) : arr3 := match v with VSub a => a | VInt _ => fun _ _ _ => 0%Qc end.
Definition vint_of (v : vval) : list nat := match v with VInt l => l | VSub _ => [] end.
Definition int_sum (a b : vval) : vval := VInt (map2 Nat.add (vint_of a) (vint_of b)).
(** a program that exchanges values of type W, run over the larger type V *)
Fixpoint lift {W V A} (inj : W -> V) (prj : V -> W) (p : prog W A) : prog V A :=
  match p with
  | Ret a => Ret a
  | Raise e => Raise e
  | Bcast v k => Bcast (inj v) (fun x => lift inj prj (k (prj x)))
  | Scatter v k => Scatter (option_map (map inj) v) (fun x => lift inj prj (k (prj x)))
  | Allreduce op v k => Allreduce (fun a b => inj (op (prj a) (prj b))) (inj v)
                                  (fun x => lift inj prj (k (prj x)))
  end.

(** 807-858: attributes.  waveobs, dwobs, ivar_edges, wvalid_bins, _num_pixels,
    _num_qso, subsampler, _stats_calculated. *)
Record vfit := mkV {
  v_nw : nat; v_nv : nat; v_wave : list Qc; v_dw : Qc; v_edges : list Qc; v_usecov : bool;
  v_valid : list bool; v_npix : list nat; v_nqso : list nat; v_sub : sub; v_done : bool }.
Definition v_set (npix nqso : list nat) (s : sub) (d : bool) (v : vfit) : vfit :=
  mkV (v_nw v) (v_nv v) (v_wave v) (v_dw v) (v_edges v) (v_usecov v) (v_valid v) npix nqso s d.
Definition minlength (v : vfit) : nat := (v_nv v + 2) * (v_nw v + 2).

(** 832-837: a[i1:i2] = True for the non-overflow bins of each wavelength *)
Definition set_true (i1 i2 : nat) (l : list bool) : list bool :=
  fold_left (fun l i => upd i (fun _ => true) l) (seq i1 (i2 - i1)) l.
Definition valid_bins (nw nv : nat) : list bool :=
  fold_left (fun l iwave => let i1 := (iwave + 1) * (nv + 2) + 1 in set_true i1 (i1 + nv) l)
            (seq 0 nw) (repeat false ((nv + 2) * (nw + 2))).

(** 807-858 __init__; [nwbins] as given or computed ([int(round(...))]),
    [edges] = np.logspace(-log10(var2), -log10(var1), nvarbins + 1). *)
Definition auto_nwbins (w1obs w2obs : Qc) : Z := qround ((w2obs - w1obs) / zq 120)%Qc.
Definition vfit_init (w1obs w2obs : Qc) (nwbins nvarbins : nat) (edges : list Qc) (nsubsamples : option nat)
  (use_cov : bool) (mpi_rank mpi_size : nat) : vfit :=
  let ml := (nvarbins + 2) * (nwbins + 2) in
  let nsub := match nsubsamples with Some n => n | None => nvarbins * nvarbins end in
  mkV nwbins nvarbins (centers w1obs w2obs nwbins) ((w2obs - w1obs) / zq (Z.of_nat nwbins))%Qc edges use_cov
      (valid_bins nwbins nvarbins) (repeat 0 ml) (repeat 0 ml)
      (sub_init 4 ml nsub ((mpi_rank * nsub) / mpi_size)) false.

(** 878-883 reset *)
Definition vfit_reset (v : vfit) : vfit :=
  v_set (map (fun _ => 0) (v_npix v)) (map (fun _ => 0) (v_nqso v)) (sub_reset (v_sub v)) false v.

(** 898-903: wave_indx, ivar_indx, all_indx of one pixel *)
Definition wave_indx (w0 dw : Qc) (nw : nat) (w : Qc) : Z :=
  Z.min (Z.max (qtrunc ((w - w0) / dw + fq 3 2)%Qc) 0) (Z.of_nat nw + 1).
Definition pixel_indx (v : vfit) (w0 : Qc) (w iv : Qc) : nat :=
  searchsorted (v_edges v) iv + Z.to_nat (wave_indx w0 (v_dw v) (v_nw v) w) * (v_nv v + 2).
Definition qvar' (iv : Qc) : Qc := if qltb 0 iv then (1 / iv)%Qc else 0%Qc.
(** np.bincount(idx, minlength=n) *)
Definition int_bincount (idx : list nat) (n : nat) : list nat :=
  map (fun k => count (Nat.eqb k) idx) (seq 0 (fold_left (fun acc i => Nat.max acc (S i)) idx n)).
(** 685-696 _fast_weighted_vector_bincount *)
Definition vector_bincount (idx : list nat) (delta var : list Qc) : arr2 :=
  fun j k =>
    let at_k (g : Qc * Qc -> Qc) :=
      qsum (map (fun p => g (snd p)) (filter (fun p => Nat.eqb (fst p) k) (combine idx (combine delta var)))) in
    match j with
    | 0 => at_k (fun p => fst p)
    | 1 => at_k (fun p => fst p * fst p)%Qc
    | 2 => at_k (fun p => (fst p * fst p) * (fst p * fst p))%Qc
    | 3 => at_k (fun p => snd p)
    | _ => 0%Qc
    end.
(** 885-917 add; the object is changed even if the subsampler raises.
    (A delta array of another length would be read out of bounds by numba: an
    error here.) *)
Definition vfit_add (wave delta ivar : list Qc) (v : vfit) : vfit * res unit :=
  match v_wave v with
  | [] => (v, Err (OtherExn "IndexError"))
  | w0 :: _ =>
      if negb (Nat.eqb (length wave) (length ivar)) || negb (Nat.eqb (length delta) (length ivar))
      then (v, Err (OtherExn "ValueError: shapes"))
      else
        let idx := map2 (pixel_indx v w0) wave ivar in
        let var := map qvar' ivar in
        let npix := int_bincount idx (minlength v) in
        if negb (Nat.eqb (length npix) (length (v_npix v)))
        then (v, Err (OtherExn "ValueError: shapes"))
        else
          let v1 := v_set (map2 Nat.add (v_npix v) npix) (v_nqso v) (v_sub v) (v_done v) v in
          let '(s, r) := add_measurement (vector_bincount idx delta var)
                           (fun k => zq (Z.of_nat (nth k npix 0))) (v_sub v) in
          match r with
          | Err e => (v_set (v_npix v1) (v_nqso v1) s (v_done v1) v1, Err e)
          | Ok _ => (v_set (v_npix v1) (map2 Nat.add (v_nqso v1) (map (fun k => if Nat.ltb 0 k then 1 else 0) npix))
                           s (v_done v1) v1, Ok tt)
          end
  end.

Definition set_stats (m : arr2) (var : option arr2) (cov : option (list (option covar))) (s : sub) : sub :=
  mksub (nsamples s) (nset s) (ndata s) (istart s) (isample s) (meas s) (wts s) (normalized s)
        (Some m) cov var (s_xdiff s).

(** 943-970: the local part of calculate_subsampler_stats *)
Definition local_stats (v : vfit) : res vfit :=
  let '(s, r) := get_mean_n_var false (v_sub v) in
  rbind r (fun mv =>
  let '(m, var) := mv in
  rbind (if v_usecov v
         then let '(s', r') := get_mean_n_cov (Some [0; 1]) (Some (v_nv v + 2)) false s in rmap (fun _ => s') r'
         else Ok s) (fun s2 =>
  let m1 : arr2 := fun j k => if Nat.eqb j 1 then (m 1%nat k - m 0%nat k * m 0%nat k)%Qc else m j k in
  let m2 : arr2 := fun j k => if Nat.eqb j 2 then (m1 2%nat k - m1 1%nat k * m1 1%nat k)%Qc else m1 j k in
  let m3 : arr2 := fun j k =>
    let np := nth k (v_npix v) 0 in
    if Nat.eqb j 2 && Nat.ltb 0 np then (m2 2%nat k / zq (Z.of_nat np))%Qc else m2 j k in
  if v_usecov v then
    match s_cov s2 with
    | Some [Some (BlockCov nb bd c0); Some (BlockCov _ _ c1); a; b] =>
        let add := block_covariance_of_square bd (m3 0) (var 0) c0 in
        let c1' := BlockCov nb bd (fun kk i j => c1 kk i j + add kk i j)%Qc in
        Ok (v_set (v_npix v) (v_nqso v)
              (set_stats m3 (Some var) (Some [Some (BlockCov nb bd c0); Some c1'; a; b]) s2) true v)
    | _ => Err (OtherExn "TypeError")
    end
  else
    let var1 k := (var 1%nat k + zq 4 * (m 0%nat k * m 0%nat k) * var 0%nat k + zq 2 * (var 0%nat k * var 0%nat k))%Qc in
    let var' : arr2 := fun j k =>
      if Nat.eqb j 1 then (if qltb (m3 2 k) (var1 k) then var1 k else m3 2 k) else var j k in
    Ok (v_set (v_npix v) (v_nqso v) (set_stats m3 (Some var') (s_cov s2) s2) true v))).

(** 919-970 calculate_subsampler_stats with an MPI communicator *)
Definition calculate_stats (v : vfit) : prog vval vfit :=
  if v_done v then Ret v
  else
    pbind (lift VSub vsub_of (sub_allreduce (v_sub v) (@Ret arr3 sub))) (fun s =>
    Allreduce int_sum (VInt (v_npix v)) (fun np =>
    Allreduce int_sum (VInt (v_nqso v)) (fun nq =>
    of_res (local_stats (v_set (vint_of np) (vint_of nq) s (v_done v) v))))).

(** 1163-1225: the public statistics, restricted to non-overflow bins ([a[wvalid_bins]]) *)
Definition compress {A} (w : list bool) (a : list A) : list A :=
  flat_map (fun p : bool * A => if fst p then [snd p] else []) (combine w a).
Definition num_pixels (v : vfit) : list nat := compress (v_valid v) (v_npix v).
Definition num_qso (v : vfit) : list nat := compress (v_valid v) (v_nqso v).
Definition row (a : option arr2) (j : nat) (n : nat) : list Qc :=
  match a with Some m => map (m j) (seq 0 n) | None => [] end.
Definition mean_delta (v : vfit) : list Qc := compress (v_valid v) (row (s_mean (v_sub v)) 0 (minlength v)).
Definition var_delta (v : vfit) : list Qc := compress (v_valid v) (row (s_mean (v_sub v)) 1 (minlength v)).
Definition var2_delta (v : vfit) : list Qc := compress (v_valid v) (row (s_mean (v_sub v)) 2 (minlength v)).
Definition var_centers (v : vfit) : list Qc := compress (v_valid v) (row (s_mean (v_sub v)) 3 (minlength v)).
(** variance of var_delta: e_var_delta is its square root *)
Definition variance_var_delta (v : vfit) : list Qc := compress (v_valid v) (row (s_var (v_sub v)) 1 (minlength v)).
(** 1194-1207 cov_var_delta[iwave][i][j] = covariance[1][1:-1, 1:-1, 1:-1] *)
Definition cov_var_delta (v : vfit) (iwave i j : nat) : option Qc :=
  match s_cov (v_sub v) with
  | Some (_ :: Some (BlockCov _ _ c) :: _) => Some (c (iwave + 1) (i + 1) (j + 1))
  | _ => None
  end.

(** a[w] for a boolean array *)
Definition select {A} (w : list bool) (a : list A) : list A := compress w a.

Inductive errors := Diag (e : arr) | Full (c : list (list Qc)).

Section Fit.
Variables (min_num_pix min_num_qso : nat) (nsqrt : num -> num) (cholesky : list (list Qc) -> bool).

(** 1000-1034 _get_wave_bin_slice_params; [None]: not enough statistics *)
Definition wave_bin_slice (v : vfit) (iwave : nat) : res (option (nat * nat * list bool * errors)) :=
  let i1 := iwave * v_nv v in
  let i2 := i1 + v_nv v in
  let enough np nq := map2 (fun p q => Nat.leb np p && Nat.leb nq q) (slice i1 i2 (num_pixels v)) (slice i1 i2 (num_qso v)) in
  let w1 := enough min_num_pix min_num_qso in
  let w := if Nat.ltb (count (fun b : bool => b) w1) 5 then enough (min_num_pix / 2) (min_num_qso / 2) else w1 in
  if Nat.ltb (count (fun b : bool => b) w) 5 then Ok None
  else
    let diag := Diag (select w (map (fun x => nsqrt (Fin x)) (slice i1 i2 (variance_var_delta v)))) in
    if v_usecov v then
      rbind (rseq (map (fun i => rseq (map (fun j => of_option "TypeError" (cov_var_delta v iwave i j)) (seq 0 (v_nv v))))
                       (seq 0 (v_nv v)))) (fun c =>
      let c := select w (map (select w) c) in
      Ok (Some (i1, i2, w, if cholesky c then Full c else diag)))
    else Ok (Some (i1, i2, w, diag)).

(** curve_fit of one bin: var_centers, var_delta, p0, sigma; (pfit, sqrt(diag(pcov))), None if it raises *)
Variable curve_fit : list Qc -> list Qc -> list num -> errors -> option (list num * list num).

(** 1067-1104: the loop over the wavelength bins.  A row of fit_results has one
    (var_lss) or two (var_lss, eta) parameters. *)
Definition fit_bin (v : vfit) (npar : nat) (guess : list (list num)) (iwave : nat)
  : res (bool * (list num * list num)) :=
  rbind (wave_bin_slice v iwave) (fun sp =>
  match sp with
  | None => Ok (true, (repeat n0 npar, repeat n0 npar))
  | Some (i1, i2, w, err) =>
      match curve_fit (select w (slice i1 i2 (var_centers v))) (select w (slice i1 i2 (var_delta v)))
                      (nth iwave guess []) err with
      | None => Ok (true, (repeat n0 npar, repeat n0 npar))
      | Some r => Ok (false, r)
      end
  end).

(** UnivariateSpline(x, y, w=weights)(waveobs): one value per bin; None if it raises *)
Variable spline : list Qc -> list num -> list num -> option (list num).

(** 972-992 _smooth_fit_results *)
Definition column (j : nat) (rows : list (list num)) : list num := map (fun r => nth j r NaN) rows.
Definition smooth_fit_results (v : vfit) (npar : nat) (fit std : list (list num)) : res (list (list num)) :=
  let w := map npos (column 0 fit) in
  let col j := of_option "ValueError"
                 (spline (select w (v_wave v)) (select w (column j fit)) (map (fun e => ndiv n1 e) (select w (column j std)))) in
  match npar with
  | 1 => rmap (map (fun x => [x])) (col 0)
  | _ => rbind (col 0) (fun a => rbind (col 1) (fun b => zip2 (fun x y => [x; y]) a b))
  end.

(** 994-998, 1036-1118 fit; [guess] has shape (nwbins,) for npar = 1 and
    (nwbins, 2) for npar = 2. *)
Definition fit_local (v : vfit) (npar : nat) (guess : list (list num)) (smooth : bool)
  : res (list (list num) * list (list num)) :=
  rbind (rseq (map (fit_bin v npar guess) (seq 0 (v_nw v)))) (fun rows =>
  let nfails := count (fun r : bool * (list num * list num) => fst r) rows in
  let fit := map (fun r => fst (snd r)) rows in
  let std := map (fun r => snd (snd r)) rows in
  if Nat.eqb (v_nw v) 0 then Err (OtherExn "ZeroDivisionError")
  else if qltb (fq 2 5) (zq (Z.of_nat nfails) / zq (Z.of_nat (v_nw v)))%Qc
  then Err (QsonicExn "VarLSSFitter failed at more than 40% points.")
  else
    rbind (if smooth then smooth_fit_results v npar fit std else Ok fit) (fun fit' =>
    Ok (fit', std))).
Definition vfit_fit (v : vfit) (npar : nat) (guess : list (list num)) (smooth : bool)
  : prog vval (vfit * (list (list num) * list (list num))) :=
  if negb ((Nat.eqb npar 1 || Nat.eqb npar 2) && Nat.eqb (length guess) (v_nw v)
           && forallb (fun g : list num => Nat.eqb (length g) npar) guess)
  then Raise (OtherExn "AssertionError")
  else pbind (calculate_stats v) (fun v' =>
       pbind (of_res (fit_local v' npar guess smooth)) (fun r => Ret (v', r))).
End Fit.

(** 446-461: the calls of add for the valid spectra, one per arm, in
    update_var_lss_eta; each element is (wave, delta, ivar). *)
Fixpoint vfit_add_all (l : list (list Qc * list Qc * list Qc)) (v : vfit) : res vfit :=
  match l with
  | [] => Ok v
  | (wave, delta, ivar) :: r =>
      let '(v', ok) := vfit_add wave delta ivar v in rbind ok (fun _ => vfit_add_all r v')
  end.
