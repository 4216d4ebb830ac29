(** Specification vocabulary for qsonic-calib (C55, C56, C57). *)
From Coq Require Import ZArith String List Bool Arith Qcanon.
From Verif Require Import Num NpList Exn Mpi ModelDelta ModelSubsample ModelCatalog ModelVarFit ModelCalib SpecCatalog SpecVarFit.
Import ListNotations.
Local Open Scope nat_scope.

(** the numbers in the file with TARGETIDs *)
Definition listed (i : idlist) : list Z := match i with OneId z => [z] | Ids l => l end.

(** The user asked to leave out sight line [id]: it is in the text file; or the
    catalog is used, [id] is in it (at redshift 0 to 100), and BALs are removed
    and it has a BAL, or there are surveys to keep and its survey is another. *)
Definition removed (y : calworld) (a : calargs) (id : Z) : Prop :=
  (k_remove a = true /\ exists i, y_ids y = Some i /\ In id (listed i)) \/
  (k_catalog a = true /\ exists c r,
     y_catalog y = Some c /\ In r (rows c) /\ TARGETID r = id /\
     nleb n0 (row_z r) = true /\ nleb (row_z r) (Fin (zq 100)) = true /\
     ((k_bal a = true /\ exists vmin vmax, In (vmin, vmax) (y_ai y id ++ y_bi y id) /\
                                           nltb n0 vmin = true /\ nltb n0 vmax = true) \/
      (exists ss, k_surveys a = Some ss /\ ss <> [] /\ ~ In (SURVEY r) ss))).
(** a delta of the sample: not left out, and with min < MEANSNR < max *)
Definition wanted (y : calworld) (a : calargs) (d : delta) : Prop :=
  ~ removed y a (d_targetid d) /\ nltb (k_minsnr a) (d_meansnr d) = true /\ nltb (d_meansnr d) (k_maxsnr a) = true.

(** The files are dealt to the ranks in consecutive blocks of equal length, at
    least one.  (Files left over are read by nobody, see C11.) *)
Definition block {F} (files : list F) (size r : nat) : list F :=
  let k := Nat.max 1 (length files / size) in firstn k (skipn (k * r) files).
(** [D]: the wanted deltas of the files of rank r *)
Definition rank_deltas (y : calworld) (a : calargs) (size r : nat) (D : list delta) : Prop :=
  exists files contents (p : delta -> bool),
    y_glob y = Some files /\ Forall2 (fun f c => y_read y r f = Some c) (block files size r) contents /\
    (forall d, p d = true <-> wanted y a d) /\ D = filter p (concat contents).

(** Pixels of a delta for the variance statistics (delta and ivar finite). *)
Definition lss_pixels (d : delta) : list lsspix :=
  map (fun t : Qc * (num * num) => mkLP (fst t) (nval (fst (snd t))) (nval (snd (snd t))))
      (combine (d_wave d) (combine (d_delta d) (d_ivar d))).

(** Pixels of a delta for the stack. *)
Record fluxpix := mkFP { f_wave : Qc; f_delta : Qc; f_weight : Qc }.
Definition flux_pixels (d : delta) : list fluxpix :=
  map (fun t : Qc * (num * num) => mkFP (fst t) (nval (fst (snd t))) (nval (snd (snd t))))
      (combine (d_wave d) (combine (d_delta d) (d_weight d))).
(** less than half a step away from w *)
Definition around (step w : Qc) (p : fluxpix) : bool :=
  qltb (w - step * fq 1 2)%Qc (f_wave p) && qltb (f_wave p) (w + step * fq 1 2)%Qc.
Definition mean_flux (l : list fluxpix) : Qc :=
  let total := qsum (map f_weight l) in
  if qltb 0 total then (qsum (map (fun p => f_weight p * (1 + f_delta p)) l) / total)%Qc else 0%Qc.
(** A delta that the stack can use: finite arrays of one length, pixels at least
    a step apart, none halfway between two points of the grid w1 + k step. *)
Definition on_grid (w1 step : Qc) (d : delta) : Prop :=
  (exists x wt, d_delta d = map Fin x /\ d_weight d = map Fin wt /\
                length x = length (d_wave d) /\ length wt = length (d_wave d)) /\
  (forall i j, i < j < length (d_wave d) ->
     (nth i (d_wave d) 0 + step <= nth j (d_wave d) 0)%Qc) /\
  (forall w z, In w (d_wave d) -> w <> (w1 + (zq z + fq 1 2) * step)%Qc).

(** number of wavelength bins of the fit *)
Definition calib_bins (a : calargs) : Z := match k_nw a with Some z => z | None => auto_nwbins (k_w1 a) (k_w2 a) end.

(** What mpi_stack_fluxes returns for the pixels [px] of the sample: from w1 to
    w2 with the given step, the mean flux around each point.  The wavelengths are
    n numbers evenly spaced from w1 to w2; these are the points if the range is a
    multiple of the step. *)
Definition stack_of (w1 w2 step : Qc) (px : list fluxpix) (wave : list Qc) (flux : list num) : Prop :=
  let n := S (Z.to_nat (qtrunc ((w2 - w1) / step)%Qc)) in
  flux = map (fun j => Fin (mean_flux (filter (around step (w1 + zq (Z.of_nat j) * step)%Qc) px))) (seq 0 n) /\
  wave = map (fun j => w1 + zq (Z.of_nat j) * ((w2 - w1) / zq (Z.of_nat n - 1)))%Qc (seq 0 n) /\
  (forall m : nat, (w2 - w1 = zq (Z.of_nat m) * step)%Qc ->
     wave = map (fun j => w1 + zq (Z.of_nat j) * step)%Qc (seq 0 (S m))).

(** Of n ranks, rank r with the deltas D r. *)
Section Output.
Variables (np nq : nat) (nsqrt : num -> num) (cholesky : list (list Qc) -> bool)
  (curve_fit : list Qc -> list Qc -> list num -> errors -> option (list num * list num))
  (spline : list Qc -> list num -> list num -> option (list num)).
Variable y : calworld.
Variable n : nat.

(** For sensible bins: the statistics written are those of C40/C41 and the fit is
    that of C43, of the pixels of the whole sample (all ranks). *)
Definition fit_output (a : calargs) (D : nat -> list delta) (v : vfit) fit std : Prop :=
  forall nw, calib_bins a = Z.of_nat nw -> 1 <= nw -> (k_w1 a < k_w2 a)%Qc -> good_edges (k_nv a) (k_edges a) -> 1 <= k_nv a ->
  (forall x z w r, spline x z w = Some r -> length r = nw) ->
  let arms r := map lss_pixels (D r) in
  let all := concat (map arms (seq 0 n)) in
  let nsub := k_nv a * k_nv a in
  v_wave v = map (bin_center (k_w1 a) (k_w2 a) nw) (seq 0 nw) /\
  shows (k_w1 a) (k_w2 a) nw (k_nv a) (k_edges a) (k_usecov a) nsub eps all (tagged_pixels n nsub arms) v /\
  fit_result (k_w1 a) (k_w2 a) nw (k_nv a) (k_edges a) (k_usecov a) nsub eps all (tagged_pixels n nsub arms)
    np nq nsqrt cholesky curve_fit spline 2 (repeat [Fin (fq 1 10); n1] nw) true = Ok (fit, std).
(** For deltas on the grid: the stacked flux is that of the whole sample. *)
Definition stack_output (a : calargs) (D : nat -> list delta) wave flux : Prop :=
  forall step, (0 < step)%Qc -> (k_w1 a <= k_w2 a)%Qc ->
  (forall r d, r < n -> In d (D r) -> y_dlambda y d = Some step /\ on_grid (k_w1 a) step d) ->
  stack_of (k_w1 a) (k_w2 a) step (flat_map flux_pixels (concat (map D (seq 0 n)))) wave flux.
(** rank 0 writes the file, nobody else writes *)
Definition calib_file (a : calargs) (files : nat -> list calext) (v : vfit) fit std wave flux : Prop :=
  (forall r, 0 < r < n -> files r = []) /\
  files 0 = [VarStats v (k_minsnr a) (k_maxsnr a); VarFunc (v_wave v) fit std; StackedFlux wave flux].
(** the sample of the run *)
Definition calib_sample (a : calargs) (D : nat -> list delta) : Prop :=
  y_parse y = CalParsed a /\ forall r, r < n -> rank_deltas y a n r (D r).
Definition calib_output (files : nat -> list calext) : Prop :=
  exists a D v fit std wave flux,
    calib_sample a D /\ (forall r, r < n -> D r <> []) /\ calib_file a files v fit std wave flux /\
    fit_output a D v fit std /\ stack_output a D wave flux.

(** Everything that the run needs: the files can be read and written; the file
    of TARGETIDs has not exactly one number; the catalog has the columns, no
    duplicate and a quasar in the redshift range; every rank has a wanted delta;
    their pixels are finite and on one grid; sensible bins; and the curve fits
    come out. *)
Record calib_ok (a : calargs) (D : nat -> list delta) (step : Qc) (nw : nat) (fit std : list (list num)) : Prop := mkCalibOk {
  ok_sample : calib_sample a D;
  ok_nonempty : forall r, r < n -> D r <> [];
  ok_makedirs : y_makedirs y = true;
  ok_write : forall k, y_write y k = true;
  ok_ids : k_remove a = true -> exists l, y_ids y = Some (Ids l);
  ok_catalog : k_catalog a = true -> exists c,
    y_catalog y = Some c /\ columns_ok (k_mock a) false (colnames c) /\ unique_ids false (rows c) /\
    (exists r, In r (rows c) /\ z_selected 0 (zq 100) r) /\
    (k_bal a = true -> y_balcols y = true) /\
    (forall s ss, k_surveys a = Some (s :: ss) -> In "SURVEY"%string (colnames c));
  ok_step : (0 < step)%Qc;
  ok_deltas : forall r d, r < n -> In d (D r) ->
    y_dlambda y d = Some step /\ on_grid (k_w1 a) step d /\ exists iv, d_ivar d = map Fin iv /\ length iv = length (d_wave d);
  ok_nw : calib_bins a = Z.of_nat nw; ok_nw1 : 1 <= nw; ok_range : (k_w1 a < k_w2 a)%Qc;
  ok_edges : good_edges (k_nv a) (k_edges a); ok_nv : 1 <= k_nv a;
  ok_spline : forall x z w r, spline x z w = Some r -> length r = nw;
  ok_fit : let arms r := map lss_pixels (D r) in
    fit_result (k_w1 a) (k_w2 a) nw (k_nv a) (k_edges a) (k_usecov a) (k_nv a * k_nv a) eps (concat (map arms (seq 0 n)))
      (tagged_pixels n (k_nv a * k_nv a) arms) np nq nsqrt cholesky curve_fit spline 2 (repeat [Fin (fq 1 10); n1] nw) true = Ok (fit, std) }.
End Output.
