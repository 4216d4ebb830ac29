(** Model of FluxStacker (py/qsonic/picca_continuum.py 1228-1374) and of the
    stacking of spectra by the continuum models.

    Wavelengths are exact rationals; fluxes and weights are [num].  np.sqrt is
    the parameter [nsqrt]. *)
From Coq Require Import ZArith String List Bool Arith Qcanon.
From Verif Require Import Num NpList Exn Dict Mpi ModelSpectrum.
Import ListNotations.
Local Open Scope nat_scope.

(** np.bincount(idx, weights=w, minlength=n): ValueError for negative indices
    and for arrays of different lengths; the result is longer than n if an index
    is >= n.  Without weights the values are counted. *)
Definition bin_length (idx : list Z) (n : nat) : nat :=
  fold_left (fun acc i => Nat.max acc (S (Z.to_nat i))) idx n.
Definition bin_sum (idx : list Z) (w : arr) (k : nat) : num :=
  nsum (map snd (filter (fun p : Z * num => (fst p =? Z.of_nat k)%Z) (combine idx w))).
Definition np_bincount (idx : list Z) (w : arr) (n : nat) : res arr :=
  if existsb (fun i => (i <? 0)%Z) idx then Err (OtherExn "ValueError: negative")
  else if negb (Nat.eqb (length idx) (length w)) then Err (OtherExn "ValueError: lengths")
  else Ok (map (bin_sum idx w) (seq 0 (bin_length idx n))).
(** a += b in place: ValueError for different shapes *)
Definition arr_iadd (a b : arr) : res arr := zip2 nadd a b.

(** 1271-1291: the bins (centre of the first one, width, number) in the observed
    frame and in the rest frame; _interp.fp, _interp.ep, _interp_rf.fp and
    _interp_rf.ep. *)
Record stacker := mkStack {
  k_w0 : Qc; k_dw : Qc; k_n : nat;
  k_rf0 : Qc; k_drf : Qc; k_nrf : nat;
  k_fp : arr; k_ep : arr; k_rfp : arr; k_rep : arr }.

(** centres of the bins between the edges of np.linspace(a, b, n + 1) *)
Definition centers (a b : Qc) (n : nat) : list Qc :=
  let edges := linspace a b (S n) in
  map2 (fun x y => (x + y) / (1 + 1))%Qc (tl edges) (removelast edges).

(** 1274-1291 __init__ (without a single bin: waveobs[0] is an IndexError). *)
Definition stacker_init (w1obs w2obs dwobs : Qc) (waverf : list Qc) (dwrf : Qc) : res stacker :=
  let nz := qround ((w2obs - w1obs) / dwobs)%Qc in
  if (nz <=? 0)%Z then Err (OtherExn "IndexError")
  else
    let n := Z.to_nat nz in
    rbind (rfirst (centers w1obs w2obs n)) (fun w0 =>
    rbind (rfirst waverf) (fun rf0 =>
    let nrf := length waverf in
    Ok (mkStack w0 ((w2obs - w1obs) / zq nz)%Qc n rf0 dwrf nrf
          (repeat n1 n) (repeat n0 n) (repeat n1 nrf) (repeat n0 nrf)))).

Definition set_sums (a b c d : arr) (s : stacker) : stacker :=
  mkStack (k_w0 s) (k_dw s) (k_n s) (k_rf0 s) (k_drf s) (k_nrf s) a b c d.

(** ((wave - w0) / dw + 0.5).astype(int) *)
Definition stack_idx (w0 dw w : Qc) : Z := qtrunc ((w - w0) / dw + fq 1 2)%Qc.

(** 1296-1331 add *)
Definition stacker_add (wave wave_rf : list Qc) (weighted_flux weighted_cont weight : arr)
  (s : stacker) : res stacker :=
  let idx := map (stack_idx (k_w0 s) (k_dw s)) wave in
  rbind (np_bincount idx weighted_flux (k_n s)) (fun b1 =>
  rbind (arr_iadd (k_fp s) b1) (fun fp =>
  rbind (np_bincount idx weight (k_n s)) (fun b2 =>
  rbind (arr_iadd (k_ep s) b2) (fun ep =>
  let idx_rf := map (stack_idx (k_rf0 s) (k_drf s)) wave_rf in
  rbind (np_bincount idx_rf weighted_cont (k_nrf s)) (fun b3 =>
  rbind (arr_iadd (k_rfp s) b3) (fun rfp =>
  rbind (np_bincount idx_rf weight (k_nrf s)) (fun b4 =>
  rbind (arr_iadd (k_rep s) b4) (fun rep =>
  Ok (set_sums fp ep rfp rep s))))))))).

(** 1349-1355 reset *)
Definition stacker_reset (s : stacker) : stacker :=
  set_sums (map (fun _ => n0) (k_fp s)) (map (fun _ => n0) (k_ep s))
           (map (fun _ => n0) (k_rfp s)) (map (fun _ => n0) (k_rep s)) s.

Section Stack.
Variable nsqrt : num -> num.

(** 1340-1347: fp[w] /= ep[w]; fp[~w] = 0 with w = ep > 0 *)
Definition normalised (fp ep : arr) : arr :=
  map2 (fun f e => if npos e then ndiv f e else n0) fp ep.
Definition stacker_finish (s : stacker) : stacker :=
  set_sums (normalised (k_fp s) (k_ep s)) (k_ep s)
    (normalised (k_rfp s) (k_rep s))
    (map (fun e => if npos e then ndiv n1 (nsqrt e) else e) (k_rep s)) s.

(** 1333-1347 calculate with an MPI communicator: four Allreduce(MPI.IN_PLACE)
    with MPI.SUM of the arrays. *)
Definition arr_sum (a b : arr) : arr := map2 nadd a b.
Definition stacker_calculate (s : stacker) : prog (list num) stacker :=
  Allreduce arr_sum (k_fp s) (fun fp =>
  Allreduce arr_sum (k_ep s) (fun ep =>
  Allreduce arr_sum (k_rfp s) (fun rfp =>
  Allreduce arr_sum (k_rep s) (fun rep =>
  Ret (stacker_finish (set_sums fp ep rfp rep s)))))).

(** spectrum.py valid_spectra 33-39 *)
Definition valid_spectra (l : list spec) : list spec := filter s_valid l.

(** continuum_models: stack_spectra of one arm.  [residual] is
    stacks_residual_flux(): True for PiccaContinuumModel
    (picca_continuum_model.py 169-190), False for the base class
    (base_continuum_model.py 7-30, used by the true and input models). *)
Definition stack_arm (residual : bool) (z : Qc) (wave : list Qc) (cont fweight flux : arr)
  (k : stacker) : res stacker :=
  let wave_rf := map (fun w => w / (1 + z))%Qc wave in
  rbind (zip2 nmul fweight (map nsq cont)) (fun weight =>
  rbind (zip2 nmul weight flux) (fun wf =>
  rbind (zip2 ndiv wf cont) (fun weighted_flux =>
  rbind (if residual then Ok weighted_flux else zip2 nmul weight cont) (fun weighted_cont =>
  stacker_add wave wave_rf weighted_flux weighted_cont weight k)))).
(** stack_spectra: all arms of all valid spectra *)
Definition stack_spec (residual : bool) (s : spec) (k : stacker) : res stacker :=
  for_each (fw (s_f s)) (fun aw k =>
    rbind (rget (fst aw) (s_cont s)) (fun cont =>
    rbind (rget (fst aw) (fweight (s_f s))) (fun wt =>
    rbind (rget (fst aw) (ff (s_f s))) (fun fl =>
    stack_arm residual (s_z s) (snd aw) cont wt fl k)))) k.
Definition stack_spectra (residual : bool) (l : list spec) (k : stacker) : res stacker :=
  for_each (valid_spectra l) (stack_spec residual) k.

(** picca_continuum.py 384-389, the stacking part of update_mean_cont on one rank. *)
Definition stack_all (residual : bool) (l : list spec) (k : stacker) : prog (list num) stacker :=
  pbind (of_res (stack_spectra residual l (stacker_reset k))) stacker_calculate.
End Stack.
