(** Model of py/qsonic/scripts/qsonic_calib.py: the whole qsonic-calib program of
    one rank, built from the models of its parts. *)
From Coq Require Import ZArith String List Bool Arith Qcanon.
From Verif Require Import Num NpList Exn Dict Mpi ModelMpiUtils ModelSpectrum ModelDelta ModelStack ModelSubsample ModelVarFit
  ModelFitter ModelCatalog ModelIO ModelPipeline.
Import ListNotations.
Local Open Scope nat_scope.

(** np.loadtxt(..., dtype=int): an array with one number has no dimension. *)
Inductive idlist := OneId (z : Z) | Ids (l : list Z).
(** x in a, for both *)
Definition id_in (i : Z) (l : idlist) : bool :=
  match l with OneId z => Z.eqb i z | Ids l => zmem i l end.
(** np.concatenate((a, b)) for a one-dimensional b *)
Definition concat_ids (a : idlist) (b : list Z) : res idlist :=
  match a with
  | Ids l => Ok (Ids (l ++ b))
  | OneId _ => Err (OtherExn "ValueError: zero-dimensional arrays cannot be concatenated")
  end.

(** The options that the script looks at (get_parser, 19-85); a bool for a path is
    whether it is given.  [k_edges] are the edges made from var1 and var2. *)
Record calargs := mkCal {
  k_remove : bool; k_catalog : bool; k_mock : bool; k_bal : bool; k_surveys : option (list Z);
  k_w1 : Qc; k_w2 : Qc; k_nw : option Z; k_nv : nat; k_edges : list Qc; k_usecov : bool;
  k_minsnr : num; k_maxsnr : num }.

(** What the outside world answers; None: the access raises.  The first argument
    of [y_read] is the rank, [y_ai] and [y_bi] are (VMIN, VMAX) of the CIV_450 and
    CIV_2000 columns by TARGETID, [y_dlambda] is header['DELTA_LAMBDA'], [y_write]
    whether the k-th access to the output file works (on rank 0). *)
Inductive calparsed := CalParsed (a : calargs) | CalExit | CalCrash.
Record calworld := mkCalWorld {
  y_parse : calparsed; y_makedirs : bool; y_ids : option idlist; y_catalog : option catalog; y_balcols : bool;
  y_ai : Z -> list (num * num); y_bi : Z -> list (num * num);
  y_glob : option (list string); y_read : nat -> string -> option (list delta); y_dlambda : delta -> option Qc;
  y_write : nat -> bool }.

(** Everything that is communicated *)
Inductive cval :=
| CArgs (a : option calargs) | CIds (i : option idlist) | CCat (c : option (list row)) | CFiles (l : option (list string))
| CVar (v : vval) | CArr (a : arr).
Definition cargs_of v := match v with CArgs a => a | _ => None end.
Definition cids_of v := match v with CIds a => a | _ => None end.
Definition ccat_of v := match v with CCat a => a | _ => None end.
Definition cfiles_of v := match v with CFiles a => a | _ => None end.
Definition cvar_of v := match v with CVar a => a | _ => VInt [] end.
Definition carr_of v := match v with CArr a => a | _ => [] end.
Definition carr_sum (a b : cval) : cval := CArr (arr_sum (carr_of a) (carr_of b)).

(** The extensions of the output file.  VAR_STATS has the statistics that the
    fitter shows (picca_continuum.py 1120-1161). *)
Inductive calext :=
| VarStats (v : vfit) (minsnr maxsnr : num)
| VarFunc (wave : list Qc) (fit std : list (list num))
| StackedFlux (wave : list Qc) (flux : arr).

(** 176-188: the loop body of mpi_stack_fluxes.  [fancy_add] keeps one of the
    values that fall on the same index. *)
Definition pix_index (w1 dw w : Qc) : Z := qround ((w - w1) / dw)%Qc.
Definition stack_delta (w1 dw : Qc) (n : nat) (d : delta) (acc : arr * arr) : res (arr * arr) :=
  if negb (Nat.eqb (length (d_delta d)) (length (d_wave d))) || negb (Nat.eqb (length (d_weight d)) (length (d_wave d)))
  then Err (OtherExn "ValueError: shapes")
  else
    let px := filter (fun t : Z * (num * num) => Z.leb 0 (fst t) && Z.ltb (fst t) (Z.of_nat n))
                (combine (map (pix_index w1 dw) (d_wave d)) (combine (map (nadd n1) (d_delta d)) (d_weight d))) in
    rbind (fancy_add (fst acc) (map fst px) (map (fun t => nmul (fst (snd t)) (snd (snd t))) px)) (fun f =>
    rbind (fancy_add (snd acc) (map fst px) (map (fun t => snd (snd t)) px)) (fun e =>
    Ok (f, e))).

Section Calib.
Variable ang2pix : Z -> num -> num -> Z.
Variables (min_num_pix min_num_qso : nat) (nsqrt : num -> num) (cholesky : list (list Qc) -> bool)
  (curve_fit : list Qc -> list Qc -> list num -> errors -> option (list num * list num))
  (spline : list Qc -> list num -> list num -> option (list num)).
Variable y : calworld.

(** 131-135 sel_bal *)
Definition bal_velocities (l : list (num * num)) : bool := existsb (fun v => npos (fst v) && npos (snd v)) l.
Definition is_bal (r : row) : bool := bal_velocities (y_ai y (TARGETID r)) || bal_velocities (y_bi y (TARGETID r)).
(** 127-145: the part of mpi_set_targetid_list_to_remove after reading.  Without
    a column SURVEY (a mock catalog) catalog['SURVEY'] raises. *)
Definition add_removals (a : calargs) (ids : idlist) (cat : option (list row)) : res idlist :=
  match cat with
  | None => Ok ids
  | Some rs =>
      rbind (if k_bal a
             then if y_balcols y then concat_ids ids (map TARGETID (filter is_bal rs))
                  else Err (QsonicExn "Input catalog is missing BAL columns.")
             else Ok ids) (fun ids1 =>
      match k_surveys a with
      | Some (s :: ss) =>
          if match y_catalog y with Some c => smem "SURVEY" (colnames c) | None => false end
          then concat_ids ids1 (map TARGETID (filter (fun r => negb (zmem (SURVEY r) (s :: ss))) rs))
          else Err (OtherExn "ValueError: no field of name SURVEY")
      | _ => Ok ids1
      end)
  end.
(** 88-145 mpi_set_targetid_list_to_remove *)
Definition removal_list (a : calargs) (rank : nat) : prog cval idlist :=
  pbind (if k_remove a
         then lift CIds cids_of (mpi_fnc_bcast true rank "Error while reading remove_targetid_list." (the_file (y_ids y)))
         else Ret (Ids [])) (fun ids =>
  pbind (if k_catalog a
         then pbind (lift CCat ccat_of (mpi_fnc_bcast true rank "Error while reading catalog."
                      (read_quasar_catalog ang2pix (the_file (y_catalog y)) (k_mock a) false None n0 (Fin (zq 100)))))
                    (fun c => Ret (Some c))
         else Ret None) (fun cat =>
  of_res (add_removals a ids cat))).

(** 148-173 mpi_read_all_deltas *)
Definition read_all_deltas (rank size : nat) : prog cval (list (list delta)) :=
  pbind (lift CFiles cfiles_of (mpi_fnc_bcast true rank "Delta files are not found" (the_file (y_glob y)))) (fun files =>
  of_res (rseq (map (fun f => the_file (y_read y rank f)) (calib_files_of_rank files size rank)))).

(** 218-223 _is_kept *)
Definition is_kept (a : calargs) (ids : idlist) (d : delta) : bool :=
  negb (id_in (d_targetid d) ids) && nltb (k_minsnr a) (d_meansnr d) && nltb (d_meansnr d) (k_maxsnr a).

(** 176-203 mpi_stack_fluxes.  Ranks with other numbers of pixels: not modelled
    (the sums are cut to the shorter array). *)
Definition stack_fluxes (a : calargs) (l : list delta) : prog cval (list Qc * arr) :=
  pbind (of_res (rbind (rfirst l) (fun d =>
                 rbind (of_option "KeyError: DELTA_LAMBDA" (y_dlambda y d)) (fun dw =>
                 let n := (qtrunc ((k_w2 a - k_w1 a) / dw)%Qc + 1)%Z in
                 if qeqb dw 0 then Err (OtherExn "ZeroDivisionError")
                 else if Z.ltb n 0 then Err (OtherExn "ValueError")
                 else
                 let n := Z.to_nat n in
                 rmap (pair n) (for_each l (stack_delta (k_w1 a) dw n) (repeat n0 n, repeat n0 n)))))) (fun ns =>
  let '(n, (f, e)) := ns in
  Allreduce carr_sum (CArr f) (fun f' =>
  Allreduce carr_sum (CArr e) (fun e' =>
  Ret (linspace (k_w1 a) (k_w2 a) n, normalised (carr_of f') (carr_of e'))))).

(** 230: varfitter.add of a delta (finite pixels, see ModelFitter.finite_arr) *)
Definition lss_item (d : delta) : res (list Qc * list Qc * list Qc) :=
  rbind (finite_arr (d_delta d)) (fun x => rbind (finite_arr (d_ivar d)) (fun iv => Ok (d_wave d, x, iv))).

(** 211-214; np.linspace with a negative number raises *)
Definition calib_fitter (a : calargs) (rank size : nat) : res vfit :=
  let nw := match k_nw a with Some z => z | None => auto_nwbins (k_w1 a) (k_w2 a) end in
  if Z.ltb nw 0 then Err (OtherExn "ValueError")
  else Ok (vfit_init (k_w1 a) (k_w2 a) (Z.to_nat nw) (k_nv a) (k_edges a) None (k_usecov a) rank size).

(** MPISaver: access number k on rank 0 *)
Definition access (rank k : nat) : res unit :=
  if Nat.eqb rank 0 && negb (y_write y k) then Err (OtherExn "OSError") else Ok tt.
Definition on_root {A} (rank : nat) (l : list A) : list A := if Nat.eqb rank 0 then l else [].

(** 206-259 mpi_run_all.  The result is what the rank writes. *)
Definition calib_parse : res calargs :=
  match y_parse y with CalParsed a => Ok a | CalExit => Err SysExit | CalCrash => Err (OtherExn "parse_args") end.
Definition calib_run (rank size : nat) : prog cval (list calext) :=
  pbind (lift CArgs cargs_of (mpi_parse rank calib_parse (fun _ => Ok true))) (fun a =>
  pbind (of_res (if Nat.eqb rank 0 && negb (y_makedirs y) then Err (OtherExn "OSError") else Ok tt)) (fun _ =>
  pbind (of_res (calib_fitter a rank size)) (fun v0 =>
  pbind (removal_list a rank) (fun ids =>
  pbind (read_all_deltas rank size) (fun ll =>
  let l := filter (is_kept a ids) (concat ll) in
  pbind (of_res (rbind (rseq (map lss_item l)) (fun items => vfit_add_all items v0))) (fun v1 =>
  pbind (lift CVar cvar_of (vfit_fit min_num_pix min_num_qso nsqrt cholesky curve_fit spline v1 2
                              (repeat [Fin (fq 1 10); n1] (v_nw v1)) true)) (fun r =>
  let '(v, (fit, std)) := r in
  pbind (of_res (rbind (access rank 0) (fun _ => rbind (access rank 1) (fun _ => access rank 2)))) (fun _ =>
  pbind (stack_fluxes a l) (fun s =>
  pbind (of_res (access rank 3)) (fun _ =>
  Ret (on_root rank [VarStats v (k_minsnr a) (k_maxsnr a); VarFunc (v_wave v) fit std;
                     StackedFlux (fst s) (snd s)]))))))))))).
End Calib.
