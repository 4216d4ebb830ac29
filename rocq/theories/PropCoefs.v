(** C78: the coefficients and the covariance in a row of the chi2 catalog belong together. *)
From Coq Require Import QArith_base ZArith String List Bool Arith Lia Qcanon.
From Verif Require Import Num NpList Exn Dict Mpi ModelSpectrum ModelContinuum ModelStack ModelSubsample ModelVarFit ModelAttributes ModelFitter ModelDelta ModelChi2 ModelChi2Run
  SpecSpectrum SpecFinal SpecChi2Run SpecCoefs SpecAttributes PropFitter PropWeightTables PropChi2Run PropContTables ProofCoefs2.
Import ListNotations.
Local Open Scope nat_scope.

(** CONT_x and CONT_xcov of every row are the minimum and the covariance that one successful call of the minimizer
    returned for this quasar; or, only in rows without a valid continuum, the values before the first fit. *)
Theorem C78_coefficients g ev ev_stack slope minimizer input_cont true_cont nsqrt uspline xs quad
    min_num_pix min_num_qso cholesky curve_fit vspline write_ok iter_suffix smooth junk dwave n o (l : nat -> list specx) f :
  g_model g = Picca -> answers_sized (g_order g) minimizer ->
  1 <= n -> n_iterations g <> 0 -> g_outdir g = true ->
  finishes n (fun r => continuum_fitting_c g ev ev_stack slope minimizer input_cont true_cont nsqrt uspline xs quad
      min_num_pix min_num_qso cholesky curve_fit vspline write_ok iter_suffix smooth junk dwave r o (l r)) f ->
  exists rows, snd (f 0) = Some (concat (map rows (seq 0 n))) /\
    forall r, r < n -> Forall2 (fun sx row => about r (fst sx) row /\
      (one_answer minimizer (s_cat (fst sx)) (r_x row) (r_xcov row) \/
       (r_valid row = false /\ start_values (g_order g) (fst sx) (r_x row) (r_xcov row)))) (l r) (rows r).
Proof. exact (fun Hg => coefs_thm g ev ev_stack slope minimizer input_cont true_cont nsqrt uspline xs quad
    min_num_pix min_num_qso cholesky curve_fit vspline write_ok iter_suffix smooth junk dwave Hg n o l f). Qed.
Print Assumptions C78_coefficients.

(** ** an example: two iterations on two ranks; for quasar 77 on rank 1 the second fit fails, for quasar 78 both fits *)
Definition coef_specx (tid : Z) : specx :=
  let s := fst cat_specx in
  (mkSpec (mkCatrow tid 8 (zq 2) None [] [] [] []) (s_wave s) (s_flux s) (s_ivar s) (s_reso s) (s_rsnr s) (s_msnr s)
     (s_f s) (s_sscale s) (s_valid s) (s_x s) (s_chi2 s) [], []).
Definition coef_min (_ _ _ _ : interp) (s : spec) (_ : num) : option minres :=
  let tid := c_targetid (s_cat s) in
  Some (mkMin (negb (Z.eqb tid 78 || (Z.eqb tid 77 && dtrue (s_cont s)))) [Fin (zq 2); n1] [[Fin (zq 3); n0]; [n0; n1]]).
Definition coef_list (r : nat) : list specx := if Nat.eqb r 0 then [cat_specx] else [coef_specx 77; coef_specx 78].
Definition coef_c (r : nat) : prog cval (fitter * list spec * list bool * option (list chi2row)) :=
  continuum_fitting_c con_g ex_ev con_stack (fun _ => Fin (fq 3 4)) coef_min (fun _ => None) (fun _ _ => n1) (fun _ => NaN)
    (fun _ _ _ => Some [n1; Fin (fq 9 10)]) [0; 1]%Qc ex_simpson 0 0 (fun _ => true) (fun _ _ _ _ => Some ([Fin (fq 1 5); Fin (zq 2)], [Fin (fq 1 5); Fin (zq 2)]))
    (fun _ y _ => Some y) (fun _ => true) suffix_of (fun a _ => a) (fun _ => n0) 1%Qc r con_o (coef_list r).
Definition coef_run (r : nat) : fitter * list spec * list bool * option (list chi2row) :=
  match spmd 2 coef_c with
  | Done l => match nth r l (Failed SysExit) with Finished x => x | Failed _ => (ex_t0, [], [], None) end
  | _ => (ex_t0, [], [], None)
  end.
Lemma coef_finishes : match spmd 2 coef_c with Done [Finished _; Finished _] => true | _ => false end = true -> finishes 2 coef_c coef_run.
Proof. unfold finishes, coef_run. destruct (spmd 2 coef_c) as [[|[x|e] [|[y|e'] [|? ?]]]| |]; try discriminate. reflexivity. Qed.
Definition coef_show (row : chi2row) := (r_id row, r_valid row, sh (r_chi2 row), map sh (r_x row), map sh (r_xcov row)).
(** the row of quasar 77 has CONT_valid = false and chi2 = -1, but the coefficients and the covariance of the first fit;
    that of quasar 78 has the values before the first fit *)
Lemma coef_rows : finishes 2 coef_c coef_run /\
  option_map (map coef_show) (snd (coef_run 0)) = Some
    [(39%Z, true, Some (1853457061934 # 90417781251)%Q, [Some (2 # 1); Some (1 # 1)]%Q, [Some (3 # 1); Some (0 # 1); Some (0 # 1); Some (1 # 1)]%Q);
     (77%Z, false, Some (-1 # 1)%Q, [Some (2 # 1); Some (1 # 1)]%Q, [Some (3 # 1); Some (0 # 1); Some (0 # 1); Some (1 # 1)]%Q);
     (78%Z, false, Some (-1 # 1)%Q, [Some (1 # 1); Some (0 # 1)]%Q, [Some (1 # 1); Some (0 # 1); Some (0 # 1); Some (1 # 1)]%Q)].
Proof. split; [apply coef_finishes|]; lazy; reflexivity. Qed.
Example C78_ex : answers_sized (g_order con_g) coef_min /\ g_model con_g = Picca /\ n_iterations con_g <> 0 /\ g_outdir con_g = true /\
  finishes 2 coef_c coef_run /\ option_map (map (fun w => (r_id w, r_valid w))) (snd (coef_run 0)) = Some [(39%Z, true); (77%Z, false); (78%Z, false)].
Proof.
  split; [intros mf cont var eta s a0 m E _; injection E as <-; now split|]. split; [reflexivity|]. split; [discriminate|]. split; [reflexivity|].
  split; [exact (proj1 coef_rows)|lazy; reflexivity].
Qed.
Lemma coef_witness : ~ (forall f rows row, finishes 2 coef_c f -> snd (f 0) = Some rows -> In row rows -> r_valid row = false ->
  exists x0, r_x row = [x0; n0]).
Proof.
  intro H. destruct coef_rows as [F E]. specialize (H coef_run). destruct (snd (coef_run 0)) as [rows|]; [|discriminate].
  cbn [option_map] in E. destruct rows as [|r0 [|r1 rows]]; try discriminate E.
  specialize (H _ r1 F eq_refl (or_intror (or_introl eq_refl))). cbn [map] in E. injection E as _ _ _ _ _ E1 E2 E3 E4 E5 _.
  destruct (H E2) as (x0 & X). rewrite X in E4. discriminate E4.
Qed.
(** Rows without a valid continuum need not have the values before the first fit: nothing in the row of quasar 77 tells
    that the coefficients are those of a fit that has been superseded. *)
Theorem C78_invalid_refuted : ~ (forall f rows row, finishes 2 coef_c f -> snd (f 0) = Some rows -> In row rows -> r_valid row = false ->
  exists x0, r_x row = [x0; n0]).
Proof. exact coef_witness. Qed.
Print Assumptions C78_invalid_refuted.
