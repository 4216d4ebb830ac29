(** C61: the chi2 catalog. *)
From Coq Require Import QArith_base ZArith String List Bool Arith Lia Qcanon.
From Verif Require Import Num NpList Exn Dict Mpi ModelSpectrum ModelContinuum ModelVarFit ModelStack ModelFitter ModelChi2 SpecMpi SpecFinal SpecChi2 ProofChi2
  PropMasks.
Import ListNotations.
Local Open Scope nat_scope.

(** Every spectrum of every rank has exactly one row, with its own values; all ranks finish. *)
Theorem C61_catalog : forall np n l, 1 <= n -> (forall r e, r < n -> In e (l r) -> fits_row np e) ->
  exists f, finishes n (fun r => save_contchi2_catalog true true np r (l r)) f /\ the_table n np l f.
Proof. exact catalog_thm. Qed.
Print Assumptions C61_catalog.

(** For any spectra, and if the file cannot be written: no rank waits forever, and a table that is written is this one. *)
Theorem C61_ends : forall writes np n l, 1 <= n -> (forall r e, r < n -> In e (l r) -> exists k, square k (e_xcov e)) ->
  together n (fun r => save_contchi2_catalog true writes np r (l r)) (the_table n np l).
Proof. exact ends_thm. Qed.
Print Assumptions C61_ends.

(** Spectra that leave the fit have a row, if the minimizer returns as many parameters as asked for and the spectrum has at
    most three arms.  The row is that of the quasar that went in, and chi2 is -1 if the continuum is invalid. *)
Theorem C61_fitted : forall g ev meanflux slope minimizer input_cont true_cont,
  (forall c v e s a0 r, g_model g = Picca -> minimizer c v e s a0 = Some r -> m_valid r = true ->
     length (m_x r) = S (eff_order g) /\ square (S (eff_order g)) (m_xcov r)) ->
  forall sx k b, fitted (init_one g input_cont) (fit_one g ev meanflux slope minimizer input_cont true_cont) sx k b ->
  same_quasar (fst sx) (fst b) /\
  (1 <= k -> s_valid (fst b) = false -> s_chi2 (fst b) = Fin (- (1))) /\
  (forall m dof, s_msnr (fst sx) = Some m -> length m <= 3 -> fits_row (S (eff_order g)) (mkEntry (fst b) (snd b) dof)).
Proof. exact fitted_thm. Qed.
Print Assumptions C61_fitted.

(** ** the hypotheses are met: two ranks, three spectra *)
Definition ex_entry (v : bool) (chi2 : Z) : entry :=
  mkEntry (set_chi2 (Fin (zq chi2)) (set_valid v (set_x [n1; n0] (set_msnr [("b"%string, Fin (zq 3)); ("r"%string, Fin (zq 4))] (ex_forest (zq 2) 0 0)))))
    [[n1; n0]; [n0; n1]] 5.
Definition ex_lists (r : nat) : list entry := if Nat.eqb r 0 then [ex_entry true 7; ex_entry false (-1)] else [ex_entry true 8].
Example C61_ex : (forall r e, r < 2 -> In e (ex_lists r) -> fits_row 2 e) /\
  match spmd 2 (fun r => save_contchi2_catalog true true 2 r (ex_lists r)) with
  | Done [Finished (Some rows); Finished None] =>
      map (fun w => (r_rank w, r_valid w, r_chi2 w)) rows =
        [(0, true, Fin (zq 7)); (0, false, Fin (zq (-1))); (1, true, Fin (zq 8))] /\
      map r_arms rows = ["b,r"; "b,r"; "b,r"]%string /\ map (fun w => length (r_snr w)) rows = [3; 3; 3] /\
      map r_xcov rows = repeat [n1; n0; n0; n1] 3
  | _ => False
  end.
Proof.
  split.
  - intros r e _ H. assert (exists v c, e = ex_entry v c) as (v & c & ->).
    { unfold ex_lists in H. destruct (Nat.eqb r 0); cbn in H; decompose [or] H; subst; eauto; contradiction. }
    split; [eexists; split; [reflexivity|cbn; lia]|]. split; left; [reflexivity|]. split; [reflexivity|]. repeat constructor.
  - lazy -[zq]. repeat split; reflexivity.
Qed.
(** a spectrum that is fitted twice, the second time without success *)
Definition ex_min (_ _ _ : interp) (s : spec) (_ : num) : option minres :=
  Some (if s_valid s then mkMin false [n1; n0] [] else mkMin true [Fin (zq 2); n0] [[n1; n0]; [n0; n1]]).
Definition ex_conf : config := mkConf Picca 1 2 false false false true 0 0 0 0 [] false 1 [] 1.
Definition ex_fitter : fitter := mkFitter null_interp [] 0 0 0 0 None (mkStack 0 1 0 0 1 0 [] [] [] []).
Definition ex_sx : specx := (set_valid false (set_x [n1] (e_spec (ex_entry false 0))), []).
Definition ex_b (k : nat) : res specx :=
  Nat.iter k (fun r => rbind r (fit_one ex_conf (fun _ _ => n1) (fun _ => n1) (fun _ => n0) ex_min (fun _ => None) (fun _ _ => n1) ex_fitter))
    (init_one ex_conf (fun _ => None) ex_sx).
Definition brief (r : res specx) : option (bool * list num * nat) :=
  match r with Ok (s, c) => Some (s_valid s, s_x s, length c) | Err _ => None end.
Example C61_fitted_ex :
  (brief (ex_b 1) = Some (true, [Fin (zq 2); n0], 2) /\ brief (ex_b 2) = Some (false, [Fin (zq 2); n0], 2)) /\
  (forall k b, ex_b k = Ok b -> fitted (init_one ex_conf (fun _ => None))
     (fit_one ex_conf (fun _ _ => n1) (fun _ => n1) (fun _ => n0) ex_min (fun _ => None) (fun _ _ => n1)) ex_sx k b) /\
  (forall c v e s a0 r, ex_min c v e s a0 = Some r -> m_valid r = true -> length (m_x r) = 2 /\ square 2 (m_xcov r)).
Proof.
  split; [split; vm_compute; reflexivity|]. split.
  - induction k as [|k IH]; intros b E; [now constructor|]. change (ex_b (S k)) with (rbind (ex_b k) (fit_one ex_conf (fun _ _ => n1) (fun _ => n1) (fun _ => n0) ex_min (fun _ => None) (fun _ _ => n1) ex_fitter)) in E.
    destruct (ex_b k) as [a|e] eqn:Ea; [cbn [rbind] in E|discriminate E]. apply (fitted_fit _ _ _ k ex_fitter a b); [now apply IH|exact E].
  - intros c v e s a0 r H. unfold ex_min in H. injection H as <-. destruct (s_valid s); [discriminate|]. intros _. split; [reflexivity|]. split; [reflexivity|].
    repeat constructor.
Qed.
