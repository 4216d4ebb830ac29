(** Specification vocabulary for coadding arms (C32). *)
From Coq Require Import ZArith String List Bool Arith Qcanon.
From Verif Require Import Num NpList Exn Dict ModelSpectrum SpecSpectrum SpecWeights.
Import ListNotations.
Local Open Scope nat_scope.

Definition all_finite (d : dict (list num)) : Prop :=
  forall arm l, dget arm d = Some l -> Forall (fun x => nfinite x = true) l.
(** one pixel of one arm *)
Record entry := mkEntry { e_wave : Qc; e_weight : Qc; e_flux : Qc; e_ivar : Qc }.
Fixpoint zip4 (x : list Qc) (w f i : list num) : list entry :=
  match x, w, f, i with
  | a :: x', b :: w', c :: f', d :: i' => mkEntry a (nval b) (nval c) (nval d) :: zip4 x' w' f' i'
  | _, _, _, _ => []
  end.
Definition dlist {A} (arm : string) (d : dict (list A)) : list A :=
  match dget arm d with Some l => l | None => [] end.
(** the pixels of all arms of the forest *)
Definition arm_entries (s : spec) (arm : string) : list entry :=
  zip4 (dlist arm (fw (s_f s))) (dlist arm (fweight (s_f s))) (dlist arm (ff (s_f s))) (dlist arm (fivar (s_f s))).
Definition all_entries (s : spec) : list entry :=
  flat_map (fun aw => arm_entries s (fst aw)) (fw (s_f s)).
(** wavelength x belongs to pixel j of the grid mn, mn + dw, mn + 2 dw, ... *)
Definition on_pixel (mn dw : Qc) (j : nat) (x : Qc) : bool :=
  qleb (mn + (zq (Z.of_nat j) - fq 1 10) * dw) x && qltb x (mn + (zq (Z.of_nat j) + fq 9 10) * dw).
(** the pixels that are averaged in coadded pixel j *)
Definition landing (s : spec) (mn dw : Qc) (j : nat) : list entry :=
  filter (fun e => on_pixel mn dw j (e_wave e)) (all_entries s).
(** weighted average; pixels with zero ivar have zero weight *)
Definition weighted_average (l : list entry) (flux ivar : Qc) : Prop :=
  let W := qsum (map e_weight l) in
  (W = 0%Qc -> flux = 0%Qc /\ ivar = 0%Qc) /\
  ((0 < W)%Qc ->
     (flux = qsum (map (fun e => e_weight e * e_flux e) l) / W)%Qc /\
     (ivar = W * W / qsum (map (fun e => if qltb 0 (e_ivar e) then e_weight e * e_weight e / e_ivar e else 0) l))%Qc).
Definition weights_ok (l : list entry) : Prop :=
  forall e, In e l -> (0 <= e_weight e)%Qc /\ (0 <= e_ivar e)%Qc /\ (e_ivar e = 0%Qc -> e_weight e = 0%Qc).
(** smallest and largest wavelength of the forest *)
Definition smallest (s : spec) (x : Qc) : Prop :=
  (exists e, In e (all_entries s) /\ e_wave e = x) /\ forall e, In e (all_entries s) -> (x <= e_wave e)%Qc.
Definition largest (s : spec) (x : Qc) : Prop :=
  (exists e, In e (all_entries s) /\ e_wave e = x) /\ forall e, In e (all_entries s) -> (e_wave e <= x)%Qc.
(** every arm has pixels, dw apart *)
Definition uniform_arms (dw : Qc) (s : spec) : Prop :=
  fw (s_f s) <> [] /\
  forall arm w, dget arm (fw (s_f s)) = Some w -> w <> [] /\ uniform dw w.
(** the resolution matrices have one column per pixel and the parities of their
    numbers of diagonals agree *)
Definition reso_fits (s : spec) : Prop :=
  exists p : bool, forall arm m, In (arm, m) (fr (s_f s)) ->
    Nat.even (length m) = p /\
    exists x, dget arm (fw (s_f s)) = Some x /\ Forall (fun row => length row = length x) m.
(** number of pixels from mn to mx in steps of dw *)
Definition grid_n (mn mx dw : Qc) : nat := Z.to_nat (qtrunc ((mx - mn) / dw + fq 1 10) + 1).
(** the full spectrum of s seen as a forest whose weights are the ivars *)
Definition full_spectrum (s : spec) : spec :=
  set_f (mkForest (s_wave s) (s_flux s) (s_reso s) [s_ivar s] 0 0 0) s.
(** the static coadd grid is not set yet, or was set from the current static grid *)
Definition coadd_grid_fresh (st : statics) : Prop :=
  st_coadd st = [] \/
  exists st0, st_coadd st0 = [] /\ st_wave st0 = st_wave st /\ st_dwave st0 = st_dwave st /\ set_coadd_wave st0 = Ok st.
Definition ivar_weights (l : list entry) : Prop := forall e, In e l -> e_weight e = e_ivar e.
