(** C44: normalisation of the mean continuum.  C45: convergence. *)
From Coq Require Import ZArith QArith String List Bool Arith Lia Qcanon Field.
From Verif Require Import Num NpList Exn ModelSpectrum ModelStack ModelFitter SpecMeanCont ProofMeanCont ProofConverge.
Import ListNotations.
Local Open Scope nat_scope.

(** The projection never fails for a finite mean continuum; the result has unit average for every linear quadrature, unless
    the average before the normalisation is zero: then nothing of it is finite. *)
Theorem C44_unit_average : forall xs quad n, length xs = n -> linear n quad ->
  forall order v, length v = n ->
  exists m w, project_normalize xs quad order (map Fin v) = Ok (w, Fin m) /\
    (m <> 0%Qc -> exists u, w = map Fin u /\ length u = n /\ quad u = 1%Qc) /\
    (m = 0%Qc -> forall x, In x w -> nfinite x = false).
Proof. exact unit_average. Qed.
Print Assumptions C44_unit_average.

(** If the Legendre polynomials are orthogonal for the quadrature, the result is orthogonal to the polynomials of order 1
    to cont_order, and a second application changes nothing. *)
Theorem C44_orthogonal : forall xs quad n, length xs = n -> linear n quad ->
  forall order, orthogonal legendre xs quad order ->
  forall v w m, length v = n -> project_normalize xs quad order (map Fin v) = Ok (w, Fin m) -> m <> 0%Qc ->
  exists u, w = map Fin u /\ forall i, 1 <= i <= order ->
    quad (map2 (fun a x => a * legendre i ((1 + 1) * x - 1))%Qc u xs) = 0%Qc.
Proof. exact orthogonal_to. Qed.
Print Assumptions C44_orthogonal.
Theorem C44_idempotent_partial : forall xs quad n, length xs = n -> linear n quad ->
  forall order, orthogonal legendre xs quad order ->
  forall v w m, length v = n -> project_normalize xs quad order (map Fin v) = Ok (w, Fin m) -> m <> 0%Qc ->
  project_normalize xs quad order w = Ok (w, Fin 1).
Proof. exact idempotent. Qed.
Print Assumptions C44_idempotent_partial.
(** For cont_order = 0 (true and input continua) this needs no orthogonality. *)
Theorem C44_idempotent_order0 : forall xs quad n, length xs = n -> linear n quad ->
  forall v w m, length v = n -> project_normalize xs quad 0 (map Fin v) = Ok (w, Fin m) -> m <> 0%Qc ->
  project_normalize xs quad 0 w = Ok (w, Fin 1).
Proof. exact (fun xs quad n Hx Hl => idempotent xs quad n Hx Hl 0 (orthogonal_0 xs quad)). Qed.
Print Assumptions C44_idempotent_order0.
(** The polynomials are those of Legendre: P0 = 1, P1 = t, (m+1) P(m+1) = (2m+1) t P(m) - m P(m-1). *)
Theorem C44_legendre : forall t, legendre 0 t = 1%Qc /\ legendre 1 t = t /\
  forall m, (zq (Z.of_nat m + 1) * legendre (S m) t
   = zq (2 * Z.of_nat m + 1) * t * legendre m t - zq (Z.of_nat m) * match m with O => 0 | S k => legendre k t end)%Qc.
Proof. exact (fun t => conj (legendre_0 t) (conj (legendre_1 t) (fun m => legendre_S m t))). Qed.
Print Assumptions C44_legendre.

(** Simpson's rule at 0, 1/2, 1 meets the hypotheses for cont_order = 1. *)
Definition simpson (y : list Qc) : Qc := (fq 1 6 * nth 0 y 0 + fq 4 6 * nth 1 y 0 + fq 1 6 * nth 2 y 0)%Qc.
Definition three : list Qc := [0; fq 1 2; 1]%Qc.
Lemma three_linear a b c : linear 3 (fun y => a * nth 0 y 0 + b * nth 1 y 0 + c * nth 2 y 0)%Qc.
Proof.
  intros p q [|u0 [|u1 [|u2 [|]]]] [|v0 [|v1 [|v2 [|]]]] Hu Hv; try discriminate. cbn. ring.
Qed.
Example C44_ex :
  length three = 3 /\ linear 3 simpson /\ orthogonal legendre three simpson 1 /\
  match project_normalize three simpson 1 (map Fin [1; 1; zq 2]%Qc) with
  | Ok (w, m) => map (fun x => this (nval x)) w = [9 # 7; 6 # 7; 9 # 7]%Q /\ this (nval m) = (7 # 6)%Q
  | Err _ => False
  end.
Proof.
  split; [reflexivity|]. split; [exact (three_linear (fq 1 6) (fq 4 6) (fq 1 6))|]. split; [|vm_compute; split; reflexivity].
  intros i j Hi Hj. replace i with 1 by lia. replace j with 1 by lia. apply Qc_is_canon. vm_compute. reflexivity.
Qed.

(** Not idempotent for the quadrature of the code, the integral of the natural cubic spline, which is not exact for
    polynomials: three bins at 0, 1/2, 1 and cont_order = 1. *)
Theorem C44_idempotent_refuted :
  (forall a b c, exists p q, natural_spline a b c p q /\
     spline_quad [a; b; c] = (integral p 0 (fq 1 2) + integral q (fq 1 2) 1)%Qc) /\
  linear 3 spline_quad /\
  exists v w m, length v = 3 /\ project_normalize three spline_quad 1 (map Fin v) = Ok (w, Fin m) /\ m <> 0%Qc /\
    forall m', project_normalize three spline_quad 1 w <> Ok (w, m').
Proof.
  split; [|split; [exact (three_linear (fq 3 16) (fq 10 16) (fq 3 16))|]].
  - intros a b c. set (D := (a - zq 2 * b + c)%Qc). set (b1 := (zq 2 * (b - a) - fq 1 2 * D)%Qc). set (b2 := (zq 2 * (b - c) - fq 1 2 * D)%Qc).
    exists (mkCubic a b1 0 (zq 2 * D)), (mkCubic (c + b2 + zq 2 * D) (- b2 - zq 6 * D) (zq 6 * D) (- (zq 2 * D)))%Qc.
    unfold natural_spline, at_, d1, d2, integral, anti, spline_quad. cbn [c0 c1 c2 c3 nth]. unfold b1, b2, D. clear.
    assert (zq 2 = 1 + 1)%Qc as -> by (apply Qc_is_canon; reflexivity).
    assert (zq 3 = 1 + 1 + 1)%Qc as -> by (apply Qc_is_canon; reflexivity).
    assert (zq 4 = 1 + 1 + 1 + 1)%Qc as -> by (apply Qc_is_canon; reflexivity).
    assert (zq 6 = (1 + 1) * (1 + 1 + 1))%Qc as -> by (apply Qc_is_canon; reflexivity).
    assert (fq 1 2 = 1 / (1 + 1))%Qc as -> by (apply Qc_is_canon; reflexivity).
    assert (fq 3 16 = (1 + 1 + 1) / ((1 + 1) * (1 + 1) * ((1 + 1) * (1 + 1))))%Qc as -> by (apply Qc_is_canon; reflexivity).
    assert (fq 10 16 = ((1 + 1) * (1 + 1 + 1 + 1 + 1)) / ((1 + 1) * (1 + 1) * ((1 + 1) * (1 + 1))))%Qc as -> by (apply Qc_is_canon; reflexivity).
    repeat split; field; repeat split; discriminate.
  - exists [1; 1; zq 2]%Qc. eexists. eexists. split; [reflexivity|]. split; [vm_compute; reflexivity|]. split; [discriminate|].
    intros m' H. vm_compute in H. discriminate.
Qed.
Print Assumptions C44_idempotent_refuted.

(** Up to 108 bins, convergence means that every point changed by less than 0.33 of its error (relative change; the error
    with a positive sign). *)
Theorem C45_points_partial : forall g uspline xs quad k c c', length (g_rfwave g) <= 108 ->
  new_meancont g uspline xs quad k c = Ok (c', true) ->
  forall i old new e, nth_error (i_fp c) i = Some old -> nth_error (i_fp c') i = Some new -> nth_error (i_ep c') i = Some e ->
  nltb (nabs (nsub (ndiv new old) n1)) (nmul (nlit 33 100) (nabs e)) = true.
Proof. exact converged_small. Qed.
Print Assumptions C45_points_partial.

(** For any number of bins: convergence if and only if every point changed by less than 0.33 of its error, or the mean
    square change in units of the error is below 0.001. *)
Theorem C45_criterion : forall g uspline xs quad k c c' b, new_meancont g uspline xs quad k c = Ok (c', b) ->
  let norm := map2 (fun new old => nsub (ndiv new old) n1) (i_fp c') (i_fp c) in
  b = true <->
    ((forall n s, In (n, s) (combine norm (i_ep c')) -> nltb (nabs n) (nmul (nlit 33 100) s) = true) \/
     nltb (ndiv (nsum (map2 (fun n s => nsq (ndiv n s)) norm (i_ep c'))) (Fin (zq (Z.of_nat (length (g_rfwave g)))))) (nlit 1 1000) = true).
Proof. exact converged_iff. Qed.
Print Assumptions C45_criterion.

(** With 109 bins or more (the default is 162) an iteration may be reported as converged although a point changed by 0.33 of
    its error: for every linear quadrature of unit weight that sees the first point. *)
Theorem C45_refuted : forall m (quad : list Qc -> Qc), linear (S (S m)) quad ->
  quad (repeat 1%Qc (S (S m))) = 1%Qc -> quad (1%Qc :: repeat 0%Qc (S m)) <> 0%Qc -> 109 <= S (S m) ->
  forall rf xs, length rf = S (S m) ->
  exists g uspline k c c', g_rfwave g = rf /\ i_fp c = repeat n1 (S (S m)) /\
    new_meancont g uspline xs quad k c = Ok (c', true) /\
    nth_error (i_fp c') (S m) = Some (Fin (1 + fq 33 100)) /\ nth_error (i_ep c') (S m) = Some n1.
Proof.
  exact (fun m quad Hl H1 H0 HN rf xs L =>
    match wit_converges m quad Hl H1 H0 HN rf xs L with
    | ex_intro _ c' H => ex_intro _ (wit_conf rf) (ex_intro _ (fun _ v _ => Some v) (ex_intro _ (wit_stack m quad)
        (ex_intro _ (wit_cont m) (ex_intro _ c' (conj eq_refl (conj eq_refl H)))))) end).
Qed.
Print Assumptions C45_refuted.

(** Two bins and a small update: converged. *)
Example C45_ex :
  match new_meancont (wit_conf [zq 1000; zq 1100]%Qc) (fun _ v _ => Some v) [0; 1]%Qc
          (fun y => fq 1 2 * (nth 0 y 0 + nth 1 y 0))%Qc
          (mkStack 0 1 1 0 1 2 [n1] [n1] [Fin (fq 9 10); Fin (fq 11 10)] [n1; Fin (fq 1 2)]) (mkInt false 0 1 [n1; n1] [n0; n0]) with
  | Ok (c', b) => map (fun x => this (nval x)) (i_fp c') = [9 # 10; 11 # 10]%Q /\ b = true
  | Err _ => False
  end.
Proof. vm_compute. split; reflexivity. Qed.
