(** Specification vocabulary for the mean resolution (C64). *)
From Coq Require Import Reals List ZArith.
Import ListNotations.
Local Open Scope R_scope.

(** weighted mean of the values f over pixels with the weights of l *)
Definition wsum {A} (w f : A -> R) (l : list A) : R := fold_right (fun a s => w a * f a + s) 0 l.

(** A pixel of the arm: wavelength, weight, and the Gaussian that the spectrograph makes of a
    line at this pixel (height and sigma in pixels). *)
Record pixel := mkPixel { p_wave : R; p_weight : R; p_height : R; p_sigma : R }.
(** the response o pixels away from the centre *)
Definition response (p : pixel) (o : Z) : R := p_height p * exp (- (IZR o) ^ 2 / (2 * (p_sigma p) ^ 2)).
(** the resolution matrix with n diagonals, the main one being number c *)
Definition gaussian_matrix (n c : nat) (l : list pixel) : list (list (option R)) :=
  map (fun d => map (fun p => Some (response p (Z.of_nat d - Z.of_nat c))) l) (seq 0 n).
Definition physical (l : list pixel) : Prop :=
  (forall p, In p l -> 0 < p_wave p /\ 0 <= p_weight p /\ 0 < p_height p /\ 0 < p_sigma p) /\
  exists p, In p l /\ 0 < p_weight p.
(** wavelength, weighted mean over the pixels *)
Definition mean_wave (l : list pixel) : R := wsum p_weight p_wave l / wsum p_weight (fun _ => 1) l.

(** two rows that differ at most where the weight is zero *)
Definition agree (weight row row' : list R) : Prop :=
  length row = length row' /\ forall k w, nth_error weight k = Some w -> w <> 0 -> nth_error row k = nth_error row' k.
(** a matrix without nan *)
Definition finite_matrix (m : list (list R)) : list (list (option R)) := map (map Some) m.
