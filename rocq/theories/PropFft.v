(** C65: the Gaussian smoothing of the pixel noise.  Vocabulary: SpecFft.v. *)
From Coq Require Import Reals List ZArith Lra Lia.
From Verif Require Import Exn ModelSmooth ModelFft SpecFft ProofFft.
Import ListNotations.
Local Open Scope R_scope.

(** For each number of pixels, smoothing is a moving average of the array continued by its edge values: the weights depend only on
    the distance, are symmetric, and add up to one at each pixel. *)
Theorem C65_moving_average s n : (0 < n)%nat -> exists h, averaging h (pad_size s) n /\
  forall x, length x = n -> exists y, fft_gaussian_smooth x s = Ok y /\ smooths_with h (pad_size s) n x y.
Proof. exact (kernel_thm s n). Qed.
Print Assumptions C65_moving_average.

(** A constant array is not changed, whatever its length and the scale; *)
Theorem C65_flat s c n : (0 < n)%nat -> fft_gaussian_smooth (repeat c n) s = Ok (repeat c n).
Proof. exact (flat_thm s c n). Qed.
Print Assumptions C65_flat.

(** smoothing is linear; *)
Theorem C65_linear s a b x x' y y' : length x = length x' -> fft_gaussian_smooth x s = Ok y -> fft_gaussian_smooth x' s = Ok y' ->
  fft_gaussian_smooth (map (fun q => a * fst q + b * snd q) (combine x x')) s = Ok (map (fun q => a * fst q + b * snd q) (combine y y')).
Proof. exact (linear_thm s a b x x' y y'). Qed.
Print Assumptions C65_linear.

(** a spectrum whose unmasked pixels all have the same ivar keeps its ivar; *)
Theorem C65_flat_ivar s esigma v ivar : 0 < v -> (forall i, In i ivar -> i = v \/ i = 0) ->
  get_smooth_ivar gauss s esigma ivar = Ok (map XF ivar).
Proof. exact (flat_ivar_thm s esigma v ivar). Qed.
Print Assumptions C65_flat_ivar.

(** and the length is kept, so that C46 holds for this smoothing. *)
Theorem C65_length l s : length (gauss l s) = length l.
Proof. exact (gauss_length l s). Qed.
Print Assumptions C65_length.

(** Refuted: that the scale is the standard deviation in pixels, as documented.  One bright pixel keeps at least 1/s of its height,
    more than twice the maximum of a Gaussian of standard deviation s (the factor 2 pi of the frequencies is missing in the code, so
    that the standard deviation is s / (2 pi)). *)
Theorem C65_width_refuted s b a : 3 <= s -> (0 < b)%nat -> (0 < a)%nat ->
  exists y, fft_gaussian_smooth (impulse b a) s = Ok y /\ 1 / s <= nth b y 0 /\ forall x, gaussian_density s x < 1 / (2 * s).
Proof. exact (width_thm s b a). Qed.
Print Assumptions C65_width_refuted.

(** the default scale: 60 pixels of padding; 3 pixels, one masked *)
Example C65_ex : pad_size 20 = 60%nat /\ impulse 1 2 = [0; 1; 0; 0] /\ 3 <= 20 /\
  (forall i, In i [2; 0; 2] -> i = 2 \/ i = 0) /\ (exists y, fft_gaussian_smooth [1; 5; 2] 20 = Ok y /\ length y = 3%nat).
Proof.
  split; [|split; [easy|split; [lra|split]]].
  - unfold pad_size. assert (Int_part (3 * 20) = 60%Z) as ->; [|easy]. unfold Int_part.
    rewrite <- (tech_up (3 * 20) 61); [easy|lra|lra].
  - intros i [<-|[<-|[<-|[]]]]; auto.
  - destruct (C65_moving_average 20 3 ltac:(lia)) as (h & _ & K). destruct (K [1; 5; 2] eq_refl) as (y & E & L & _). now exists y.
Qed.
