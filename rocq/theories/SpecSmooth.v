(** Specification vocabulary for C46 and C53. *)
From Coq Require Import Reals List Bool Arith Sorted Permutation.
From Verif Require Import ModelSmooth.
Import ListNotations.
Local Open Scope R_scope.

(** m is the median of the non-empty list l *)
Definition is_median (l : list R) (m : R) : Prop :=
  exists s, Permutation l s /\ StronglySorted Rle s /\
    ((exists k, length s = (2 * k + 1)%nat /\ nth_error s k = Some m) \/
     (exists k a b, length s = (2 * k + 2)%nat /\ nth_error s k = Some a /\ nth_error s (S k) = Some b /\ m = (a + b) / 2)).
(** the errors of the good pixels, their median and median absolute deviation *)
Definition errors_of (ivar errs : list R) : Prop :=
  errs = map (fun i => / sqrt i) (filter (fun i => if Rlt_dec 0 i then true else false) ivar).
Definition noise_scale (ivar : list R) (med mad : R) : Prop :=
  exists errs, errors_of ivar errs /\ is_median errs med /\ is_median (map (fun e => Rabs (e - med)) errs) mad.
(** an error outlier of get_smooth_ivar *)
Definition error_outlier (esigma med mad i : R) : Prop := 0 < i /\ / sqrt i - med > esigma * (14826 / 10000 * mad).
(** a (flux, ivar) pixel that is not masked *)
Definition isgood (p : R * R) : bool := negb (reqb (snd p) 0).
