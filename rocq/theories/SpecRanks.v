(** Specification vocabulary for runs with different numbers of ranks (C69). *)
From Coq Require Import ZArith List Permutation.
From Verif Require Import ModelSpectrum ModelFitter ModelPipeline.
Import ListNotations.

(** what all of the n ranks hold together *)
Definition gathered {A} (n : nat) (l : nat -> list A) : list A := concat (map l (seq 0 n)).

(** the options g in a run of n ranks (g_size is comm.Get_size()) *)
Definition on_ranks (n : nat) (g : config) : config :=
  mkConf (g_model g) (g_order g) (g_niter g) (g_fit_eta g) (g_norm g) (g_etacal g) (g_outdir g)
    (g_w1 g) (g_w2 g) (g_nw g) (g_nv g) (g_edges g) (g_usecov g) n (g_rfwave g) (g_dwrf g).

(** Results f of the n ranks of one run and e of the m ranks of another one (the
    fitter, the spectra of the rank, the reports of convergence): the same spectra
    up to their order, the same reports, the same mean continuum and stacked fluxes. *)
Definition same_results {A} (n m : nat) (f e : nat -> fitter * list A * list bool) : Prop :=
  Permutation (gathered n (fun r => snd (fst (f r)))) (gathered m (fun r => snd (fst (e r)))) /\
  forall r r', r < n -> r' < m -> snd (f r) = snd (e r') /\
    t_cont (fst (fst (f r))) = t_cont (fst (fst (e r'))) /\ t_stack (fst (fst (f r))) = t_stack (fst (fst (e r'))).

(** The files have the same contents on all ranks: reading spectra and the sky
    mask, which each rank reads by itself, does not depend on the rank. *)
Definition same_files (w : world) : Prop :=
  (forall again r e cat, w_reader w again r e cat = w_reader w again 0 e cat) /\ (forall r, w_sky w r = w_sky w 0).

(** the spectra in the delta file number k of a run *)
Definition in_file (k : Z) (files : list (Z * list spec)) : list spec :=
  concat (map snd (filter (fun f => Z.eqb (fst f) k) files)).
