(** C66: which spectra take part in a run, and the RSNR they are selected by. *)
From Coq Require Import QArith_base ZArith String List Bool Arith Lia Qcanon.
From Verif Require Import Num NpList Exn Dict ModelSpectrum ModelMasks ModelCatalog ModelPipeline SpecSpectrum SpecSnr SpecSelect
  Examples1 PropSpectrum PropPipeline ProofSelect.
Import ListNotations.
Local Open Scope nat_scope.

(** The spectra a rank keeps are exactly the spectra it read, in their order, that have an
    unmasked pixel in the forest and an RSNR of at least the minimum; they are cut to
    their forest and have the identity and the RSNR with which they were read. *)
Theorem C66_selection nsqrt smooth junk dwave w a again e c rank queue l :
  (forall b cat m s, w_reader w again rank b cat = Some m -> In s m -> fresh s) ->
  read_queue nsqrt smooth junk dwave w again a e c rank queue = Ok l ->
  exists all, read_from w again rank (is_before e) queue all /\ Forall2 same_object (filter (selected a) all) l /\
    (is_before c = false -> Forall2 (fun s s' => exists s1, set_forest_region nsqrt (r_w1 a) (r_w2 a) (r_fw1 a) (r_fw2 a) s = Ok s1 /\
       s' = remove_nonforest_pixels s1) (filter (selected a) all) l).
Proof. exact (selection_thm nsqrt smooth junk dwave w a again e c rank queue l). Qed.
Print Assumptions C66_selection.

(** No sequence of operations on a spectrum changes its identity or its RSNR. *)
Theorem C66_history nsqrt smooth dla_flux dwave ops s s' : run_ops nsqrt smooth dla_flux dwave ops s = Ok s' -> same_object s s'.
Proof. exact (history_thm nsqrt smooth dla_flux dwave ops s s'). Qed.
Print Assumptions C66_history.

(** Example: two catalogs with two spectra each and the cut at RSNR 1: too low; equal; high but
    masked everywhere; higher. *)
Definition sel_spec (tid : Z) (iv rsnr : num) : spec :=
  let wv := map zq [3599; 3600; 3601; 3602]%Z in
  mkSpec (mkCatrow tid 7 (zq 2) None [] [] [] []) [("b"%string, wv)] [("b"%string, map (fun _ => n1) wv)] [("b"%string, map (fun _ => iv) wv)]
    [] rsnr None empty_forest 0 false [n0] n0 [].
Definition sel_reader (cat : list row) : option (list spec) :=
  match cat with
  | [] => Some [sel_spec 1 n1 (Fin (fq 1 2)); sel_spec 2 n1 n1]
  | _ => Some [sel_spec 3 n0 (Fin (zq 5)); sel_spec 4 n1 (Fin (zq 5))] end.
Definition sel_world : world :=
  mkWorld ParseExit true None true (fun _ => None) (fun _ => None) (fun _ _ _ => sel_reader) (fun _ _ => None) (fun _ _ => None)
    None None None (fun _ => true) true (fun _ => true).
Definition sel_args : runargs :=
  mkRun true true false None true true (zq 3600) (zq 3640) (zq 1200) (zq 1202) 0 n1 n0 0 Disable Disable
    false false false false false false false false.
Definition sel_queue : list (list row) := [[]; [run_row 5 8]].
Lemma sel_fresh b cat m s : w_reader sel_world false 0 b cat = Some m -> In s m -> fresh s.
Proof.
  assert (F : forall t iv r, fresh (sel_spec t iv r)).
  { intros. split; [reflexivity|]. split; [repeat constructor; intros []|]. split.
    - intro arm. unfold len_at. cbn. destruct (String.eqb arm "b"); easy.
    - intros arm w. cbn. destruct (String.eqb arm "b"); [|discriminate]. intro H. injection H as <-. repeat constructor. }
  cbn. destruct cat; cbn; intros H Hs; injection H as <-; destruct Hs as [<-|[<-|[]]]; apply F.
Qed.
Example C66_ex :
  (forall b cat m s, w_reader sel_world false 0 b cat = Some m -> In s m -> fresh s) /\
  (exists l, read_queue ids (fun x _ => x) (fun _ => n0) 1%Qc sel_world false sel_args Disable Disable 0 sel_queue = Ok l /\
     map (fun s => (c_targetid (s_cat s), this (nval (s_rsnr s)))) l = [(2%Z, 1%Q); (4%Z, 5%Q)]) /\
  (exists l, read_queue ids (fun x _ => x) (fun _ => n0) 1%Qc sel_world false sel_args Disable Before 0 sel_queue = Ok l /\
     map (fun s => (c_targetid (s_cat s), this (nval (s_rsnr s)))) l = [(2%Z, 1%Q); (4%Z, 5%Q)]) /\
  (exists s, run_ops ids (fun x _ => x) (fun _ _ _ => n1) 1%Qc [ORegion (zq 3600) (zq 3640) (zq 1200) (zq 1202); ORemoveNonforest;
       ONoiseEta (fun _ => Fin (zq 2)); OWeight (fun _ => n0) (fun _ => n1); ODropArm "r"] (sel_spec 4 n1 (Fin (zq 5))) = Ok s).
Proof.
  split; [exact sel_fresh|]. split; [|split].
  - eexists. split; [vm_compute; reflexivity|]. vm_compute. reflexivity.
  - eexists. split; [vm_compute; reflexivity|]. vm_compute. reflexivity.
  - eexists. vm_compute. reflexivity.
Qed.
