(** C41: the optimizer's flat vector and the free variables.  Statements only; proofs
    are in StackThms.v and StackDemo.v.  [final l] is the state after the calls [l],
    [gexec L l ∅] the attributes then; [i] is the value of _giter. *)
From stdpp Require Import gmap strings list relations.
From Verif Require Import EngineModel EngineSpec EngineHist EngineDemo StackModel StackSpec StackThms StackDemo.

Notation final L l := (exec L l (init L)).

(** Full C41 asks this of every list of free variables.  Here each is a basic object
    or a nest of Selects over one, shows distinct elements, and has its own base; the
    two counterexamples below show that both restrictions are needed.
    In any state reached by ordinary calls and earlier on_changed calls: the vector is
    spread over the bases, nothing else changes, and each variable reads as its
    segment. *)
Theorem C41_sync_partial : ∀ (L : lib) (A : arrays L), arrays_ok L A →
  ∀ used st n i s X its vec which, lib_ok L → reached L A used st →
  sync_ready L A used (cores L (st_h L st)) n i X its vec which →
  ∃ st', stacked_changed L A n i s X (i_var <$> its) which st = (st', Some (total its)) ∧
    spread L A (cores L (st_h L st)) (cores L (st_h L st')) vec its ∧
    segments L A (λ o v, reads L st' o QR v) vec 0 its.
Proof. exact stacked_sync. Qed.
Print Assumptions C41_sync_partial.
Example C41_sync_case : lib_ok demo ∧ arrays_ok demo demo_arrays ∧
  reached demo demo_arrays (tags_of demo nested ∅) (final demo nested) ∧
  sync_ready demo demo_arrays (tags_of demo nested ∅) (cores demo (st_h demo (final demo nested))) 9 1 6
    nested_items [10; 20; 30]%Z {["x"%string]} ∧
  let st' := (stacked_changed demo demo_arrays 9 1 7 6 (i_var <$> nested_items) {["x"%string]} (final demo nested)).1 in
  (read demo 9 1 QR st').2 = Some [1; 20; 3; 10]%Z ∧ (read demo 9 3 QR st').2 = Some [10; 20]%Z ∧
  (read demo 9 4 QR st').2 = Some [30]%Z ∧ (read demo 9 5 QR st').2 = Some [100; 400]%Z.
Proof.
  split; [exact demo_lib_ok|]. split; [exact demo_arrays_ok|].
  split; [apply exec_reached; [exact demo_arrays_ok|exact demo_lib_ok|exact (proj1 nested_ok)]|].
  split; [exact nested_ready|]. exact nested_run.
Qed.

(** Whatever calls of either kind have been made, all values and derivatives read are
    those recomputed from the attributes: dependents see the new values. *)
Theorem C41_dependents_partial : ∀ (L : lib) (A : arrays L), arrays_ok L A →
  ∀ used st, lib_ok L → reached L A used st →
  (∀ o w v, reads L st o w v ↔ denotes L (cores L (st_h L st)) o w v) ∧
  (∀ o w j, not_view L (cores L (st_h L st)) w →
     reads_dr L st o w j ↔ dr_denotes L (cores L (st_h L st)) o w j).
Proof. exact reached_reads. Qed.
Print Assumptions C41_dependents_partial.
(** Every state after a valid history is reached, and a state after on_changed is. *)
Example C41_dependents_case : reached demo demo_arrays ({[1%Z]} ∪ tags_of demo nested ∅)
  (stacked_changed demo demo_arrays 9 1 7 6 (i_var <$> nested_items) {["x"%string]} (final demo nested)).1.
Proof.
  apply (reached_sync demo demo_arrays _ (final demo nested) 9 1 7 6 nested_items [10; 20; 30]%Z {["x"%string]} _ 3).
  - apply exec_reached; [exact demo_arrays_ok|exact demo_lib_ok|exact (proj1 nested_ok)].
  - exact nested_ready.
  - exact nested_done.
Qed.

(** setup_objective: duplicates are rejected; otherwise the initial vector is the
    values of the free variables, one after the other. *)
Theorem C41_start : ∀ (L : lib) (A : arrays L) l n fs, lib_ok L → valid L l →
  (¬ NoDup fs → (start_vector L A n fs (final L l)).2 = None) ∧
  (∀ vec, (start_vector L A n fs (final L l)).2 = Some vec → NoDup fs ∧
     ∃ vs, Forall2 (λ f v, denotes L (gexec L l ∅) f QR v) fs vs ∧ vec = concat (ravel L A <$> vs)).
Proof. exact start_ok. Qed.
Print Assumptions C41_start.
Example C41_start_case :
  (start_vector demo demo_arrays 9 [3; 4] (final demo nested)).2 = Some [4; 2; 7]%Z ∧
  (start_vector demo demo_arrays 9 [3; 4; 3] (final demo nested)).2 = None.
Proof. vm_compute. done. Qed.

(** Two Selects that show different elements of one base: the second reads as before. *)
Theorem C41_shared_refuted : ∃ (L : lib) (A : arrays L) l n i s X it1 it2 vec st' p v,
  lib_ok L ∧ arrays_ok L A ∧ valid L l ∧ i ∉ tags_of L l ∅ ∧ i ≠ 9999%Z ∧
  let its := [it1; it2] in
  Forall (λ it, shows L A (gexec L l ∅) (i_depth it) (i_var it) (i_base it) (i_ix it)) its ∧
  NoDup (i_var <$> its) ∧ NoDup (i_ix it1 ++ i_ix it2) ∧ X ∉ i_base <$> its ∧
  holds L A (gexec L l ∅) X vec ∧ total its = length vec ∧ Forall (λ it, i_depth it < n) its ∧
  stacked_changed L A n i s X (i_var <$> its) {["x"%string]} (final L l) = (st', Some p) ∧
  reads L st' (i_var it2) QR v ∧
  ravel L A v ≠ take (length (i_ix it2)) (drop (length (i_ix it1)) vec).
Proof. exact halves_stale. Qed.
Print Assumptions C41_shared_refuted.

(** One Select that shows an element twice cannot read as a vector with two
    different entries there. *)
Theorem C41_repeated_refuted : ∃ (L : lib) (A : arrays L) l n i s X it vec st' p v,
  lib_ok L ∧ arrays_ok L A ∧ valid L l ∧ i ∉ tags_of L l ∅ ∧ i ≠ 9999%Z ∧
  shows L A (gexec L l ∅) (i_depth it) (i_var it) (i_base it) (i_ix it) ∧ X ≠ i_base it ∧
  holds L A (gexec L l ∅) X vec ∧ length (i_ix it) = length vec ∧ i_depth it < n ∧
  stacked_changed L A n i s X [i_var it] {["x"%string]} (final L l) = (st', Some p) ∧
  reads L st' (i_var it) QR v ∧ ravel L A v ≠ vec.
Proof. exact repeated_lost. Qed.
Print Assumptions C41_repeated_refuted.
