(** C54: clear_cache_wrt. The full property, that every result stays what it is, is refuted
    for derivatives with respect to the variable forgotten; the other results are proved. *)
From stdpp Require Import gmap strings list relations.
From Verif Require Import EngineModel EngineSpec EngineDemo ForgetModel ForgetSpec ForgetThms ForgetDemo.

(** Full statement (false): for all histories [l] with calls of clear_cache_wrt, all objects
    and variables, values and derivatives agree with recomputation from the attributes the
    calls other than clear_cache_wrt leave. *)

(** Values agree. *)
Theorem C54_values_partial : ∀ (L : lib) l o q v, lib_ok L → valid L (plain_ops L l) →
  reads L (xexec L l (init L)) o q v ↔ denotes L (gexec L (plain_ops L l) ∅) o q v.
Proof. exact forget_reads. Qed.
Print Assumptions C54_values_partial.

(** Derivatives with respect to other variables agree. *)
Theorem C54_others_partial : ∀ (L : lib) l o w j, lib_ok L → valid L (plain_ops L l) →
  w ∉ forgotten L l → not_view L (gexec L (plain_ops L l) ∅) w →
  reads_dr L (xexec L l (init L)) o w j ↔ dr_denotes L (gexec L (plain_ops L l) ∅) o w j.
Proof. exact forget_reads_dr. Qed.
Print Assumptions C54_others_partial.

Example C54_case : valid demo (plain_ops demo forget_chain) ∧ 1 ∉ forgotten demo forget_chain ∧
  not_view demo (gexec demo (plain_ops demo forget_chain) ∅) 1 ∧
  reads demo (xfinal forget_chain) 3 QR [12]%Z ∧ reads_dr demo (xfinal forget_chain) 3 1 (Some [[7]])%Z.
Proof.
  split_and!.
  - apply valid_b_ok. vm_compute. reflexivity.
  - set_solver.
  - apply not_view_b_ok. vm_compute. reflexivity.
  - exists 9. vm_compute. reflexivity.
  - exists 9. vm_compute. reflexivity.
Qed.

(** The call returns, with or without an iteration number, if there are no cycles. *)
Theorem C54_returns : ∀ (L : lib) l o w i, lib_ok L → valid L (plain_ops L l) →
  acyclic L (gexec L (plain_ops L l) ∅) → o ∈ dom (gexec L (plain_ops L l) ∅) →
  ∃ N : nat, ∀ m, N ≤ m → (clear_wrt L m i w o (st_h L (xexec L l (init L)))).2 = true.
Proof. exact forget_ends. Qed.
Print Assumptions C54_returns.

Example C54_returns_case : acyclic demo (gexec demo (plain_ops demo forget_chain) ∅) ∧
  1 ∈ dom (gexec demo (plain_ops demo forget_chain) ∅) ∧
  (clear_wrt demo 2 None 1 1 (st_h demo (xfinal forget_chain))).2 = true ∧
  (clear_wrt demo 1 None 1 1 (st_h demo (xfinal forget_chain))).2 = false.
Proof.
  split_and!.
  - apply acyclic_b_ok. vm_compute. reflexivity.
  - apply (bool_decide_eq_true_1 _). vm_compute. reflexivity.
  - vm_compute. reflexivity.
  - vm_compute. reflexivity.
Qed.

(** The derivative forgotten is wrong from then on: a cached entry becomes None, and None is
    returned. *)
Theorem C54_none : ∀ (L : lib) (k m : nat) i o w st nd j, st_h L st !! o = Some nd → n_dr L nd !! w = Some j →
  (read_dr L (S m) o w (on_heap L (λ h, (clear_wrt L (S k) i w o h).1) st)).2 = Some None.
Proof. exact forget_none. Qed.
Print Assumptions C54_none.

Example C54_none_case :
  match st_h demo (exec demo (square ++ [OReadDr demo 9 2 1]) (init demo)) !! 2 with
  | Some nd => n_dr demo nd !! 1
  | None => None
  end = Some (Some [[6]])%Z.
Proof. vm_compute. reflexivity. Qed.

Theorem C54_refuted : ∃ (L : lib) l o w j, lib_ok L ∧ valid L (plain_ops L l) ∧
  not_view L (gexec L (plain_ops L l) ∅) w ∧
  reads_dr L (xexec L l (init L)) o w None ∧
  dr_denotes L (gexec L (plain_ops L l) ∅) o w (Some j).
Proof. exact forgotten_wrong. Qed.
Print Assumptions C54_refuted.

(** With an iteration number the object counts as cleared under that number, and assignments
    made under it later leave stale values. *)
Theorem C54_tagged_refuted : ∃ (L : lib) l i m o w s v, lib_ok L ∧ valid L l ∧ assigns_ok L (gexec L l ∅) s ∧
  let st := on_heap L (λ h, batch L i s (clear_wrt L m (Some i) w o h).1) (exec L l (init L)) in
  let g := gexec L (l ++ [OBatch L i s]) ∅ in
  valid L (l ++ [OBatch L i s]) ∧
  (clear_wrt L m (Some i) w o (st_h L (exec L l (init L)))).2 = true ∧
  ∃ x, reads L st x QR v ∧ ¬ denotes L g x QR v.
Proof. exact tagged_stale. Qed.
Print Assumptions C54_tagged_refuted.
