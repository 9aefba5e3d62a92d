(** Specification: graphs given by operands. *)
From stdpp Require Import gmap list.
From Verif Require Import CostModel.

(** No cycles. *)
Definition ranked (ops : nat → list nat) (rank : nat → nat) : Prop := ∀ o p, p ∈ ops o → rank p < rank o.
(** [par o] is the number of objects that have [o] as an operand. *)
Definition parents_are (ops : nat → list nat) (par : nat → nat) : Prop :=
  ∀ o, ∃ ps, NoDup ps ∧ length ps = par o ∧ ∀ p, p ∈ ps ↔ o ∈ ops p.
(** No object has an operand twice. *)
Definition operands_once (ops : nat → list nat) : Prop := ∀ o, NoDup (ops o).
(** Every object is an operand of at most one other. *)
Definition tree (ops : nat → list nat) : Prop := ∀ o p q, o ∈ ops p → o ∈ ops q → p = q.
(** [o] is [r], or an operand of an operand … of [r]. *)
Inductive below (ops : nat → list nat) (r : nat) : nat → Prop :=
| below_here : below ops r r
| below_op o p : below ops r o → p ∈ ops o → below ops r p.
