(** Specification: where LinearOperators may occur. *)
From Coq Require Import Reals.
From stdpp Require Import gmap list list_numbers relations.
From Verif Require Import ArrModel RepModel RepSpec.

(** Neither [o] nor anything below has an operator as local Jacobian. *)
Definition operator_free (g : rgraph) (size : nat → nat) (J : nat → nat → mat) (o : nat) : Prop :=
  ∀ p, rtc (λ a b, ∃ nd, g !! a = Some nd ∧ b ∈ ops nd) o p → proper g size J no_lin p ∨ handle g size J p.
(** An object with at most one operand, with two and not of one element by a variable of one
    element, or without operators in it and below. *)
Definition sums_few (g : rgraph) (size : nat → nat) (w : nat) (J : nat → nat → mat) (o : nat) : Prop :=
  ∀ nd, g !! o = Some nd →
    length (ops nd) ≤ 1 ∨ length (ops nd) ≤ 2 ∧ size o * size w ≠ 1 ∨ operator_free g size J o.
