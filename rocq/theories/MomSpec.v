(** Central moments. *)
From Coq Require Import Reals.
From stdpp Require Import list list_numbers numbers.
From Verif Require Import ArrModel ReorderSpec RedModel RedSpec.

(** The k-th central moment of a list of numbers. *)
Definition central (k : nat) (l : list R) : R := average ((λ x, (x - average l) ^ k)%R <$> l).
(** [y] is the array of the k-th central moments of [a] along an axis; a number is
    given as an array of shape (1,). *)
Definition is_moment (k : nat) (ax : Z) (a y : arr R) : Prop :=
  ∃ j s, axis_is (length (sh a)) ax j ∧ s = delete j (sh a) ∧ sh y = (if decide (s = []) then [1] else s) ∧
    ∀ i, i < size s → ∃ l, gathers (Some ax) (sh a) i l ∧ dat y i = central k (dat a <$> l).
