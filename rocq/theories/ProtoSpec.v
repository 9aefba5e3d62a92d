(** Vocabulary for what Python's builtins should give. *)
From Coq Require Import Reals.
From stdpp Require Import list list_numbers numbers gmap.
From Verif Require Import ArrModel ElemModel StepModel.

(** [b] has the elements of row [i] of [a], in order; a single number is an array of one element. *)
Definition is_row (a : arr R) (i : nat) (b : arr R) : Prop :=
  ∃ n s, sh a = n :: s ∧ i < n ∧ sh b = (match s with [] => [1] | _ => s end) ∧
    ∀ jx, inside s jx → dat b (ravel s jx) = at_ a (i :: jx).
(** the number [k] is [x] cut towards zero *)
Definition cut_of (x : R) (k : Z) : Prop :=
  (0 <= x → IZR k <= x < IZR k + 1)%R ∧ (x <= 0 → IZR k - 1 < x <= IZR k)%R.
(** how the numbers compare *)
Definition stands_in (f : cfun) (x y : R) : Prop :=
  match f with
  | Cgreater => (x > y)%R | Cgreater_equal => (x >= y)%R | Cless => (x < y)%R
  | Cless_equal => (x <= y)%R | Cequal => x = y | Cnot_equal => x ≠ y
  end.
(** sums *)
Fixpoint sum_upto (n : nat) (f : nat → R) : R := match n with O => 0%R | S n' => (sum_upto n' f + f n')%R end.
