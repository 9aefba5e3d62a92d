(** Determinants and inverses, by what characterises them. *)
From Coq Require Import Reals.
From stdpp Require Import list list_numbers numbers gmap.
From Verif Require Import ArrModel.

(** [F] is a function of the rows of an n x n matrix that is linear in each row and zero
    when two rows are equal. *)
Definition row_is (n : nat) (A : nat → nat → R) (i : nat) (v : nat → R) : Prop := ∀ j, j < n → A i j = v j.
Definition same_rows_but (n i : nat) (A B : nat → nat → R) : Prop := ∀ r j, r < n → r ≠ i → j < n → A r j = B r j.
Definition alternating (n : nat) (F : (nat → nat → R) → R) : Prop :=
  (∀ A B, (∀ i j, i < n → j < n → A i j = B i j) → F A = F B) ∧
  (∀ A B C i p q, i < n → same_rows_but n i A B → same_rows_but n i A C → row_is n A i (λ j, p * B i j + q * C i j)%R →
    F A = (p * F B + q * F C)%R) ∧
  (∀ A r s, r < n → s < n → r ≠ s → (∀ j, j < n → A r j = A s j) → F A = 0%R).
(** The determinant: the one that is 1 at the identity matrix. *)
Definition is_determinant (n : nat) (F : (nat → nat → R) → R) : Prop :=
  alternating n F ∧ F (λ i j, if decide (i = j) then 1%R else 0%R) = 1%R.

(** Products and inverses of n x n matrices. *)
Definition mm (n : nat) (A B : nat → nat → R) (i j : nat) : R := rsum ((λ k, A i k * B k j)%R <$> seq 0 n).
Definition is_inverse (n : nat) (A X : nat → nat → R) : Prop :=
  ∀ i j, i < n → j < n → mm n A X i j = (if decide (i = j) then 1%R else 0%R) ∧ mm n X A i j = (if decide (i = j) then 1%R else 0%R).

(** The matrix at the index [ix] of a stack of matrices; for a single matrix [ix] is empty. *)
Definition matrix_at (a : arr R) (ix : list nat) : nat → nat → R := λ i j, at_ a (ix ++ [i; j]).
