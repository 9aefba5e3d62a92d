(** Vocabulary for pseudo-inverses and least squares. *)
From Coq Require Import Reals.
From stdpp Require Import list list_numbers numbers gmap.
From Verif Require Import ArrModel LinSpec.

(** [P] is the Moore-Penrose inverse of the m x n matrix [A]. *)
Definition moore_penrose (m n : nat) (A P : nat → nat → R) : Prop :=
  (∀ i j, i < m → j < n → mm m (mm n A P) A i j = A i j) ∧
  (∀ i j, i < n → j < m → mm n (mm m P A) P i j = P i j) ∧
  (∀ i j, i < m → j < m → mm n A P i j = mm n A P j i) ∧
  (∀ i j, i < n → j < n → mm m P A i j = mm m P A j i).
(** Linearly dependent columns, rows. *)
Definition columns_dependent (m n : nat) (A : nat → nat → R) : Prop :=
  ∃ z, (∃ j, j < n ∧ z j ≠ 0%R) ∧ ∀ i, i < m → rsum ((λ j, A i j * z j)%R <$> seq 0 n) = 0%R.
Definition rows_dependent (m n : nat) (A : nat → nat → R) : Prop := columns_dependent n m (λ i j, A j i).

(** The square of the length of a vector, and of A y - b. *)
Definition sq (n : nat) (z : nat → R) : R := rsum ((λ i, z i * z i)%R <$> seq 0 n).
Definition misfit (m n : nat) (A : nat → nat → R) (b y : nat → R) : R :=
  sq m (λ i, rsum ((λ j, A i j * y j)%R <$> seq 0 n) - b i)%R.
(** Column [c] of a matrix; a vector is its own only column. *)
Definition column (b : arr R) (c : nat) : nat → R := λ i, match sh b with [_] => at_ b [i] | _ => at_ b [i; c] end.
Definition columns (b : arr R) : nat := match sh b with [_; k] => k | _ => 1 end.
