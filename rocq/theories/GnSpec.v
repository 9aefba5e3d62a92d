(** What is expected of solvers. *)
From Coq Require Import Reals.
From stdpp Require Import list.
From Verif Require Import ArrModel DogExact GnModel.

(** A y = g, for [n] equations in [n] unknowns *)
Definition solution (n : nat) (A : mat) (g y : vec) : Prop := ∀ j, j < n → dot n (A j) y = g j.
(** A has no kernel. *)
Definition regular (n : nat) (A : mat) : Prop := ∀ v, (∀ j, j < n → dot n (A j) v = 0%R) → ∀ j, j < n → v j = 0%R.
(** the square of the length of A y - g *)
Definition misfit (n : nat) (A : mat) (g y : vec) : R := let u := λ j, (dot n (A j) y - g j)%R in dot n u u.
Definition least (n : nat) (A : mat) (g y : vec) : Prop := ∀ z, (misfit n A g y <= misfit n A g z)%R.
(** the shortest vector with the least misfit *)
Definition shortest_least (n : nat) (A : mat) (g y : vec) : Prop := least n A g y ∧ ∀ z, least n A g z → (len n y <= len n z)%R.
(** np.linalg.solve gives the solution if the matrix is regular and raises otherwise;
    np.linalg.lstsq then gives the shortest least squares solution. *)
Definition numpy_right (l : library) (n : nat) (A : mat) : Prop :=
  (∀ g y, np_solve l n A g = Some y → regular n A ∧ solution n A g y) ∧
  (∀ g, np_solve l n A g = None → ∃ y, np_lstsq l n A g = Some y ∧ shortest_least n A g y).
(** A direct sparse solver: no finite answers for singular matrices, but then lsqr finds the
    shortest least squares solution. *)
Definition direct (l : library) (solve : nat → mat → vec → answer) (n : nat) (A : mat) : Prop :=
  (∀ g y, solve n A g = Finite y → regular n A ∧ solution n A g y) ∧
  (∀ g, solve n A g = NotFinite → ∃ y, sp_lsqr l n A g = Finite y ∧ shortest_least n A g y) ∧
  (∀ g, solve n A g ≠ Raises).
(** Any solver that is right if its answer is finite, for example an iterative one that has
    converged. *)
Definition sound (l : library) (solve : nat → mat → vec → answer) (n : nat) (A : mat) : Prop :=
  (∀ g y, solve n A g = Finite y → solution n A g y) ∧
  (∀ g, solve n A g = NotFinite → ∃ y, sp_lsqr l n A g = Finite y ∧ shortest_least n A g y) ∧
  (∀ g, solve n A g ≠ Raises).
(** J'J *)
Definition squared (m : nat) (J : mat) : mat := λ j k, dot m (λ i, J i j) (λ i, J i k).
