(** Linear least squares problems, for the optimizer of DogModel.v in exact arithmetic. *)
From Coq Require Import Reals.
From stdpp Require Import list.
From Verif Require Import ArrModel DogModel DogSpec DogExact DogGeo.

(** The residuals are b + J x, with [m] elements for [n] parameters. *)
Definition affine_problem (m n : nat) (slv : mat → vec → option vec) (J : mat) (b : vec) (P : problem reals (exact m n slv)) : Prop :=
  (∀ k (x : vec), resid reals (exact m n slv) P k (Some x) = Some (Some (linear n J b x))) ∧
  (∀ k (x : vec), jac reals (exact m n slv) P k (Some x) = Some J).
Definition squares (m n : nat) (J : mat) (b x : vec) : R := dot m (linear n J b x) (linear n J b x).
(** [x] is a least squares solution *)
Definition least_squares (m n : nat) (J : mat) (b x : vec) : Prop := ∀ y, (squares m n J b x <= squares m n J b y)%R.
(** The solver solves the normal equations at every point, if they have many solutions
    (rank-deficient Jacobians) any of them, or a shortest one, as numpy.linalg.lstsq does. *)
Definition solves (m n : nat) (slv : mat → vec → option vec) (J : mat) : Prop :=
  ∀ r, ∃ y, slv (gram (exact m n slv) J) (descent m J r) = Some y ∧ normal_eq m n J r y.
Definition solves_shortest (m n : nat) (slv : mat → vec → option vec) (J : mat) : Prop :=
  ∀ r, ∃ y, slv (gram (exact m n slv) J) (descent m J r) = Some y ∧ normal_eq m n J r y ∧ ∀ z, normal_eq m n J r z → (len n y <= len n z)%R.
(** columns that are linearly independent *)
Definition full_rank (m n : nat) (J : mat) : Prop := ∀ v : vec, (∀ i, i < m → dot n (J i) v = 0%R) → ∀ j, j < n → v j = 0%R.
