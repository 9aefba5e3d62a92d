(** What is asked of the steps of the optimizer in exact arithmetic. *)
From Coq Require Import Reals.
From stdpp Require Import list.
From Verif Require Import DogModel DogSpec DogExact.

(** The dogleg step in the trust region of radius [delta]: along the steepest descent step
    up to the boundary, the Gauss-Newton step, or where the way from one to the other
    leaves the region. *)
Inductive dogleg (n : nat) (sd gn : vec) (delta : R) (v : vec) : Prop :=
  | dog_cauchy (t : R) : (0 < t <= 1)%R → (∀ i, v i = t * sd i)%R → len n v = delta → dogleg n sd gn delta v
  | dog_newton : (len n sd < delta)%R → (len n v <= delta)%R → v = gn → dogleg n sd gn delta v
  | dog_between (t : R) : (len n sd < delta < len n gn)%R → (0 <= t <= 1)%R → (∀ i, v i = sd i + t * (gn i - sd i))%R → len n v = delta → dogleg n sd gn delta v.

(** The residuals to first order after a step, and how much their sum of squares falls *)
Definition linear (n : nat) (J : mat) (r v : vec) : vec := λ i, (r i + dot n (J i) v)%R.
Definition gain (m n : nat) (J : mat) (r v : vec) : R := (dot m r r - dot m (linear n J r v) (linear n J r v))%R.
(** half the negated gradient of the sum of squares: -J^T r *)
Definition descent (m : nat) (J : mat) (r : vec) : vec := λ j, (- dot m (λ i, J i j) r)%R.
(** [y] solves the normal equations J^T J y = -J^T r *)
Definition normal_eq (m n : nat) (J : mat) (r y : vec) : Prop :=
  ∀ j, j < n → dot m (λ i, J i j) (λ i, dot n (J i) y) = descent m J r j.

(** [x] is, among the points where the objective was evaluated, one of smallest sum of squares *)
Definition best {N : num} {L : lin N} (l : list (event N L)) (x : V L) : Prop :=
  ∃ r, (x, r) ∈ evals l ∧ ∀ q, q ∈ evals l → klt N (sse q.2) (sse r) = false.
