(** Smooth least squares problems, for the optimizer of DogModel.v in exact arithmetic. *)
From Coq Require Import Reals.
From stdpp Require Import list.
From Verif Require Import ArrModel DogModel DogSpec DogExact DogGeo.

(** The residuals are F x, with [m] elements for [n] parameters, and the Jacobian is J x. *)
Definition problem_of (m n : nat) (slv : mat → vec → option vec) (F : vec → vec) (J : vec → mat) (P : problem reals (exact m n slv)) : Prop :=
  (∀ k (x : vec), resid reals (exact m n slv) P k (Some x) = Some (Some (F x))) ∧
  (∀ k (x : vec), jac reals (exact m n slv) P k (Some x) = Some (J x)).
Definition sum_squares (m : nat) (F : vec → vec) (x : vec) : R := dot m (F x) (F x).
(** the points that are no worse than [x0] *)
Definition no_worse (m : nat) (F : vec → vec) (x0 x : vec) : Prop := (sum_squares m F x <= sum_squares m F x0)%R.
(** Smooth from [x0] on: at points no worse the Jacobian is bounded, and for short steps the
    residuals differ from their first order approximation by at most a multiple of the square
    of the step. *)
Definition smooth (m n : nat) (F : vec → vec) (J : vec → mat) (x0 : vec) : Prop :=
  (∃ B, ∀ x v, no_worse m F x0 x → (dot m (mulv n (J x) v) (mulv n (J x) v) <= B * dot n v v)%R) ∧
  (∃ L h, (0 < h)%R ∧ ∀ x v, no_worse m F x0 x → (len n v <= h)%R →
    (len m (λ i, F (λ j, x j + v j) i - linear n (J x) (F x) v i) <= L * dot n v v)%R).
(** The solver solves the normal equations at points no worse than [x0]. *)
Definition solves_at (m n : nat) (slv : mat → vec → option vec) (F : vec → vec) (J : vec → mat) (x0 : vec) : Prop :=
  ∀ x, no_worse m F x0 x → ∃ y, slv (gram (exact m n slv) (J x)) (descent m (J x) (F x)) = Some y ∧ normal_eq m n (J x) (F x) y.
(** the gradient, up to the factor -2 *)
Definition gradient (m : nat) (F : vec → vec) (J : vec → mat) (x : vec) : vec := descent m (J x) (F x).
(** Smooth from [x0] on with the constants [B], [L] and [h]. *)
Definition smooth_with (m n : nat) (F : vec → vec) (J : vec → mat) (x0 : vec) (B L h : R) : Prop :=
  (∀ x v, no_worse m F x0 x → (dot m (mulv n (J x) v) (mulv n (J x) v) <= B * dot n v v)%R) ∧
  (∀ x v, no_worse m F x0 x → (len n v <= h)%R → (len m (λ i, F (λ j, x j + v j) i - linear n (J x) (F x) v i) <= L * dot n v v)%R).
(** A number of passes that suffices, from these constants, the threshold [t], the sum of
    squares [q] at the start and the radius [d] at the start: below the radius [c] steps are
    good, so the radius stays above [a], and a step that is taken gains at least [e] or shrinks
    the radius. *)
Definition passes (B L h t q d : R) : R :=
  let c := Rmin (Rmin h 1) (Rmin (t / B) (t / (2 * (2 * R_sqrt.sqrt q * L + L * L + 1)))) in
  let a := Rmin (c / 4) d in
  let e := (5 / 100 * Rmin (a * t) (t * t / B))%R in
  (3 * (q / e) + ln (d / a))%R.
