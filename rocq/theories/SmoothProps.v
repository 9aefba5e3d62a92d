(** C71: the optimizer on smooth objectives. *)
From Coq Require Import Reals Lra.
From stdpp Require Import list.
From Verif Require Import ArrModel DogModel DogSpec DogExact DogGeo SmoothSpec SmoothDemo.

(** C71. From every start and every positive radius the run ends, at a point no worse than the
    start, where the gradient is below its threshold, or the last step or the radius is below
    the other, or a limit has been reached. *)
Theorem C71_ends (m n : nat) (slv : mat → vec → option vec) (F : vec → vec) (J : vec → mat) (x0 : vec) (P : problem reals (exact m n slv)) (t1 t2 : R) :
  problem_of m n slv F J P → solves_at m n slv F J x0 → (0 < t1)%R → e1 _ _ P = Some t1 → e2 _ _ P = Some t2 → klt reals (Some 0%R) (e3 _ _ P) = false →
  smooth m n F J x0 → delta0 _ _ P = None ∨ (∃ d, delta0 _ _ P = Some (Some d) ∧ (0 < d)%R) →
  ∃ k s y, run _ _ P (Some x0) k = Returned _ _ s ∧ s_fv _ _ s = Some y ∧ no_worse m F x0 y ∧
    ((maxabs n (gradient m F J y) < t1)%R ∨ (∃ v, s_dl _ _ s = Some v ∧ (0 < len n v <= t2 * len n y)%R) ∨ (∃ d, s_delta _ _ s = Some (Some d) ∧ (0 < d <= t2 * len n y)%R) ∨
     over (maxiter _ _ P) (s_iter _ _ s) = true ∨ over (max_fevals _ _ P) (s_fevals _ _ s) = true).
Proof. exact (smooth_ends m n slv F J x0 P t1 t2). Qed.
Print Assumptions C71_ends.
(** Rosenbrock's function, from any start *)
Example C71_ends_case (x0 : vec) : problem_of 2 2 solve2 rosen rosen_jac (rosen_run (1 / 1000) (Some (Some (1 / 10)%R))) ∧ solves_at 2 2 solve2 rosen rosen_jac x0 ∧ smooth 2 2 rosen rosen_jac x0.
Proof. split_and!; [apply rosen_problem|apply rosen_solves|apply rosen_smooth]. Qed.

(** C71. Without limits and with e_2 = 0 it ends where the gradient is below e_1. *)
Theorem C71_found (m n : nat) (slv : mat → vec → option vec) (F : vec → vec) (J : vec → mat) (x0 : vec) (P : problem reals (exact m n slv)) (t1 t2 : R) :
  problem_of m n slv F J P → solves_at m n slv F J x0 → (0 < t1)%R → e1 _ _ P = Some t1 → e2 _ _ P = Some t2 → klt reals (Some 0%R) (e3 _ _ P) = false →
  smooth m n F J x0 → delta0 _ _ P = None ∨ (∃ d, delta0 _ _ P = Some (Some d) ∧ (0 < d)%R) → (t2 <= 0)%R → maxiter _ _ P = None → max_fevals _ _ P = None →
  ∃ k s y, run _ _ P (Some x0) k = Returned _ _ s ∧ s_fv _ _ s = Some y ∧ no_worse m F x0 y ∧ (maxabs n (gradient m F J y) < t1)%R.
Proof. exact (smooth_found m n slv F J x0 P t1 t2). Qed.
Print Assumptions C71_found.
Example C71_found_case (t : R) (x0 : vec) : (0 < t)%R → ∃ k s y, run _ _ (rosen_run t None) (Some x0) k = Returned _ _ s ∧ s_fv _ _ s = Some y ∧ no_worse 2 rosen x0 y ∧ (maxabs 2 (gradient 2 rosen rosen_jac y) < t)%R.
Proof.
  intros Ht. refine (smooth_found 2 2 solve2 rosen rosen_jac x0 (rosen_run t None) t 0 (rosen_problem _ _) (rosen_solves x0) Ht eq_refl eq_refl _ (rosen_smooth x0) (or_introl eq_refl) _ eq_refl eq_refl); [|lra].
  cbn. destruct (Rlt_dec 0 0); [lra|done].
Qed.

(** C71. How soon: with a radius [d] to start from, after [2 k + 1] steps of the loops and at
    most [2 k + 2] evaluations, for any [k] above a number that depends only on the bounds of
    the problem, the threshold, the sum of squares at the start and the radius. *)
Theorem C71_bound (m n : nat) (slv : mat → vec → option vec) (F : vec → vec) (J : vec → mat) (x0 : vec) (P : problem reals (exact m n slv)) (t1 t2 B L h d : R) (k : nat) :
  problem_of m n slv F J P → solves_at m n slv F J x0 → (0 < t1)%R → e1 _ _ P = Some t1 → e2 _ _ P = Some t2 → klt reals (Some 0%R) (e3 _ _ P) = false →
  (0 < B)%R → (0 <= L)%R → (0 < h)%R → smooth_with m n F J x0 B L h → delta0 _ _ P = Some (Some d) → (0 < d)%R →
  (passes B L h t1 (sum_squares m F x0) d < INR k)%R →
  ∃ s y, run _ _ P (Some x0) (2 * k + 1) = Returned _ _ s ∧ s_fevals _ _ s ≤ 2 * k + 2 ∧ s_fv _ _ s = Some y ∧ no_worse m F x0 y ∧
    ((maxabs n (gradient m F J y) < t1)%R ∨ (∃ v, s_dl _ _ s = Some v ∧ (0 < len n v <= t2 * len n y)%R) ∨ (∃ d, s_delta _ _ s = Some (Some d) ∧ (0 < d <= t2 * len n y)%R) ∨
     over (maxiter _ _ P) (s_iter _ _ s) = true ∨ over (max_fevals _ _ P) (s_fevals _ _ s) = true).
Proof. exact (smooth_bound m n slv F J x0 P t1 t2 B L h d k). Qed.
Print Assumptions C71_bound.
Example C71_bound_case (x0 : vec) : smooth_with 2 2 rosen rosen_jac x0 (1600 * (1 + sum_squares 2 rosen x0) + 201) 10 1 ∧ solves_at 2 2 solve2 rosen rosen_jac x0 ∧
  problem_of 2 2 solve2 rosen rosen_jac (rosen_run (1 / 1000) (Some (Some (1 / 10)%R))).
Proof. split_and!; [apply rosen_smooth_with|apply rosen_solves|apply rosen_problem]. Qed.
