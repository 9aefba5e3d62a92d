(** C68: linear least squares problems. *)
From Coq Require Import Reals Lra.
From stdpp Require Import list.
From Verif Require Import ArrModel DogModel DogSpec DogExact DogGeo LsqSpec LsqThms LsqRun LsqDemo.

(** C68. Without a trust radius: one step leads to a least squares solution, unless the
    gradient at the start or that step is below its threshold.  Any solution of the normal
    equations will do. *)
Theorem C68_one_step (m n : nat) (slv : mat → vec → option vec) (J : mat) (b : vec) (P : problem reals (exact m n slv)) (t1 t2 : R) (x : vec) :
  affine_problem m n slv J b P → solves m n slv J → (0 < t1)%R → e1 _ _ P = Some t1 → e2 _ _ P = Some t2 → klt reals (Some 0%R) (e3 _ _ P) = false → delta0 _ _ P = None →
  ∃ k s y, run _ _ P (Some x) k = Returned _ _ s ∧ s_fv _ _ s = Some y ∧ (∀ rho ok, ETrial _ _ rho ok ∈ s_log _ _ s → rho = Some 1%R ∧ ok = true) ∧
    ((y = x ∧ ((maxabs n (descent m J (linear n J b x)) < t1)%R ∨ ∃ v, normal_eq m n J (linear n J b x) v ∧ (len n v <= t2 * len n x)%R)) ∨
     (least_squares m n J b y ∧ length (evals (s_log _ _ s)) = 2)).
Proof. exact (λ H1 H2 H3 H4 H5 H6, one_step m n slv J b P H1 H2 t1 t2 H3 H4 H5 H6 x). Qed.
Print Assumptions C68_one_step.
Example C68_one_step_case : let b : vec := λ i, match i with O => 1%R | S _ => (-5)%R end in
  affine_problem 2 1 tall_solve tall b (affine_run 2 1 tall_solve tall b (1 / 1000) 0 None) ∧ solves 2 1 tall_solve tall ∧
  ¬ (maxabs 1 (descent 2 tall (linear 1 tall b (λ _, 0%R))) < 1 / 1000)%R.
Proof. split_and!; [apply affine_run_ok|apply tall_solves|apply tall_unsolved]. Qed.

(** C68. From every positive trust radius, finitely many steps, all of them accepted, lead to
    a point where the gradient, or the last step, is below its threshold, or a limit has been
    reached; whatever the rank, if the solver gives shortest solutions. *)
Theorem C68_radius (m n : nat) (slv : mat → vec → option vec) (J : mat) (b : vec) (P : problem reals (exact m n slv)) (t1 t2 d : R) (x : vec) :
  affine_problem m n slv J b P → solves m n slv J → (0 < t1)%R → e1 _ _ P = Some t1 → e2 _ _ P = Some t2 → klt reals (Some 0%R) (e3 _ _ P) = false →
  delta0 _ _ P = Some (Some d) → (0 < d)%R → solves_shortest m n slv J →
  ∃ k s y, run _ _ P (Some x) k = Returned _ _ s ∧ s_fv _ _ s = Some y ∧ (∀ rho ok, ETrial _ _ rho ok ∈ s_log _ _ s → rho = Some 1%R ∧ ok = true) ∧
    ((maxabs n (descent m J (linear n J b y)) < t1)%R ∨ (∃ v, s_dl _ _ s = Some v ∧ (0 < len n v <= t2 * len n y)%R) ∨
     over (maxiter _ _ P) (s_iter _ _ s) = true ∨ over (max_fevals _ _ P) (s_fevals _ _ s) = true).
Proof. exact (λ H1 H2 H3 H4 H5 H6, radius_ends m n slv J b P H1 H2 t1 t2 H3 H4 H5 H6 x d). Qed.
Print Assumptions C68_radius.
Example C68_radius_case : affine_problem 1 2 flat_solve flat (λ _, 3%R) (affine_run 1 2 flat_solve flat (λ _, 3%R) (1 / 1000) 0 (Some (Some (1 / 10)%R))) ∧ solves_shortest 1 2 flat_solve flat.
Proof. split; [apply affine_run_ok|apply flat_solves]. Qed.
(** For columns that are linearly independent any solver of the normal equations is one. *)
Theorem C68_full_rank (m n : nat) (slv : mat → vec → option vec) (J : mat) : full_rank m n J → solves m n slv J → solves_shortest m n slv J.
Proof. exact (full_rank_shortest m n slv J). Qed.
Print Assumptions C68_full_rank.
Example C68_full_rank_case : full_rank 2 1 tall ∧ solves 2 1 tall_solve tall.
Proof. split; [apply tall_rank|apply tall_solves]. Qed.
(** What a vanishing gradient means. *)
Theorem C68_stationary (m n : nat) (J : mat) (b x : vec) : (∀ j, j < n → descent m J (linear n J b x) j = 0%R) → least_squares m n J b x.
Proof. exact (stationary m n J b x). Qed.
Print Assumptions C68_stationary.
Example C68_stationary_case : ∀ j, j < 1 → descent 2 tall (linear 1 tall (λ i, match i with O => 1%R | S _ => (-5)%R end) (λ _, 2%R)) j = 0%R.
Proof. intros j Hj. cbv -[Rplus Rmult Ropp IZR]. ring. Qed.
(** And a small one: the sum of squares exceeds the least one by at most a factor, of the
    Jacobian alone, times the square of the gradient. *)
Theorem C68_near (m n : nat) (slv : mat → vec → option vec) (J : mat) : solves_shortest m n slv J →
  ∃ C, (0 <= C)%R ∧ ∀ b y z, let g := descent m J (linear n J b y) in (squares m n J b y <= squares m n J b z + C * dot n g g)%R.
Proof. exact (near m n slv J). Qed.
Print Assumptions C68_near.
Example C68_near_case : solves_shortest 1 2 flat_solve flat.
Proof. apply flat_solves. Qed.
