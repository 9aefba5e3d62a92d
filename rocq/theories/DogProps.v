(** C38, C39, C40, C43: the dogleg optimizer. *)
From Coq Require Import Reals.
From stdpp Require Import list numbers.
From Verif Require Import DogModel DogSpec DogThms DogStops Dog64 DogExact DogGeo DogGeoThms DogLive DogBest DogPlane DogDemo.

(** C38: for all real steepest descent and Gauss-Newton steps and every positive radius,
    the step computed is the dogleg step of that radius. *)
Theorem C38_step m n slv (sd gn : vec) d A g : (0 < d)%R →
  ∃ v gn', update_step reals (exact m n slv) (Some sd) (Some (Some gn)) (Some (Some d)) A g = Some (gn', Some v, Some d) ∧ dogleg n sd gn d v ∧ gn' = Some (Some gn).
Proof. exact (step_exact m n slv sd gn d A g). Qed.
Print Assumptions C38_step.
Theorem C38_within n sd gn d v : dogleg n sd gn d v → (len n v <= d)%R.
Proof. exact (dogleg_in n sd gn d v). Qed.
Print Assumptions C38_within.
(** In a run, whatever the objective and the solver do, no proposed step is longer than
    the radius it was proposed with. *)
Theorem C38_run m n slv (P : problem reals (exact m n slv)) x k : nonneg (delta0 _ _ P) →
  ∀ v d, EStep reals (exact m n slv) (Some v) d ∈ events (run _ _ P x k) → ∃ y, d = Some y ∧ (len n v <= y)%R.
Proof. exact (run_within m n slv P x k). Qed.
Print Assumptions C38_run.

(** C39: the user is called back at the points of a path of evaluated points with strictly
    falling sums of squares, starting where the variables were; the variables are at its end. *)
Theorem C39_descends (N : num) (L : lin N) (P : problem N L) x n : ordered N →
  run N L P x n = Raised N L [ECall N L x] ∨
  ∃ r path, resid N L P 0 x = Some r ∧ [(x, r)] `prefix_of` path ∧ descends (events (run N L P x n)) path ∧
    calls (events (run N L P x n)) = path.*1 ∧ ∀ y, variables (run N L P x n) = Some y → ∃ r', list.last path = Some (y, r').
Proof. exact (run_descends N L P x n). Qed.
Print Assumptions C39_descends.
Theorem C39_float_order : ordered f64.
Proof. exact ordered64. Qed.
Print Assumptions C39_float_order.
(** With exact arithmetic and solutions of the normal equations the variables are at the
    best point evaluated, always, and at every callback after the first. *)
Theorem C39_best m n slv (P : problem reals (exact m n slv)) eps (x : vec) k :
  (∀ J r y, slv (gram (exact m n slv) J) (descent m J r) = Some y → normal_eq m n J r y) →
  (∀ k (x : vec), resid _ _ P k (Some x) ≠ Some None) → (0 < eps)%R → e1 _ _ P = Some eps → positive (delta0 _ _ P) →
  (∀ i y, events (run _ _ P (Some x) k) !! i = Some (ECall _ _ y) → i = 0 ∨ best (take i (events (run _ _ P (Some x) k))) y) ∧
  ∀ y, variables (run _ _ P (Some x) k) = Some y → best (events (run _ _ P (Some x) k)) y.
Proof. exact (λ H1 H2 H3 H4 H5, run_best m n slv P H1 H2 eps H3 H4 H5 x k). Qed.
Print Assumptions C39_best.
(** Whatever the solver returns: no. *)
Theorem C39_best_refuted : ∃ (slv : pt * pt → pt → option pt) (P : problem f64 (plane slv)) x n s,
  run _ _ P x n = Returned _ _ s ∧ ¬ best (s_log _ _ s) (s_fv _ _ s).
Proof. exact (ex_intro _ _ (ex_intro _ far (ex_intro _ origin (ex_intro _ 3 far_worse)))). Qed.
Print Assumptions C39_best_refuted.

(** C40: limits. *)
Theorem C40_iterations (N : num) (L : lin N) (P : problem N L) x n m : maxiter N L P = Some m →
  length (calls (events (run N L P x n))) ≤ S (1 `max` m) ∧
  ∀ s, run N L P x n = AtInner N L s ∨ run N L P x n = Returned N L s → s_iter N L s ≤ 1 `max` m.
Proof. exact (iterations N L P x n m). Qed.
Print Assumptions C40_iterations.
Theorem C40_evaluations (N : num) (L : lin N) (P : problem N L) x n m : max_fevals N L P = Some m → length (evals (events (run N L P x n))) ≤ 2 `max` m.
Proof. exact (evaluations N L P x n m). Qed.
Print Assumptions C40_evaluations.
Theorem C40_evaluations_refuted : ∃ slv (P : problem f64 (plane slv)) x n,
  max_fevals _ _ P = Some 1 ∧ finished (run _ _ P x n) ∧ length (evals (events (run _ _ P x n))) = 2.
Proof. exact (ex_intro _ _ (ex_intro _ simple (ex_intro _ unit_pt (ex_intro _ 3 (conj eq_refl simple_two))))). Qed.
Print Assumptions C40_evaluations_refuted.
(** A limit on evaluations ends every run. *)
Theorem C40_ends_limit (N : num) (L : lin N) (P : problem N L) x m : max_fevals N L P = Some m → ∃ n, finished (run N L P x n).
Proof. exact (ends_fevals N L P x m). Qed.
Print Assumptions C40_ends_limit.
(** With a limit on iterations only, runs in binary64 end if no NaN and no infinite radius appears. *)
Theorem C40_ends (L : lin f64) (P : problem f64 L) x m : maxiter f64 L P = Some m →
  (∀ n, tame P nan64 fin64 (events (run f64 L P x n))) → ∃ n, finished (run f64 L P x n).
Proof. exact (ends_tame f64 L P nan64 fin64 shrinking64 x m). Qed.
Print Assumptions C40_ends.
Theorem C40_ends_refuted : ∃ slv (P : problem f64 (plane slv)) x, maxiter _ _ P = Some 1 ∧ ∀ n, ¬ finished (run _ _ P x n).
Proof. exact (ex_intro _ _ (ex_intro _ cliff (ex_intro _ unit_pt (conj eq_refl cliff_stuck)))). Qed.
Print Assumptions C40_ends_refuted.

(** C43: the predicted improvement is the fall of the sum of squares to first order in the
    residuals, and is positive for every step; the steepest descent step is best along the gradient. *)
Theorem C43_predicted m n slv J r v (s : st reals (exact m n slv)) : s_A _ _ s = gram (exact m n slv) J → s_g _ _ s = jt_neg (exact m n slv) J (Some r) → s_dl _ _ s = Some v →
  predicted reals (exact m n slv) s = Some (gain m n J r v).
Proof. exact (predicted_gain m n slv J r v s). Qed.
Print Assumptions C43_predicted.
Theorem C43_positive m n slv (J : mat) r gn d A g : (0 < dot n (descent m J r) (descent m J r))%R → normal_eq m n J r gn → (0 < d)%R →
  ∃ sd v gn', cauchy reals (exact m n slv) J (Some (descent m J r)) = Some sd ∧
    update_step reals (exact m n slv) (Some sd) (Some (Some gn)) (Some (Some d)) A g = Some (gn', Some v, Some d) ∧ (0 < gain m n J r v)%R.
Proof. exact (positive_step m n slv J r gn d A g). Qed.
Print Assumptions C43_positive.
Theorem C43_cauchy m n slv (J : mat) r t : (0 < dot n (descent m J r) (descent m J r))%R →
  ∃ sd, cauchy reals (exact m n slv) J (Some (descent m J r)) = Some sd ∧ (gain m n J r (λ j, t * descent m J r j) <= gain m n J r sd)%R.
Proof. exact (cauchy_along m n slv J r t). Qed.
Print Assumptions C43_cauchy.
