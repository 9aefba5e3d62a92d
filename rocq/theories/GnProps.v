(** C73: the Gauss-Newton step. *)
From Coq Require Import Reals Lra String.
From stdpp Require Import list.
From Verif Require Import ArrModel DogModel DogSpec DogExact DogGeo LsqSpec SmoothSpec SmoothDemo GnModel GnSpec GnThms GnDemo.

(** C73. Dense Jacobians: the step is the shortest solution of the normal equations, whatever
    the rank. *)
Theorem C73_dense (l : library) (solve : nat → mat → vec → answer) (m n : nat) (J : mat) :
  numpy_right l n (squared m J) → solves_shortest m n (gn_solver l solve false n) J.
Proof. exact (dense_right l solve m n J). Qed.
Print Assumptions C73_dense.
(** one residual with two parameters; Rosenbrock's function *)
Example C73_dense_case (x : vec) : numpy_right lib2 2 (squared 1 both) ∧ numpy_right cramer 2 (squared 2 (rosen_jac x)).
Proof. split; [apply both_numpy|apply rosen_numpy]. Qed.

(** C73. Sparse Jacobians with more than one parameter, with a direct solver *)
Theorem C73_sparse_partial (l : library) (solve : nat → mat → vec → answer) (m n : nat) (J : mat) :
  1 < n → direct l solve n (squared m J) → solves_shortest m n (gn_solver l solve true n) J.
Proof. exact (sparse_right l solve m n J). Qed.
Print Assumptions C73_sparse_partial.
Example C73_sparse_partial_case (x : vec) : direct lib2 (sp_spsolve lib2) 2 (squared 1 both) ∧ direct cramer (sp_spsolve cramer) 2 (squared 2 (rosen_jac x)).
Proof. split; [apply both_direct|apply rosen_direct]. Qed.

(** C73. With any solver whose finite answers are right: a solution, though perhaps not the
    shortest *)
Theorem C73_sound_partial (l : library) (solve : nat → mat → vec → answer) (m n : nat) (J : mat) :
  1 < n → sound l solve n (squared m J) → solves m n (gn_solver l solve true n) J.
Proof. exact (sparse_sound l solve m n J). Qed.
Print Assumptions C73_sound_partial.
Example C73_sound_partial_case (x : vec) : sound cramer (sp_spsolve cramer) 2 (squared 2 (rosen_jac x)).
Proof. exact (rosen_sound x). Qed.

(** C73. Sparse Jacobians with one parameter: no solver is used. *)
Theorem C73_one_partial (l : library) (solve : nat → mat → vec → answer) (m : nat) (J : mat) :
  (∃ i, i < m ∧ J i 0%nat ≠ 0%R) → solves_shortest m 1 (gn_solver l solve true 1) J.
Proof. exact (one_right l solve m J). Qed.
Print Assumptions C73_one_partial.
Example C73_one_partial_case : ∃ i, i < 1 ∧ both i 0%nat ≠ 0%R.
Proof. exists 0%nat. split; [lia|apply R1_neq_R0]. Qed.

(** C73. But if the Jacobian is zero, where any step is a solution, the step is not finite. *)
Theorem C73_zero_refuted : ∃ (m : nat) (J : mat) (r : vec), ∀ l solve,
  update_gn l solve true 1 (squared m J) (descent m J r) = Some None ∧ ∀ y, normal_eq m 1 J r y.
Proof. exact zero_refuted. Qed.
Print Assumptions C73_zero_refuted.

(** C73. A finite answer that is wrong is taken. *)
Theorem C73_wrong_refuted : ∃ (l : library) (m n : nat) (J : mat) (r y : vec),
  numpy_right l n (squared m J) ∧ update_gn l (sp_cg l) true n (squared m J) (descent m J r) = Some (Some y) ∧ ¬ normal_eq m n J r y.
Proof. exact wrong_refuted. Qed.
Print Assumptions C73_wrong_refuted.

(** C73. If the solver raises, dense problems are solved by lstsq; sparse ones are not handed to
    lsqr, although it solves them. *)
Theorem C73_raise_refuted : ∃ (l : library) (n : nat) (A : mat) (g : vec),
  (∃ y, sp_lsqr l n A g = Finite y ∧ shortest_least n A g y) ∧ is_Some (update_gn l (sp_spsolve l) false n A g) ∧ update_gn l (sp_spsolve l) true n A g = None.
Proof. exact raise_refuted. Qed.
Print Assumptions C73_raise_refuted.

(** C73. The choice of the solver: any function, "cg" and "spsolve", and it is the one asked for;
    everything else raises. *)
Theorem C73_choice (l : library) (c : choice) (f : nat → mat → vec → answer) :
  setup_sparse_solver l c = Some f ↔ c = Function f ∨ (c = Name "cg" ∧ f = sp_cg l) ∨ (c = Name "spsolve" ∧ f = sp_spsolve l).
Proof. exact (setup_choice l c f). Qed.
Print Assumptions C73_choice.
Example C73_choice_case : setup_sparse_solver cramer (Name "lsqr") = None ∧ setup_sparse_solver cramer Other = None.
Proof. done. Qed.

(** C73. With these solvers the optimizer ends on smooth objectives where the gradient is below
    the threshold (as in C71). *)
Theorem C73_smooth (m n : nat) (l : library) (solve : nat → mat → vec → answer) (sparse : bool) (F : vec → vec) (J : vec → mat) (x0 : vec) (P : problem reals (exact m n (gn_solver l solve sparse n))) (t1 t2 : R) :
  problem_of m n (gn_solver l solve sparse n) F J P →
  (if sparse then 1 < n ∧ ∀ x, no_worse m F x0 x → sound l solve n (squared m (J x)) else ∀ x, no_worse m F x0 x → numpy_right l n (squared m (J x))) →
  (0 < t1)%R → e1 _ _ P = Some t1 → e2 _ _ P = Some t2 → klt reals (Some 0%R) (e3 _ _ P) = false →
  smooth m n F J x0 → delta0 _ _ P = None ∨ (∃ d, delta0 _ _ P = Some (Some d) ∧ (0 < d)%R) → (t2 <= 0)%R → maxiter _ _ P = None → max_fevals _ _ P = None →
  ∃ k s y, run _ _ P (Some x0) k = Returned _ _ s ∧ s_fv _ _ s = Some y ∧ no_worse m F x0 y ∧ (maxabs n (gradient m F J y) < t1)%R.
Proof. exact (smooth_gn_found m n l solve sparse F J x0 P t1 t2). Qed.
Print Assumptions C73_smooth.
Example C73_smooth_case (x : vec) : (1 < 2 ∧ sound cramer (sp_spsolve cramer) 2 (squared 2 (rosen_jac x))) ∧ numpy_right cramer 2 (squared 2 (rosen_jac x)) ∧ smooth 2 2 rosen rosen_jac x.
Proof. split_and!; [lia|apply rosen_sound|apply rosen_numpy|apply rosen_smooth]. Qed.
