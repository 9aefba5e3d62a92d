(** C67: what is minimized. *)
From Coq Require Import Reals String Lra.
From stdpp Require Import list.
From Verif Require Import ArrModel DogExact MinModel MinSpec MinThms MinDemo.
Local Open Scope string_scope.

(** C67. With any number of elements but one, all methods minimize the sum of the squares of
    all elements, in whatever order and under whatever labels the objects are given. *)
Theorem C67_same_partial (o o' : objective) (x0 x : vec) : objects o ≠ [] → count_elements o x0 ≠ 1 →
  dogleg_cost o x = Some (total o x) ∧ scipy_value o x0 x = Some (total o x) ∧ (objects o ≡ₚ objects o' → total o x = total o' x).
Proof. exact (λ Hn Hc, conj (dogleg_total o x Hn) (conj (scipy_total o x0 x Hn Hc) (total_perm o o' x))). Qed.
Print Assumptions C67_same_partial.
Example C67_same_case x : objects labelled ≠ [] ∧ count_elements labelled x ≠ 1 ∧ objects labelled ≡ₚ objects (Several [t_x; t_xx]).
Proof. split_and!; [done..|apply perm_swap]. Qed.

(** C67. The printed figures: the total, and one per label, which add up to it. *)
Theorem C67_report (o : objective) (x : vec) : objects o ≠ [] →
  ∃ ls, report o x = Some (total o x, ls) ∧ ∀ l, o = Labelled l → ls.*1 = l.*1 ∧ rsum ls.*2 = total o x.
Proof. exact (report_total o x). Qed.
Print Assumptions C67_report.
Example C67_report_case : objects labelled ≠ [] ∧ ∃ l, labelled = Labelled l.
Proof. split; [done|]. by eexists. Qed.

(** C67. The gradient given to scipy is that of the function given to scipy. *)
Theorem C67_gradient (n : nat) (o : objective) (x0 x g : vec) : Forall (smooth_at n x) (objects o) → scipy_grad o x0 x = Some g →
  gradient_at n (λ y, default 0%R (scipy_value o x0 y)) x g.
Proof. exact (scipy_gradient n o x0 x g). Qed.
Print Assumptions C67_gradient.
Example C67_gradient_case x0 x : Forall (smooth_at 1 x) (objects labelled) ∧ ∃ g, scipy_grad labelled x0 x = Some g.
Proof. split; [apply labelled_smooth|]. by eexists. Qed.

(** C67. The matrix given to scipy is the Hessian if all elements are affine. *)
Theorem C67_hessian_partial (n : nat) (o : objective) (x0 x : vec) (h : mat) : Forall (affine n) (objects o) → scipy_hess o x0 x = Some h →
  derivative_at n (λ y, default (λ _, 0%R) (scipy_grad o x0 y)) x h.
Proof. exact (scipy_hessian n o x0 x h). Qed.
Print Assumptions C67_hessian_partial.
Example C67_hessian_case x0 x : Forall (affine 1) (objects pair_x) ∧ ∃ h, scipy_hess pair_x x0 x = Some h.
Proof. split; [apply pair_affine|]. by eexists. Qed.

(** C67. hessp gives the derivative of the gradient along p, under the same condition. *)
Theorem C67_hessp_partial (n : nat) (o : objective) (x0 x p q : vec) : Forall (affine n) (objects o) → scipy_hessp n o x0 x p = Some q →
  ∀ i, i < n → derivable_pt_lim (λ s, default (λ _, 0%R) (scipy_grad o x0 (along x p s)) i) 0 (q i).
Proof. exact (scipy_hessp_along n o x0 x p q). Qed.
Print Assumptions C67_hessp_partial.
Example C67_hessp_case x0 x p : Forall (affine 1) (objects pair_x) ∧ ∃ q, scipy_hessp 1 pair_x x0 x p = Some q.
Proof. split; [apply pair_affine|]. by eexists. Qed.

(* ------------------------------------------------------------------ *)
(** C67 is false of objectives with one element: dogleg prefers one point, the other
    methods another. *)
Theorem C67_single_refuted : ∃ t a b va vb, scipy_value (Single t) a a = Some va ∧ scipy_value (Single t) a b = Some vb ∧ (va < vb)%R ∧
  ∃ ca cb, dogleg_cost (Single t) a = Some ca ∧ dogleg_cost (Single t) b = Some cb ∧ (cb < ca)%R.
Proof. exact one_element. Qed.
Print Assumptions C67_single_refuted.

(** C67 is false of the Hessian of curved elements. *)
Theorem C67_hessian_refuted : ∃ o x h, scipy_hess o x x = Some h ∧ ¬ derivative_at 1 (λ y, default (λ _, 0%R) (scipy_grad o x y)) x h.
Proof. exact (ex_intro _ (Single t_xx) (ex_intro _ (at_ 1) curved_hessian)). Qed.
Print Assumptions C67_hessian_refuted.
