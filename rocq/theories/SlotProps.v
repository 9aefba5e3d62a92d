(** C69: the vectors exchanged with scipy. *)
From Coq Require Import Reals.
From stdpp Require Import list.
From Verif Require Import SlotModel SlotSpec SlotThms SlotDemo.

(** C69. Distinct variables, all with influence: one entry each, the derivative in its place. *)
Theorem C69_gradient_partial (f : env → R) (lop : nat → env → option (list R)) (e : env) (fv : variables) (vs : list R) :
  NoDup fv.*1 → length vs = foldr Nat.add 0 fv.*2 →
  (∀ x, x ∈ fv → length (changevars e fv vs x.1) = x.2 → ∃ g, lop x.1 (changevars e fv vs) = Some g ∧ length g = x.2 ∧ partials f (changevars e fv vs) x.1 g) →
  ∃ F G, scipy_problem f lop e fv = Some (F, G) ∧ lines_up F vs (G vs).
Proof. exact (gradient_lines_up f lop e fv vs). Qed.
Print Assumptions C69_gradient_partial.
Example C69_gradient_case : let fv := [(0, 1); (1, 1)] in let vs := [2; 5]%R in NoDup fv.*1 ∧ length vs = foldr Nat.add 0 fv.*2 ∧
  ∀ x, x ∈ fv → length (changevars zero_env fv vs x.1) = x.2 → ∃ g, lop_both x.1 (changevars zero_env fv vs) = Some g ∧ length g = x.2 ∧ partials f_both (changevars zero_env fv vs) x.1 g.
Proof. exact both_case. Qed.

(** C69. The starting vector is where the variables are, and what is assigned is read back. *)
Theorem C69_vector (e : env) (fv : variables) (vs : list R) : NoDup fv.*1 → length vs = foldr Nat.add 0 fv.*2 → (∀ x, x ∈ fv → length (e x.1) = x.2) →
  changevars e fv (vector e fv) = e ∧ vector (changevars e fv vs) fv = vs.
Proof. exact (λ H1 H2 H3, conj (change_start fv e H3) (change_back fv e vs H1 H2)). Qed.
Print Assumptions C69_vector.
Example C69_vector_case : let fv := [(0, 1); (1, 1)] in NoDup fv.*1 ∧ length [2; 5]%R = foldr Nat.add 0 fv.*2 ∧ ∀ x, x ∈ fv → length (zero_env x.1) = x.2.
Proof. split_and!; [apply both_case|done|]. intros x Hx. apply elem_of_cons in Hx as [->|Hx]; [done|]. by apply elem_of_list_singleton in Hx as ->. Qed.

(* ------------------------------------------------------------------ *)
(** C69 is false of variables without influence: the gradient has one entry, None, for all
    their elements. *)
Theorem C69_influence_refuted : ∃ f lop e fv vs F G, NoDup fv.*1 ∧ length vs = foldr Nat.add 0 fv.*2 ∧
  (∀ x, x ∈ fv → (∃ g, lop x.1 (changevars e fv vs) = Some g ∧ partials f (changevars e fv vs) x.1 g) ∨ (lop x.1 (changevars e fv vs) = None ∧ indifferent f x.1)) ∧
  scipy_problem f lop e fv = Some (F, G) ∧ G vs = [Some 1%R; None] ∧ length vs = 3 ∧ ¬ lines_up F vs (G vs).
Proof. exact no_influence. Qed.
Print Assumptions C69_influence_refuted.

(** C69 is false of variables listed twice, which dogleg refuses and the other methods take:
    the derivative is given in both places, but only the last place counts. *)
Theorem C69_twice_refuted : ∃ f lop e fv vs F G, dogleg_accepts fv = false ∧ length vs = foldr Nat.add 0 fv.*2 ∧
  (∀ x, x ∈ fv → ∃ g, lop x.1 (changevars e fv vs) = Some g ∧ length g = x.2 ∧ partials f (changevars e fv vs) x.1 g) ∧
  scipy_problem f lop e fv = Some (F, G) ∧ ¬ lines_up F vs (G vs).
Proof. exact twice. Qed.
Print Assumptions C69_twice_refuted.
