(** Property theorem file: nothing but the statements. *)
From Coq Require Import Reals.
From stdpp Require Import list list_numbers numbers gmap.
From Verif Require Import ArrModel Curve ElemModel ElemSpec StepModel StepSpec StepThms StepDemo.

(** C53. floor, ceil and sign, element by element. *)
Theorem C53_step_value f a : sh (step_r f a) = sh a ∧ ∀ ix, inside (sh a) ix → step_of f (at_ a ix) (at_ (step_r f a) ix).
Proof. exact (step_value f a). Qed.
Print Assumptions C53_step_value.
Example C53_floor_case : floor_case. Proof. exact floor_case_ok. Qed.
(** The comparisons, with broadcasting. *)
Theorem C53_cmp_value f a b out ix : bshape (sh a) (sh b) = Some out → inside out ix → sh (cmp_r f a b) = out ∧
  ∃ jx kx, feeds (sh a) ix jx ∧ feeds (sh b) ix kx ∧ inside (sh a) jx ∧ inside (sh b) kx ∧
    (holds f (at_ a jx) (at_ b kx) → at_ (cmp_r f a b) ix = 1%R) ∧ (¬ holds f (at_ a jx) (at_ b kx) → at_ (cmp_r f a b) ix = 0%R).
Proof. exact (cmp_value f a b out ix). Qed.
Print Assumptions C53_cmp_value.
(** They return no derivative (which dr_wrt takes for zero); wherever the value changes
    differentiably, it does not change. *)
Theorem C53_step_flat f u w : amoves (λ t, step_r f (u t)) w → (∀ t, step_jac f (u t) = None) ∧ ∀ i, w i = 0%R.
Proof. intros H. exact (conj (λ t, eq_refl) (step_flat f u w H)). Qed.
Print Assumptions C53_step_flat.
Theorem C53_cmp_flat f u z w : amoves (λ t, cmp_r f (u t) (z t)) w → (∀ wa wb t, cmp_jac f wa wb (u t) (z t) = None) ∧ ∀ i, w i = 0%R.
Proof. intros H. exact (conj (λ _ _ _, eq_refl) (cmp_flat f u z w H)). Qed.
Print Assumptions C53_cmp_flat.
(** ... and that is everywhere except at the jumps. *)
Theorem C53_step_derivative f a : (∀ i, i < asize a → ¬ jumps f (dat a i)) → diff1 (step_r f) (zero_jac (asize a) (asize a)) a.
Proof. exact (step_diff f a). Qed.
Print Assumptions C53_step_derivative.
Example C53_step_case : calm_case. Proof. exact calm_case_ok. Qed.
Theorem C53_cmp_derivative f a b out : bshape (sh a) (sh b) = Some out → meeting (λ x y, x ≠ y) a b →
  diff2 (cmp_r f) (zero_jac (size out) (asize a)) (zero_jac (size out) (asize b)) a b.
Proof. exact (cmp_diff f a b out). Qed.
Print Assumptions C53_cmp_derivative.
Example C53_cmp_case : cmp_case. Proof. exact cmp_case_ok. Qed.

(** C53. NanDivide: the quotient, or 0. *)
Theorem C53_nandivide_value a b out ix : bshape (sh a) (sh b) = Some out → inside out ix → sh (nandiv_r a b) = out ∧
  ∃ jx kx, feeds (sh a) ix jx ∧ feeds (sh b) ix kx ∧ inside (sh a) jx ∧ inside (sh b) kx ∧
    (at_ b kx = 0%R → at_ (nandiv_r a b) ix = 0%R) ∧ (at_ b kx ≠ 0%R → (at_ (nandiv_r a b) ix * at_ b kx = at_ a jx)%R).
Proof. exact (nandiv_value a b out ix). Qed.
Print Assumptions C53_nandivide_value.
Example C53_nandivide_case : nan_case. Proof. exact nan_case_ok. Qed.
(** Its Jacobians are the derivatives if no divisor is 0, ... *)
Theorem C53_nandivide_jacobian a b out : bshape (sh a) (sh b) = Some out → meeting (λ _ y, y ≠ 0%R) a b →
  ∃ Ja Jb, nandiv_jac true false a b = Some Ja ∧ nandiv_jac false true a b = Some Jb ∧
    fits Ja (size out) (asize a) ∧ fits Jb (size out) (asize b) ∧ diff2 nandiv_r Ja Jb a b.
Proof. exact (nandiv_jacobian a b out). Qed.
Print Assumptions C53_nandivide_jacobian.
(** ... the one with respect to the numerator even if some are, ... *)
Theorem C53_nandivide_numerator a b out : bshape (sh a) (sh b) = Some out →
  ∃ J, nandiv_jac true false a b = Some J ∧ fits J (size out) (asize a) ∧ diff1 (λ x, nandiv_r x b) J a.
Proof. exact (nandiv_numerator a b out). Qed.
Print Assumptions C53_nandivide_numerator.
(** ... and that of x / x, which is none. *)
Theorem C53_nandivide_same a : (∀ i, i < asize a → dat a i ≠ 0%R) →
  nandiv_jac true true a a = None ∧ diff1 (λ x, nandiv_r x x) (zero_jac (asize a) (asize a)) a.
Proof. exact (nandiv_same a). Qed.
Print Assumptions C53_nandivide_same.
Example C53_nandivide_calm : nan_calm_case. Proof. exact nan_calm_case_ok. Qed.
