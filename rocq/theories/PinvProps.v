(** Property theorem file: nothing but the statements. *)
From Coq Require Import Reals Lra.
From stdpp Require Import list list_numbers numbers gmap.
From Verif Require Import ArrModel Curve ElemModel ReorderModel DotModel LinModel LinSpec PinvModel PinvSpec PinvArr PinvJac PinvDemo.

(** C51. pinv(a) is the Moore-Penrose inverse of a, of which there is only one. *)
Theorem C51_pinv_value a y : pinv_r a = Some y → ∃ m n, sh a = [m; n] ∧ sh y = [n; m] ∧
  moore_penrose m n (matrix_at a []) (matrix_at y []) ∧
  ∀ Q, moore_penrose m n (matrix_at a []) Q → ∀ i j, i < n → j < m → Q i j = matrix_at y [] i j.
Proof. exact (pinv_value a y). Qed.
Print Assumptions C51_pinv_value.
(** It raises LinAlgError exactly if the matrix does not have full rank. *)
Theorem C51_pinv_raises a m n : sh a = [m; n] →
  pinv_r a = None ↔ if decide (m < n) then rows_dependent m n (matrix_at a []) else columns_dependent m n (matrix_at a []).
Proof. exact (pinv_raises a m n). Qed.
Print Assumptions C51_pinv_raises.
Example C51_case : pinv_case. Proof. exact pinv_case_ok. Qed.
Example C51_raises_case : pinv_none_case. Proof. exact pinv_none_ok. Qed.
(** Its Jacobian is the derivative. *)
Theorem C51_pinv_jacobian a y : pinv_r a = Some y → 0 < asize a →
  ∃ J, pinv_jac a = Some J ∧ fits J (asize y) (asize a) ∧ diff1 (λ x, default x (pinv_r x)) J a.
Proof. exact (pinv_jacobian a y). Qed.
Print Assumptions C51_pinv_jacobian.

(** C51. lstsq(a, b): each column of x minimises the distance of a x from that column of
    b, and is the shortest such vector; the residuals are the squared distances. *)
Theorem C51_lstsq a b x m n : sh a = [m; n] → sh b = [m] ∨ (∃ k, sh b = [m; k]) → lstsq_x a b = Some x →
  columns x = columns b ∧ sh x = n :: drop 1 (sh b) ∧
  ∀ c y, c < columns b →
    (misfit m n (matrix_at a []) (column b c) (column x c) <= misfit m n (matrix_at a []) (column b c) y)%R ∧
    (misfit m n (matrix_at a []) (column b c) y = misfit m n (matrix_at a []) (column b c) (column x c) → (sq n (column x c) <= sq n y)%R).
Proof. exact (lstsq_least a b x m n). Qed.
Print Assumptions C51_lstsq.
Theorem C51_residuals a b x m n : sh a = [m; n] → sh b = [m] ∨ (∃ k, sh b = [m; k]) → lstsq_x a b = Some x →
  ∃ r, lstsq_res a b = Some r ∧ sh r = drop 1 (sh b) ∧
    ∀ c, c < columns b → dat r c = misfit m n (matrix_at a []) (column b c) (column x c).
Proof. exact (lstsq_residuals a b x m n). Qed.
Print Assumptions C51_residuals.
Theorem C51_lstsq_jacobian a b x : lstsq_x a b = Some x → 0 < asize a → length (sh b) ≤ 2 →
  ∃ Ja Jb, lstsq_jac true a b = Some Ja ∧ lstsq_jac false a b = Some Jb ∧ fits Ja (asize x) (asize a) ∧ fits Jb (asize x) (asize b) ∧
    diff2 (λ u v, default u (lstsq_x u v)) Ja Jb a b.
Proof. exact (lstsq_jacobian a b x). Qed.
Print Assumptions C51_lstsq_jacobian.
Example C51_lstsq_case : line_case. Proof. exact line_case_ok. Qed.

(** C51. norm(x) is the root of the sum of the squares; its Jacobian is the derivative
    wherever some element is not 0. *)
Theorem C51_norm a : sh a ≠ [] → ∃ y, norm_r a = Some y ∧ sh y = [1] ∧ dat y 0 = R_sqrt.sqrt (rsum ((λ x, x * x)%R <$> elems a)).
Proof. exact (norm_value a). Qed.
Print Assumptions C51_norm.
Theorem C51_norm_jacobian a : sh a ≠ [] → (∃ x, x ∈ elems a ∧ x ≠ 0%R) →
  ∃ J, norm_jac a = Some J ∧ fits J 1 (asize a) ∧ diff1 (λ x, default x (norm_r x)) J a.
Proof. exact (norm_jacobian a). Qed.
Print Assumptions C51_norm_jacobian.
Example C51_norm_case : norm_case. Proof. exact norm_case_ok. Qed.
