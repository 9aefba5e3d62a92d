(** C61: missing values. *)
From Coq Require Import Reals.
From stdpp Require Import list list_numbers numbers gmap.
From Verif Require Import ArrModel Curve ElemModel ElemSpec ReorderModel ReorderSpec RedModel RedSpec NanModel NanSpec NanThms.

(** nanmax and nanmin: the extreme value of the elements that are not NaN; NaN if there are none. *)
Theorem C61_nan_value mx ax a y : e_r true mx ax a = Some y → reduced ax (sh a) (sh y) ∧ ∀ i l, i < asize y → gathers ax (sh a) i l →
  ((∃ q, q ∈ l ∧ dat a q ≠ NaN) → ∃ p, extreme_known mx a l p ∧ dat y i = dat a p) ∧ ((∀ q, q ∈ l → dat a q = NaN) → dat y i = NaN).
Proof. exact (value_right mx ax a y). Qed.
Print Assumptions C61_nan_value.
(** If every part has an element that is not NaN there is a Jacobian; its 1 is at the extreme
    element, unless this is the least extreme value there is (see C61_infinite_refuted). *)
Theorem C61_nan_jacobian_partial mx ax a y : e_r true mx ax a = Some y → some_known ax a (asize y) → ∃ J, e_jac true mx ax a = Some J ∧ fits J (asize y) (asize a) ∧
  ∀ i l p q, i < asize y → gathers ax (sh a) i l → extreme_known mx a l p → ¬ hopeless mx (dat a p) → entry J i q = if decide (q = p) then 1%R else 0%R.
Proof. exact (known_jac mx ax a y). Qed.
Print Assumptions C61_nan_jacobian_partial.
(** It is the derivative if numbers that are extreme are attained once. *)
Theorem C61_nan_derivative_partial mx ax a y J : e_r true mx ax a = Some y → some_known ax a (asize y) → sole_known mx ax a → e_jac true mx ax a = Some J →
  ediff (λ x, default x (e_r true mx ax x)) J a.
Proof. exact (known_diff mx ax a y J). Qed.
Print Assumptions C61_nan_derivative_partial.
Example C61_nan_case : let a := of_list NaN [2; 2] [NaN; Num 3; Num 5; Num 4] in ∃ y, e_r true true (Some 1%Z) a = Some y ∧ asize y = 2 ∧
  some_known (Some 1%Z) a 2 ∧ extreme_known true a [2; 3] 2 ∧ gathers (Some 1%Z) [2; 2] 1 [2; 3] ∧ ¬ hopeless true (dat a 2) ∧ sole_known true (Some 1%Z) a.
Proof. exact known_case. Qed.

(** Refuted: with a part that is all NaN the value is NaN there, but the derivative cannot be
    asked for, not even for the other parts. *)
Theorem C61_all_nan_refuted mx ax a y i l : e_r true mx ax a = Some y → i < asize y → gathers ax (sh a) i l → (∀ q, q ∈ l → dat a q = NaN) →
  dat y i = NaN ∧ e_jac true mx ax a = None.
Proof. exact (known_raises mx ax a y i l). Qed.
Print Assumptions C61_all_nan_refuted.
Example C61_all_nan_case : let a := of_list NaN [2; 2] [NaN; NaN; Num 1; Num 2] in ∃ y, e_r true true (Some 1%Z) a = Some y ∧ asize y = 2 ∧
  gathers (Some 1%Z) [2; 2] 0 [0; 1] ∧ (∀ q, q ∈ [0; 1] → dat a q = NaN) ∧ dat y 1 ≠ NaN.
Proof. exact all_nan_case. Qed.
(** Refuted: nanmax of NaN and minus infinity; the 1 is at the NaN. *)
Theorem C61_infinite_refuted : ∃ y J, e_r true true None (two NaN NInf) = Some y ∧ dat y 0 = NInf ∧ e_jac true true None (two NaN NInf) = Some J ∧
  gathers None [2] 0 [0; 1] ∧ extreme_known true (two NaN NInf) [0; 1] 1 ∧ entry J 0 1 = 0%R ∧ entry J 0 0 = 1%R.
Proof. exact hopeless_case. Qed.
Print Assumptions C61_infinite_refuted.

(** amax and amin: NaN if there is one among the elements, else the extreme value. *)
Theorem C61_strict_value mx ax a y : e_r false mx ax a = Some y → reduced ax (sh a) (sh y) ∧ ∀ i l, i < asize y → gathers ax (sh a) i l →
  ((∃ q, q ∈ l ∧ dat a q = NaN) → dat y i = NaN) ∧ ((∀ q, q ∈ l → dat a q ≠ NaN) → ∃ p, extreme_known mx a l p ∧ dat y i = dat a p).
Proof. exact (strict_right mx ax a y). Qed.
Print Assumptions C61_strict_value.
Theorem C61_strict_jacobian mx ax a y : e_r false mx ax a = Some y → ∃ J, e_jac false mx ax a = Some J ∧ fits J (asize y) (asize a) ∧
  ∀ i l p q, i < asize y → gathers ax (sh a) i l → first_nan a l p ∨ ((∀ q, q ∈ l → dat a q ≠ NaN) ∧ extreme_known mx a l p) → entry J i q = if decide (q = p) then 1%R else 0%R.
Proof. exact (strict_jac mx ax a y). Qed.
Print Assumptions C61_strict_jacobian.
Theorem C61_strict_derivative mx ax a y J : e_r false mx ax a = Some y → sole_known mx ax a → e_jac false mx ax a = Some J →
  ediff (λ x, default x (e_r false mx ax x)) J a.
Proof. exact (strict_diff mx ax a y J). Qed.
Print Assumptions C61_strict_derivative.
Example C61_strict_case : let a := two NaN (Num 2) in ∃ y, e_r false true None a = Some y ∧ first_nan a [0; 1] 0 ∧ gathers None [2] 0 [0; 1] ∧ sole_known true None a.
Proof. exact strict_case. Qed.

(** nan_to_num. Shapes for which derivatives of elementwise functions are no square
    matrices are left out (C24). *)
Theorem C61_nan_to_num_value a : sh (n2n_r a) = sh a ∧ ∀ i, match dat a i with
  | Num x => dat (n2n_r a) i = Num x
  | PInf => dat (n2n_r a) i = Num biggest_double
  | NInf => dat (n2n_r a) i = Num (- biggest_double)
  | NaN => dat (n2n_r a) i = Num 0
  end.
Proof. exact (n2n_value a). Qed.
Print Assumptions C61_nan_to_num_value.
Theorem C61_nan_to_num_partial a : unary_shape (sh a) → ∃ J, n2n_jac a = Some J ∧ fits J (asize a) (asize a) ∧
  (∀ i j, i < asize a → entry J i j = match dat a i with Num _ => if decide (j = i) then 1%R else 0%R | _ => 0%R end) ∧ ediff n2n_r J a.
Proof. exact (n2n_right a). Qed.
Print Assumptions C61_nan_to_num_partial.
Example C61_nan_to_num_case : unary_shape (sh (two NaN (Num 2))).
Proof. exact n2n_case. Qed.
