(** C57: moments and standard deviations. *)
From Coq Require Import Reals Lra.
From stdpp Require Import list list_numbers numbers.
From Verif Require Import ArrModel Curve ElemModel ElemThms ReorderModel ReorderSpec RedModel RedSpec MomModel MomSpec MomThms.

(** moment(a, k, axis) of an array of two or more dimensions is the array of central
    moments, … *)
Theorem C57_moment_partial k ax a j : 2 ≤ length (sh a) → axis_is (length (sh a)) ax j →
  ∃ y, moment_r k ax a = Some (Obj y) ∧ is_moment k ax a y.
Proof. exact (moment_value k ax a j). Qed.
Print Assumptions C57_moment_partial.
(** … which [is_moment] determines; … *)
Theorem C57_moment_unique k ax a y z : is_moment k ax a y → is_moment k ax a z → aeq y z.
Proof. exact (moment_unique k ax a y z). Qed.
Print Assumptions C57_moment_unique.
(** … it raises when there is no such axis. *)
Theorem C57_moment_raises k ax a : (∀ j, ¬ axis_is (length (sh a)) ax j) → moment_r k ax a = None.
Proof. exact (moment_raises k ax a). Qed.
Print Assumptions C57_moment_raises.
Example C57_moment_case : let a := of_list 0%R [2; 3] [1; 2; 3; 5; 6; 9]%R in 2 ≤ length (sh a) ∧ axis_is (length (sh a)) (-2) 0 ∧
  ∃ y, moment_r 2 (-2) a = Some (Obj y) ∧ sh y = [3] ∧ dat y 2 = 9%R.
Proof.
  cbv zeta. split_and!; [simpl; lia|split; simpl; lia|]. eexists. split; [reflexivity|]. split; [reflexivity|].
  simpl. unfold rsum. simpl. change (1 + 1)%R with (INR 2). rewrite !npower_nat. simpl. field.
Qed.

(** The derivative is right whatever the shape and axis. *)
Theorem C57_moment_jacobian k ax a y : k ≠ 1 → moment_r k ax a = Some (Obj y) →
  ∃ J, central_jac k ax a = Some J ∧ fits J (asize y) (asize a) ∧ diff1 (λ x, default x (central_r k ax x)) J a ∧ central_r k ax a = Some y.
Proof. exact (moment_right k ax a y). Qed.
Print Assumptions C57_moment_jacobian.
Example C57_jacobian_case : ∃ y, moment_r 3 1 (of_list 0%R [2; 3] [1; 2; 3; 5; 6; 9]%R) = Some (Obj y) ∧ sh y = [2].
Proof. eexists. split; reflexivity. Qed.

(** Vectors: right along axis -1; … *)
Theorem C57_vector k n d : k ≠ 1 → ∃ y, moment_r k (-1) (Arr_ [n] d) = Some (Obj y) ∧ is_moment k (-1) (Arr_ [n] d) y.
Proof. exact (vector_last k n d). Qed.
Print Assumptions C57_vector.
(** … along axis 0, the default, the powers are not averaged; … *)
Theorem C57_vector_refuted k n d : k ≠ 1 → n ≠ 1 → ∃ y, moment_r k 0 (Arr_ [n] d) = Some (Obj y) ∧ sh y = [n] ∧
  (∀ i, i < n → dat y i = ((d i - average (d <$> seq 0 n)) ^ k)%R) ∧ ¬ is_moment k 0 (Arr_ [n] d) y.
Proof. exact (vector_first k n d). Qed.
Print Assumptions C57_vector_refuted.
(** … and the first moment is not an object. *)
Theorem C57_first_refuted ax n d : ax = 0%Z ∨ ax = (-1)%Z → moment_r 1 ax (Arr_ [n] d) = Some (Plain 0) ∧
  ∀ y, moment_r 1 ax (Arr_ [n] d) ≠ Some (Obj y).
Proof. exact (first_plain ax n d). Qed.
Print Assumptions C57_first_refuted.

(** std takes the mean of the squares instead of the second central moment: it is right
    where the mean is zero, and refuted in general. *)
Theorem C57_std_value ax a y : sh a ≠ [] → std_r ax a = Some y → ∃ s, reduced ax (sh a) s ∧ sh y = (if decide (s = []) then [1] else s) ∧
  ∀ i, i < size s → ∃ l, gathers ax (sh a) i l ∧
    dat y i = R_sqrt.sqrt (central 2 (dat a <$> l) + average (dat a <$> l) * average (dat a <$> l))%R.
Proof. exact (std_value ax a y). Qed.
Print Assumptions C57_std_value.
Theorem C57_std_refuted : ∃ a y, std_r None a = Some y ∧ dat y 0 ≠ R_sqrt.sqrt (central 2 (elems a)).
Proof. exact std_wrong. Qed.
Print Assumptions C57_std_refuted.
Example C57_std_case : let a := of_list 0%R [2; 2] [1; -1; 4; -4]%R in sh a ≠ [] ∧ ∃ y, std_r (Some 1%Z) a = Some y ∧ sh y = [2].
Proof. split; [done|]. eexists. split; reflexivity. Qed.

(** gamma's Jacobian is the derivative, given that scipy's digamma is Γ'/Γ. *)
Theorem C57_gamma G psi a : (∀ i, i < asize a → derivable_pt_lim G (dat a i) (psi (dat a i) * G (dat a i))%R) →
  sh (gamma_r G a) = sh a ∧ (∀ i, dat (gamma_r G a) i = G (dat a i)) ∧ fits (gamma_jac G psi a) (asize a) (asize a) ∧
  (∀ i j, i < asize a → entry (gamma_jac G psi a) i j = if decide (j = i) then (psi (dat a i) * G (dat a i))%R else 0%R) ∧
  diff1 (gamma_r G) (gamma_jac G psi a) a.
Proof. exact (gamma_right G psi a). Qed.
Print Assumptions C57_gamma.
Example C57_gamma_case : ∀ i, i < 2 → let a := of_list 0%R [2] [1; 2]%R in derivable_pt_lim exp (dat a i) (1 * exp (dat a i))%R.
Proof. intros i _ a. rewrite Rmult_1_l. apply derivable_pt_lim_exp. Qed.
