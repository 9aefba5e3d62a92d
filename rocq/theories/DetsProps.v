(** C70: determinants of several matrices at once. *)
From Coq Require Import Reals Lra.
From stdpp Require Import list numbers.
From Verif Require Import ArrModel Curve LinModel LinSpec LinThms LinJac LinOps DetsModel DetsThms.

(** C70. The determinants of an array of matrices, each in its place. *)
Theorem C70_values (a : arr R) : (∀ d, np_dets a = Some d → ∃ pre n, sh a = pre ++ [n; n] ∧ sh d = pre ∧ (∃ F, is_determinant n F) ∧
    ∀ F ix, is_determinant n F → inside pre ix → at_ d ix = F (matrix_at a ix)) ∧
  ((∃ pre n, sh a = pre ++ [n; n]) → is_Some (np_dets a)).
Proof. exact (dets_value a). Qed.
Print Assumptions C70_values.
Example C70_values_case : ∃ pre n, sh two_ones = pre ++ [n; n] ∧ size pre = 2.
Proof. by exists [2], 1. Qed.

(** C70. The logarithms of their absolute values, when none of them is zero. *)
Theorem C70_logarithms (a : arr R) : (∀ d, np_logdets a = Some d → ∃ pre n, sh a = pre ++ [n; n] ∧ sh d = pre ∧ (∃ F, is_determinant n F) ∧
    ∀ F ix, is_determinant n F → inside pre ix → F (matrix_at a ix) ≠ 0%R ∧ at_ d ix = ln (Rabs (F (matrix_at a ix)))) ∧
  (∀ pre n F, sh a = pre ++ [n; n] → is_determinant n F → (∀ ix, inside pre ix → F (matrix_at a ix) ≠ 0%R) → is_Some (np_logdets a)).
Proof. exact (logs_value a). Qed.
Print Assumptions C70_logarithms.
Example C70_logarithms_case : ∃ d, np_logdets two_ones = Some d ∧ asize d = 2.
Proof. rewrite (logs_some two_ones [2] 1 eq_refl); [by eexists|]. intros t Ht. simpl in Ht.
  assert (t = 0 ∨ t = 1) as [->| ->] by lia; unfold detn, two_ones, blk, rsum; simpl; lra. Qed.

(** C70 for an array of one matrix: the Jacobians are right. *)
Theorem C70_one_partial (a : arr R) (n : nat) : sh a = [1; n; n] → is_Some (np_inv a) →
  (∃ d J, np_dets a = Some d ∧ dets_jac a = Some J ∧ fits J (asize d) (asize a) ∧ diff1 (λ x, default x (np_dets x)) J a) ∧
  ∃ d J, np_logdets a = Some d ∧ logdets_jac a = Some J ∧ fits J (asize d) (asize a) ∧ diff1 (λ x, default x (np_logdets x)) J a.
Proof. exact (one_matrix a n). Qed.
Print Assumptions C70_one_partial.
Example C70_one_case : let a := of_list 0%R [1; 2; 2] [2; 1; 1; 1]%R in sh a = [1; 2; 2] ∧ is_Some (np_inv a).
Proof. split; [done|]. destruct (LinJac.np_inv_some (of_list 0%R [1; 2; 2] [2; 1; 1; 1]%R) [1] 2 eq_refl) as (y & Hy & _); [|by exists y].
  intros t Ht. simpl in Ht. assert (t = 0) as -> by lia. rewrite LinOps.det22. simpl. lra. Qed.

(* ------------------------------------------------------------------ *)
(** C70 is false of the Jacobians: they have one row, whatever the number of matrices. *)
Theorem C70_rows_refuted : (∀ a J, dets_jac a = Some J ∨ logdets_jac a = Some J → nrow J = 1) ∧
  ∃ a d J l K, (∀ ix, inside [2] ix → ∃ X, is_inverse 1 (matrix_at a ix) X) ∧ sh a = [2; 1; 1] ∧
  np_dets a = Some d ∧ dets_jac a = Some J ∧ np_logdets a = Some l ∧ logdets_jac a = Some K ∧
  asize d = 2 ∧ nrow J = 1 ∧ asize l = 2 ∧ nrow K = 1.
Proof. exact (conj one_row two_rows). Qed.
Print Assumptions C70_rows_refuted.

(** C70 is false of slogdet of several matrices: it raises, whatever they are. *)
Theorem C70_several_refuted : (∀ l, length l ≠ 1 → Forall (λ a, length (sh a) = 2) l → slogdet l = None) ∧
  ∃ l, length l = 2 ∧ Forall (λ a, length (sh a) = 2 ∧ is_Some (np_logdets a)) l ∧ slogdet l = None.
Proof. exact (conj several (ex_intro _ [LinOps.m22; LinOps.m22] several_case)). Qed.
Print Assumptions C70_several_refuted.
