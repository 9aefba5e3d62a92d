(** Property C32: inverses and determinants. *)
From Coq Require Import Reals Lra.
From stdpp Require Import gmap strings list list_numbers numbers.
From Verif Require Import EngineModel EngineSpec GraphSpec ArrModel Curve ArrThms ElemModel ReorderModel NpModel NpSpec
  DotModel LinModel LinSpec LinThms LinJac LinOps.

(** C32. The model's determinant is the one function that is linear in each row, zero for
    equal rows, and one at the identity matrix. *)
Theorem C32_determinant n : is_determinant n (detn n) ∧ ∀ F, is_determinant n F → ∀ A, F A = detn n A.
Proof.
  exact (conj (conj (det_alternating n) (det_one n)) (λ F HF A, eq_trans (alternating_det n F A (proj1 HF)) (eq_trans (f_equal (Rmult (detn n A)) (proj2 HF)) (Rmult_1_r _)))).
Qed.
Print Assumptions C32_determinant.
(** det has a value for every square matrix, its determinant. *)
Theorem C32_det_value a : (∀ d, np_det a = Some d → ∃ n, sh a = [n; n] ∧ sh d = [] ∧
  (∃ F, is_determinant n F) ∧ ∀ F, is_determinant n F → dat d 0 = F (matrix_at a [])) ∧ ((∃ n, sh a = [n; n]) → is_Some (np_det a)).
Proof. exact (det_value a). Qed.
Print Assumptions C32_det_value.
(** inv of an array of matrices is the array of their inverses, and raises exactly if one
    of them has none. *)
Theorem C32_inv_value a y : np_inv a = Some y → ∃ pre n, sh a = pre ++ [n; n] ∧ sh y = sh a ∧
  ∀ ix, inside pre ix → is_inverse n (matrix_at a ix) (matrix_at y ix).
Proof. exact (inv_value a y). Qed.
Print Assumptions C32_inv_value.
Theorem C32_inv_raises a : np_inv a = None ↔ ¬ ∃ pre n, sh a = pre ++ [n; n] ∧ ∀ ix, inside pre ix → ∃ X, is_inverse n (matrix_at a ix) X.
Proof. exact (inv_none a). Qed.
Print Assumptions C32_inv_raises.
(** The Jacobian of inv is its derivative at every invertible matrix and every nonempty
    array of invertible matrices. *)
Theorem C32_inv_jacobian a y : np_inv a = Some y → length (sh a) = 2 ∨ 0 < asize a →
  ∃ J, inv_jac a = Some J ∧ fits J (asize y) (asize a) ∧ diff1 (λ x, default x (np_inv x)) J a.
Proof. exact (inv_right a y). Qed.
Print Assumptions C32_inv_jacobian.
(** The Jacobian of det is its derivative at every invertible matrix. *)
Theorem C32_det_jacobian a d : np_det a = Some d → is_Some (np_inv a) → ∃ J, det_jac a = Some J ∧ fits J (asize d) (asize a) ∧ diff1 (λ x, default x (np_det x)) J a.
Proof. exact (det_right a d). Qed.
Print Assumptions C32_det_jacobian.
Example C32_case : is_Some (np_det m22) ∧ length (sh m22) = 2 ∧ ∃ y, np_inv m22 = Some y ∧ elems y = [1; -1; -1; 2]%R.
Proof. split_and!; [by eexists|done|exact m22_inverse]. Qed.
(** At a singular matrix det's Jacobian raises, although det is differentiable there. *)
Theorem C32_singular_refuted : ∃ a d, np_det a = Some d ∧ det_jac a = None ∧ ∃ J, diff1 (λ x, default x (np_det x)) J a.
Proof. exact det_singular. Qed.
Print Assumptions C32_singular_refuted.
(** slogdet: the logarithm of the absolute value of the determinant, and its Jacobian; the
    sign does not change near an invertible matrix. *)
Theorem C32_logdet_value a : (∀ d, np_logdet a = Some d → ∃ n, sh a = [n; n] ∧ sh d = [] ∧ (∃ F, is_determinant n F) ∧ ∀ F, is_determinant n F → F (matrix_at a []) ≠ 0%R ∧ dat d 0 = ln (Rabs (F (matrix_at a []))))
  ∧ ((∃ n X, sh a = [n; n] ∧ is_inverse n (matrix_at a []) X) → is_Some (np_logdet a)).
Proof. exact (logdet_value a). Qed.
Print Assumptions C32_logdet_value.
Theorem C32_logdet_jacobian a d : np_logdet a = Some d → ∃ J, logdet_jac a = Some J ∧ fits J (asize d) (asize a) ∧ diff1 (λ x, default x (np_logdet x)) J a.
Proof. exact (logdet_right a d). Qed.
Print Assumptions C32_logdet_jacobian.
Theorem C32_sign_value a : (∀ d, np_detsign a = Some d → ∃ n, sh a = [n; n] ∧ sh d = [] ∧ (∃ F, is_determinant n F) ∧ ∀ F, is_determinant n F →
    (0 < F (matrix_at a []) → dat d 0 = 1)%R ∧ (F (matrix_at a []) < 0 → dat d 0 = -1)%R ∧ (F (matrix_at a []) = 0 → dat d 0 = 0)%R)
  ∧ ((∃ n, sh a = [n; n]) → is_Some (np_detsign a)).
Proof. exact (detsign_value a). Qed.
Print Assumptions C32_sign_value.
Theorem C32_sign_constant a d : np_detsign a = Some d → is_Some (np_inv a) →
  ∀ u v, u 0%R = a → amoves u v → amoves (λ s, default (u s) (np_detsign (u s))) (λ _, 0%R).
Proof. exact (detsign_right a d). Qed.
Print Assumptions C32_sign_constant.
Example C32_logdet_case : is_Some (np_logdet m22) ∧ is_Some (np_detsign m22).
Proof. split; [|by eexists]. rewrite (np_logdet_some m22 2); [by eexists|done|]. rewrite det22. simpl. lra. Qed.
(** C19_dr_wrt_is_jacobian_arrays applies to graphs with these classes. *)
Theorem C19_inv_is_right (g : graph) x c q a y : g !! x = Some c → c_cls nplib c = NOp op_inv → c_dt nplib c = ["a"]%string → c_tm nplib c = [] →
  c_attr nplib c !! "a"%string = Some (@ARef nplib q) → denotes nplib g q QR a → np_inv a = Some y → length (sh a) = 2 ∨ 0 < asize a → fine_at g x.
Proof. exact (fine_inv g x c q a y). Qed.
Print Assumptions C19_inv_is_right.
Theorem C19_det_is_right (g : graph) x c q a d : g !! x = Some c → c_cls nplib c = NOp op_det → c_dt nplib c = ["x"]%string → c_tm nplib c = [] →
  c_attr nplib c !! "x"%string = Some (@ARef nplib q) → denotes nplib g q QR a → np_det a = Some d → is_Some (np_inv a) → fine_at g x.
Proof. exact (fine_det g x c q a d). Qed.
Print Assumptions C19_det_is_right.
Theorem C19_logdet_is_right (g : graph) x c q a d : g !! x = Some c → c_cls nplib c = NOp op_logdet → c_dt nplib c = ["x"]%string → c_tm nplib c = [] →
  c_attr nplib c !! "x"%string = Some (@ARef nplib q) → denotes nplib g q QR a → np_logdet a = Some d → fine_at g x.
Proof. exact (fine_logdet g x c q a d). Qed.
Print Assumptions C19_logdet_is_right.
