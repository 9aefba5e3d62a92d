(** Property C49: derivatives and the formats Jacobians are stored in. *)
From Coq Require Import Reals Lra.
From stdpp Require Import gmap list list_numbers.
From Verif Require Import ArrModel ElemModel RepModel RepSpec RepThms RepSum RepGraph RepDemo RepOpsSpec RepOps.

(** C49. _superdot multiplies matrices in any combination of formats, numbers standing
    for multiples of the identity, and does not raise. *)
Theorem C49_product a b n k m A B : means a n k A → means b k m B →
  ∃ r, superdot a b = Some r ∧ means r n m (mmult k A B).
Proof. exact (superdot_means a b n k m A B). Qed.
Print Assumptions C49_product.
(** An operator times a dense matrix, and a number times a sparse one. *)
Example C49_product_case : means op_id 2 2 (mscal 1) ∧ means (Arr (full [2; 3] 5%R)) 2 3 (λ _ _, 5%R) ∧
  means (Num 2) 2 2 (mscal 2) ∧ means sp_id 2 2 (mscal 1).
Proof.
  split_and!.
  - left; left. apply id_is.
  - left; left. by split.
  - right. split; [done|]. exists 2%R. split; [done|]. by intros ? ? ? ?.
  - left; left. split_and!; by try intros ? ? ? ?.
Qed.

(** C49. Forward mode: whatever dr_wrt returns is the matrix of the chain rule in its full
    shape, for dense and sparse Jacobians and handles in any combination, except for an
    object that only hands on the variable (see C49_handle_refuted).  LinearOperators are
    excluded here (see C49_operators_partial, C49_operators_refuted). *)
Theorem C49_forward_partial (g : rgraph) size w J T : sound_graph g → chain_rule g size w J T →
  (∀ o, proper g size J no_lin o ∨ handle g size J o) → ∀ o, o ≠ w → ¬ alias g size w J o →
  ∀ res, returns g o w res → result_is res (size o) (size w) (T o).
Proof. intros Hg HT Hf o. exact (forward_right g size w J T Hg HT o Hf). Qed.
Print Assumptions C49_forward_partial.

(** C49. Forward mode does not raise, provided that no object with one element adds up
    several derivatives with respect to a variable with one element (see
    C49_scalar_refuted). *)
Theorem C49_forward_returns_partial (g : rgraph) size w J T : sound_graph g → chain_rule g size w J T →
  (∀ o, proper g size J no_lin o ∨ handle g size J o) →
  (∀ o nd, g !! o = Some nd → size o * size w ≠ 1 ∨ length (ops nd) ≤ 1) →
  ∀ o, is_Some (g !! o) → o ≠ w → ∃ res, returns g o w res.
Proof. intros Hg HT Hf Hs o Ho Hne. exact (forward_returns g size w J T Hg HT o Hf Ho Hne Hs). Qed.
Print Assumptions C49_forward_returns_partial.
(** s = sum(e + ChHandle(x)) *)
Example C49_forward_case : sound_graph g_mix ∧ chain_rule g_mix n_mix 0 J_mix T_mix ∧
  (∀ o, proper g_mix n_mix J_mix no_lin o ∨ handle g_mix n_mix J_mix o) ∧
  (∀ o nd, g_mix !! o = Some nd → n_mix o * n_mix 0 ≠ 1 ∨ length (ops nd) ≤ 1) ∧
  is_Some (g_mix !! 4) ∧ ¬ alias g_mix n_mix 0 J_mix 4.
Proof. exact (conj mix_sound (conj mix_chain (conj mix_fine (conj mix_sizes (conj (mk_is_Some _ _ eq_refl) mix_alias))))). Qed.

(** C49. The same with LinearOperators, as long as no object above them adds up more than two
    derivatives (see C49_operators_refuted), … *)
Theorem C49_operators_partial (g : rgraph) size w J T : sound_graph g → chain_rule g size w J T →
  (∀ o, proper g size J (λ _, true) o ∧ sums_few g size w J o ∨ handle g size J o) → ∀ o, o ≠ w → ¬ alias g size w J o →
  ∀ res, returns g o w res → result_is res (size o) (size w) (T o).
Proof. intros Hg HT Hf o. exact (any_right g size w J T Hg HT o Hf). Qed.
Print Assumptions C49_operators_partial.
(** … and it returns then, with the proviso of C49_forward_returns_partial. *)
Theorem C49_operators_returns_partial (g : rgraph) size w J T : sound_graph g → chain_rule g size w J T →
  (∀ o, proper g size J (λ _, true) o ∧ sums_few g size w J o ∨ handle g size J o) →
  (∀ o nd, g !! o = Some nd → size o * size w ≠ 1 ∨ length (ops nd) ≤ 1) →
  ∀ o, is_Some (g !! o) → o ≠ w → ∃ res, returns g o w res.
Proof. intros Hg HT Hf Hs o Ho Hne. exact (any_returns g size w J T Hg HT o Hf Ho Hne Hs). Qed.
Print Assumptions C49_operators_returns_partial.
(** s = sum(op(e) + op(x)) *)
Example C49_operators_case : sound_graph g_two ∧ chain_rule g_two n_two 0 J_two T_two ∧
  (∀ o, proper g_two n_two J_two (λ _, true) o ∧ sums_few g_two n_two 0 J_two o ∨ handle g_two n_two J_two o) ∧
  (∀ o nd, g_two !! o = Some nd → n_two o * n_two 0 ≠ 1 ∨ length (ops nd) ≤ 1) ∧
  is_Some (g_two !! 3) ∧ ¬ alias g_two n_two 0 J_two 3.
Proof.
  exact (conj two_sound (conj two_chain (conj (λ o, or_introl (conj (two_proper o) (two_few o)))
    (conj two_sizes (conj (mk_is_Some _ _ eq_refl) two_alias))))).
Qed.

(** C49. lop always returns the left factor times the matrix of the chain rule, in any
    format but LinearOperators, also for single elements and handles. *)
Theorem C49_lop (g : rgraph) size w J T : sound_graph g → chain_rule g size w J T →
  (∀ o, proper g size J no_lin o ∨ handle g size J o) →
  ∀ o q L lhs, is_Some (g !! o) → o ≠ w → stores lhs q (size o) L → no_lin lhs = true →
  ∃ res, returns_lop g lhs o w res ∧
    match res with
    | None => meq q (size w) (mmult (size o) L (T o)) mzero
    | Some r => stores r q (size w) (mmult (size o) L (T o))
    end.
Proof. intros Hg HT Hf o q L lhs. exact (lop_right g size w J T Hg HT o q L lhs Hf). Qed.
Print Assumptions C49_lop.
(** The gradient of s, and the one for which dr_wrt raises. *)
Example C49_lop_case : (sound_graph g_mix ∧ chain_rule g_mix n_mix 0 J_mix T_mix ∧
    (∀ o, proper g_mix n_mix J_mix no_lin o ∨ handle g_mix n_mix J_mix o)) ∧
  (sound_graph g_zero ∧ chain_rule g_zero (λ _, 1) 0 J_zero T_zero ∧
    (∀ o, proper g_zero (λ _, 1) J_zero no_lin o ∨ handle g_zero (λ _, 1) J_zero o)) ∧
  stores (Arr (full [1; 1] 1%R)) 1 1 (λ _ _, 1%R).
Proof.
  split; [exact (conj mix_sound (conj mix_chain mix_fine))|]. split.
  - split; [exact zero_sound|]. split; [exact zero_chain|]. intros o. left. exact (zero_proper o).
  - left. by split.
Qed.

(** C49. Reverse mode returns the matrix of the chain rule when all Jacobians are sparse
    (see C49_reverse_refuted for dense ones). *)
Theorem C49_reverse_partial (g : rgraph) size w J T : sound_graph g → chain_rule g size w J T →
  (∀ o, proper g size J sparse_only o) → ∀ o, is_Some (g !! o) → o ≠ w →
  ∃ res, returns_rev g o w res ∧ result_is res (size o) (size w) (T o).
Proof. intros Hg HT Hp o. exact (reverse_right g size w J T Hg HT o Hp). Qed.
Print Assumptions C49_reverse_partial.
Example C49_reverse_case : sound_graph g_sp ∧ chain_rule g_sp n_mix 0 J_mix T_mix ∧
  (∀ o, proper g_sp n_mix J_mix sparse_only o) ∧ is_Some (g_sp !! 3).
Proof. exact (conj sp_sound (conj sp_chain (conj sp_proper (mk_is_Some _ _ eq_refl)))). Qed.

(** C49. The sum of two Jacobians one of which is a LinearOperator is right. *)
Theorem C49_two_operators a b n m A B : is_mat a n m A → is_mat b n m B → existsb is_lin [a; b] = true →
  ∃ r, dsum [a; b] = Some (Some r) ∧ is_mat r n m (mplus A B).
Proof. exact (two_operators a b n m A B). Qed.
Print Assumptions C49_two_operators.
Example C49_two_operators_case : is_mat op_id 2 2 (mscal 1) ∧ is_mat sp_id 2 2 (mscal 1).
Proof. split; [exact id_is|]. split_and!; by try intros ? ? ? ?. Qed.

(** C49. What the sum of three Jacobians is instead, if one of them is a LinearOperator: to
    the product with the third one the inner product of the argument and the product with
    the sum of the others is added. *)
Theorem C49_three_operators a b c n A B C : is_mat a n n A → is_mat b n n B → is_mat c n n C →
  existsb is_lin [a; b; c] = true →
  ∃ f, dsum [a; b; c] = Some (Some (Lin n n f)) ∧ ∀ v, length v = n →
    f v = Some ((λ z, inner (mvec n n (mplus A B) v) v + z)%R <$> mvec n n C v).
Proof. exact (three_operators a b c n A B C). Qed.
Print Assumptions C49_three_operators.

(** C49. A vector that a class returns as the derivative of one number becomes a row. *)
Theorem C49_vector a n : sh a = [n] → ∃ r, finish (Arr a) = Some r ∧ is_mat r 1 n (λ _ j, dat a j).
Proof. exact (finish_vector a n). Qed.
Print Assumptions C49_vector.
Example C49_vector_case : sh (full [3] 5%R) = [3] ∧ ∃ r, finish (Arr (full [3] 5%R)) = Some r ∧ is_mat r 1 3 (λ _ _, 5%R).
Proof. split; [done|]. exact (C49_vector (full [3] 5%R) 3 eq_refl). Qed.

(* ------------------------------------------------------------------ *)
(** C49 is false for single elements: y = square(x) + exp(x) at x = 0.  All classes return
    right Jacobians, and y.dr_wrt(x) raises: the zero Jacobian was made sparse and the
    other one a number, which scipy does not add. *)
Theorem C49_scalar_refuted : ∃ (g : rgraph) size w J T o, sound_graph g ∧ chain_rule g size w J T ∧
  (∀ o, proper g size J no_lin o) ∧ is_Some (g !! o) ∧ o ≠ w ∧ raises (λ n, rdr n g o w).
Proof.
  exists g_zero, (λ _, 1), 0, J_zero, T_zero, 3.
  exact (conj zero_sound (conj zero_chain (conj zero_proper (conj (mk_is_Some _ _ eq_refl) (conj (Nat.neq_succ_0 2) zero_raises))))).
Qed.
Print Assumptions C49_scalar_refuted.

(** C49 is false for handles: ChHandle(x).dr_wrt(x) is a 1 x 1 array for an x with two
    elements. *)
Theorem C49_handle_refuted : ∃ (g : rgraph) size w J T o res, sound_graph g ∧ chain_rule g size w J T ∧
  (∀ o, proper g size J no_lin o ∨ handle g size J o) ∧ o ≠ w ∧ returns g o w res ∧
  ¬ result_is res (size o) (size w) (T o).
Proof.
  exists g_handle, (λ _, 2), 0, (λ _ _, mscal 1), (λ _, mscal 1), 1, (Some (Arr (Arr_ [1; 1] (λ _, 1%R)))).
  exact (conj handle_sound (conj handle_chain (conj handle_fine (conj (Nat.neq_succ_0 0) (conj handle_returns handle_wrong))))).
Qed.
Print Assumptions C49_handle_refuted.

(** C49 is false in reverse mode for dense Jacobians: square(sum(x)). *)
Theorem C49_reverse_refuted : ∃ (g : rgraph) size w J T o, sound_graph g ∧ chain_rule g size w J T ∧
  (∀ o, proper g size J no_lin o) ∧ is_Some (g !! o) ∧ o ≠ w ∧ raises (λ n, rdr_rev n g o w).
Proof.
  exists g_sum, n_sum, 0, J_sum, T_sum, 2.
  exact (conj sum_sound (conj sum_chain (conj sum_proper (conj (mk_is_Some _ _ eq_refl) (conj (Nat.neq_succ_0 1) sum_raises))))).
Qed.
Print Assumptions C49_reverse_refuted.

(** C49 is false for three LinearOperators: the third one is added to an inner product. *)
Theorem C49_operators_refuted : ∃ (g : rgraph) size w J T o res, sound_graph g ∧ chain_rule g size w J T ∧
  (∀ o, proper g size J (λ _, true) o) ∧ o ≠ w ∧ returns g o w res ∧ ¬ result_is res (size o) (size w) (T o).
Proof.
  exists g_ops, (λ _, 2), 0, (λ _ _, mscal 1), T_ops, 4, (Some wrong_op).
  exact (conj ops_sound (conj ops_chain (conj ops_proper (conj (Nat.neq_succ_0 3) (conj ops_returns ops_wrong))))).
Qed.
Print Assumptions C49_operators_refuted.
