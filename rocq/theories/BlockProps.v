(** Property C59: the optimizer works with the Jacobian of the objective. *)
From Coq Require Import Reals Lra.
From stdpp Require Import gmap list list_numbers.
From Verif Require Import ArrModel ElemModel RepModel RepSpec RepThms RepSum RepGraph RepDemo RepOpsSpec RepOps BlockModel BlockSpec BlockThms BlockDemo.

(** C59. The matrix has a row per residual and a column per element of the stacked
    variables, in their order, and its entries are the partial derivatives, whatever mixture
    of dense and sparse formats and operators, and whether a dense or sparse one is asked
    for.  Missing: objects adding up three or more operators (dr_wrt is wrong then,
    C49_operators_refuted), and objectives that only hand on a variable. *)
Theorem C59_jacobian_partial (g : rgraph) size J obj T fvs : sound_graph g →
  Forall (λ x, sums_right g size J (base x) ∧ total g size J obj T (base x) ∧ apart g size J obj (base x) ∧ fits size x) fvs →
  ∀ n mk_dense mk_sparse r, stacked_dr n g obj mk_dense mk_sparse fvs = Some r →
    is_mat r (size obj) (length (stacked_slots size fvs)) (partials T (stacked_slots size fvs)) ∧ no_lin r = true ∧
    (mk_sparse = true → sparse_only r = true) ∧ (mk_dense = true → mk_sparse = false → sparse_only r = false).
Proof. intros Hg Hx n d s r. exact (stacked_is g size J obj T Hg n d s fvs r Hx). Qed.
Print Assumptions C59_jacobian_partial.

(** C59. It is computed whenever dr_wrt returns a derivative for every variable, not being an
    operator for selections (see C59_operator_refuted) or if a sparse one is asked for, … *)
Theorem C59_returns_partial (g : rgraph) size J obj T fvs mk_dense mk_sparse : sound_graph g →
  Forall (λ x, sums_right g size J (base x) ∧ total g size J obj T (base x) ∧ apart g size J obj (base x) ∧ fits size x) fvs →
  fvs ≠ [] →
  Forall (λ x, ∃ r, returns g obj (base x) (Some r) ∧ (no_lin r = true ∨ whole x ∧ mk_sparse = false)) fvs →
  ∃ n r, stacked_dr n g obj mk_dense mk_sparse fvs = Some r.
Proof. intros Hg Hx Hne Hr. exact (stacked_returns g size J obj T mk_dense mk_sparse fvs Hg Hx Hne Hr). Qed.
Print Assumptions C59_returns_partial.
(** Residuals of x (by way of an operator) and y (sparse), stepping in y\[2\], y\[0\] and x. *)
Example C59_jacobian_case : (sound_graph g_blk ∧
  Forall (λ x, sums_right g_blk n_blk J_blk (base x) ∧ total g_blk n_blk J_blk 3 T_blk (base x) ∧
    apart g_blk n_blk J_blk 3 (base x) ∧ fits n_blk x) fv_blk) ∧
  (fv_blk ≠ [] ∧
   Forall (λ x, ∃ r, returns g_blk 3 (base x) (Some r) ∧ (no_lin r = true ∨ whole x ∧ false = false)) fv_blk) ∧
  stacked_slots n_blk fv_blk = [(1, 2); (1, 0); (0, 0); (0, 1)] ∧
  (λ j, partials T_blk (stacked_slots n_blk fv_blk) 0 j) <$> [0; 1; 2; 3] = [5; 0; 1; 2]%R.
Proof.
  split; [exact (conj blk_sound fv_fine)|]. split; [split; [discriminate|exact blk_returns]|].
  split; [reflexivity|exact blk_row].
Qed.

(** … and an exception says so if there is none for some variable. *)
Theorem C59_no_derivative (g : rgraph) obj fvs x : x ∈ fvs → returns g obj (base x) None →
  ∀ n mk_dense mk_sparse, stacked_dr n g obj mk_dense mk_sparse fvs = None.
Proof. intros Hx Hr n d s. exact (no_derivative g obj d s fvs x Hx Hr n). Qed.
Print Assumptions C59_no_derivative.
(** x and something else. *)
Example C59_no_derivative_case : Whole 5 ∈ [Whole 0; Whole 5] ∧ returns g_blk 3 5 None ∧ ∃ r, returns g_blk 3 1 (Some r).
Proof. split; [by right; left|]. split; [by exists 3|]. exists (Spr 2 3 b_y). by exists 3. Qed.

(** C59. Blocks in any formats, operators among them, end up side by side; the result is
    sparse if and only if some block is, and never an operator. *)
Theorem C59_hstack n l ms : all_mat n l ms → l ≠ [] → ∃ r, hstack_reps l = Some r ∧
  is_mat r n (sum_list ms.*1) (side_by_side ms) ∧ no_lin r = true ∧ sparse_only r = existsb sparse_only l.
Proof. exact (hstack_is n l ms). Qed.
Print Assumptions C59_hstack.
(** An operator, an array and a sparse matrix. *)
Example C59_hstack_case : all_mat 2 [op_id; Arr b_x; Spr 2 3 b_y] [(2, mscal 1); (2, b_m); (3, b_y)] ∧
  side_by_side [(2, mscal 1); (2, b_m); (3, b_y)] 0 6 = 5%R.
Proof.
  split; [|done]. constructor; [apply id_is|]. constructor; [by split|]. constructor; [by split_and!|]. constructor.
Qed.

(** C59. The optimizer accepts the matrix if it is not zero, or if a dense one was asked for. *)
Theorem C59_accepted size_p r n m A J' : is_mat r n m A → size_p = m →
  (∃ i j, i < n ∧ j < m ∧ A i j ≠ 0%R) ∨ sparse_only r = false → update_J size_p (Some r) J' ↔ J' = Some r.
Proof. intros Hr Hs [Hz|Hd]; [exact (update_is size_p r n m A J' Hr Hs Hz)|exact (update_dense size_p r n m A J' Hr Hs Hd)]. Qed.
Print Assumptions C59_accepted.
Example C59_accepted_case : is_mat (Spr 2 3 b_y) 2 3 b_y ∧ (∃ i j, i < 2 ∧ j < 3 ∧ b_y i j ≠ 0%R) ∧
  is_mat (Arr (full [2; 3] 0%R)) 2 3 mzero ∧ sparse_only (Arr (full [2; 3] 0%R)) = false.
Proof.
  split; [by split_and!|]. split; [|by split].
  exists 0, 2. split_and!; [lia..|]. unfold b_y. rewrite decide_True by done. lra.
Qed.

(** C59. It never accepts a vanishing derivative otherwise: dr_wrt makes zeros sparse, and a
    sparse matrix without entries fails an assertion, … *)
Theorem C59_stationary_raises (g : rgraph) size J obj T fvs : sound_graph g → operator_free g size J obj →
  Forall (λ x, sums_right g size J (base x) ∧ total g size J obj T (base x) ∧ apart g size J obj (base x) ∧ fits size x) fvs →
  Forall whole fvs →
  (∀ x, x ∈ fvs → meq (size obj) (size (base x)) (T (base x)) mzero) →
  ∀ n size_p J', update_J size_p (stacked_dr n g obj false false fvs) J' → J' = None.
Proof. intros Hg Hf Hx Hw Hz n size_p J'. exact (zero_raises g size J obj T n fvs size_p J' Hg Hf Hx Hw Hz). Qed.
Print Assumptions C59_stationary_raises.
(** … so that starting at a stationary point raises, x**2 at zero for instance. *)
Theorem C59_stationary_refuted : ∃ (g : rgraph) size J obj T v, sound_graph g ∧ (∀ o, proper g size J no_lin o) ∧
  total g size J obj T v ∧ apart g size J obj v ∧ meq (size obj) (size v) (T v) mzero ∧
  (∃ n r, stacked_dr n g obj false false [Whole v] = Some r) ∧
  ∀ n J', update_J (size v) (stacked_dr n g obj false false [Whole v]) J' → J' = None.
Proof.
  assert (Hz : is_mat (Spr 2 2 (λ _ _, 0%R)) 2 2 mzero) by (by split_and!).
  pose proof (one_alias _ _ Hz) as Ha. pose proof (one_sound (Spr 2 2 (λ _ _, 0%R))) as Hs.
  pose proof (λ o, one_fine _ _ no_lin o Hz eq_refl) as Hf.
  destruct (free_sums _ _ _ (λ o, or_introl (Hf o))) as [Hfree Hsum].
  assert (Ht : total (g_one (Spr 2 2 (λ _ _, 0%R))) (λ _, 2) (J_one mzero) 1 (λ _, mzero) 0).
  { exists (T_one mzero). split; [apply one_chain|done]. }
  exists (g_one (Spr 2 2 (λ _ _, 0%R))), (λ _, 2), (J_one mzero), 1, (λ _, mzero), 0.
  split_and!; [done|done|done|done|done| |].
  - by exists 2, (Spr 2 2 (locate [(2, λ _ _, 0%R)])).
  - intros n J' HJ. eapply (zero_raises _ _ _ 1 (λ _, mzero) n [Whole 0]); [exact Hs|by apply Hfree| | | |exact HJ].
    + constructor; [|constructor]. split_and!; [apply Hsum|exact Ht|split; [done|exact Ha]|done].
    + by repeat constructor.
    + intros x Hx. apply elem_of_list_singleton in Hx as ->. done.
Qed.
Print Assumptions C59_stationary_refuted.

(** C59. A selection from a variable whose derivative is an operator raises, although the
    derivative is there. *)
Theorem C59_operator_refuted : ∃ (g : rgraph) size J obj T v, sound_graph g ∧ (∀ o, proper g size J (λ _, true) o) ∧
  total g size J obj T v ∧ apart g size J obj v ∧
  (∃ r, returns g obj v (Some r) ∧ is_mat r (size obj) (size v) (T v)) ∧
  (∃ n r, stacked_dr n g obj false false [Whole v] = Some r) ∧
  fits size (Pick v [1]) ∧ ∀ n d s, stacked_dr n g obj d s [Pick v [1]] = None.
Proof.
  pose proof id_is as Hi. exists (g_one op_id), (λ _, 2), (J_one (mscal 1)), 1, (λ _, mscal 1), 0.
  assert (Hr : returns (g_one op_id) 1 0 (Some op_id)) by (by exists 2).
  split_and!; [apply one_sound|intros o; by apply one_fine| |split; [done|by apply one_alias]|by exists op_id| | |].
  - exists (T_one (mscal 1)). split; [apply one_chain|done].
  - by exists 2; eexists.
  - repeat constructor.
  - intros n d s. eapply (pick_operator (g_one op_id) 1 d s [Pick 0 [1]] 0 [1]); [by left|exact Hr].
Qed.
Print Assumptions C59_operator_refuted.
