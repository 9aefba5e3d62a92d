(** Properties C26 and C27: reorderings. *)
From Coq Require Import Reals Lra.
From stdpp Require Import list list_numbers numbers gmap sorting.
From Verif Require Import ArrModel Curve ElemModel ElemSpec ReorderModel ReorderSpec ReorderThms ReorderCache.

(* ------------------------------------------------------------------ *)
(** C26. The value: shape and elements are those the documentation of numpy gives, the
    elements that come from nowhere being zero. *)
Theorem C26_reorder_value r (a b : arr R) : reorder 0%R r a = Some b →
  shape_rule r (sh a) (sh b) ∧ ∀ ix, inside (sh b) ix →
    (∃ jx, inside (sh a) jx ∧ comes_from r (sh a) ix jx ∧ at_ b ix = at_ a jx) ∨
    (fills r (sh a) ∧ (∀ jx, inside (sh a) jx → ¬ comes_from r (sh a) ix jx) ∧ at_ b ix = 0%R).
Proof. exact (reorder_value 0%R r a b). Qed.
Print Assumptions C26_reorder_value.
(** C26. The Jacobian: one row per element of the result, with a single 1 in the column
    of the element it comes from; it is the derivative.  Missing: diag and diagflat when
    they make a matrix (refuted below) and sort. *)
Theorem C26_reorder_jacobian_partial r a b : reorder 0%R r a = Some b → ¬ fills r (sh a) →
  ∃ J, reorder_jac r a = Some J ∧ fits J (asize b) (asize a) ∧ diff1 (λ x, default x (reorder 0%R r x)) J a ∧
    ∀ ix jx c, inside (sh b) ix → inside (sh a) jx → comes_from r (sh a) ix jx →
      entry J (ravel (sh b) ix) c = if decide (c = ravel (sh a) jx) then 1%R else 0%R.
Proof. exact (reorder_rows r a b). Qed.
Print Assumptions C26_reorder_jacobian_partial.
Example C26_case : ∃ b, reorder 0%R (Rollaxis 2 0) (of_list 0%R [2; 1; 3] [1; 2; 3; 4; 5; 6]%R) = Some b ∧
  sh b = [3; 2; 1] ∧ elems b = [1; 4; 2; 5; 3; 6]%R ∧ ¬ fills (Rollaxis 2 0) [2; 1; 3].
Proof. eexists. split_and!; [done|done|done|by intros []]. Qed.
Example C26_case_tile : ∃ b, reorder 0%R (Tile [2; 2]) (of_list 0%R [2] [1; 2]%R) = Some b ∧ sh b = [2; 4] ∧ elems b = [1; 2; 1; 2; 1; 2; 1; 2]%R.
Proof. eexists. done. Qed.
(** Whenever diag or diagflat fills in zeros, the Jacobian is not the derivative. *)
Theorem C26_diag_refuted r a : fills r (sh a) → 0 < asize a →
  ∃ J, reorder_jac r a = Some J ∧ ¬ diff1 (λ x, default x (reorder 0%R r x)) J a.
Proof. exact (reorder_fills_wrong r a). Qed.
Print Assumptions C26_diag_refuted.
Example C26_diag_case : fills (Diag 0) [3] ∧ 0 < asize (of_list 0%R [3] [1; 2; 3]%R).
Proof. split; [split; [done|right; simpl; lia]|unfold asize; simpl; lia]. Qed.
(** The Jacobian of sort is the identity whatever the array; right where every row
    increases, wrong at (2, 1). *)
Theorem C26_sort_jacobian a n i j : last (sh a) = Some n → i < asize a →
  entry (sort_jac a) i j = if decide (j = i) then 1%R else 0%R.
Proof. exact (sort_jac_identity a n i j). Qed.
Print Assumptions C26_sort_jacobian.
Theorem C26_sort_partial a n : last (sh a) = Some n → rows_increase a →
  fits (sort_jac a) (asize a) (asize a) ∧ diff1 (npsort 0%R Rle) (sort_jac a) a.
Proof. exact (sort_right a n). Qed.
Print Assumptions C26_sort_partial.
Example C26_sort_case : last (sh (of_list 0%R [3] [1; 2; 4]%R)) = Some 3 ∧ rows_increase (of_list 0%R [3] [1; 2; 4]%R).
Proof.
  split; [done|]. intros n i [= <-] Hi Hm. unfold asize in Hi. simpl in Hi.
  destruct i as [|[|[|]]]; simpl in *; try lra; try lia.
Qed.
Theorem C26_sort_refuted : ∃ a, ¬ diff1 (npsort 0%R Rle) (sort_jac a) a.
Proof. exact (ex_intro _ desc sort_wrong). Qed.
Print Assumptions C26_sort_refuted.

(* ------------------------------------------------------------------ *)
(** C27. After any calls, with any parameters and arrays, the memoised Jacobian is the
    one computed afresh.  Missing: roll and repeat (refuted below). *)
Theorem C27_memo_partial l r a : keyed_by_shape r → (reorder_jac_memo r a (memo_after l)).2 = reorder_jac r a.
Proof. exact (memo_right l r a). Qed.
Print Assumptions C27_memo_partial.
Example C27_case : keyed_by_shape (Tile [2]) ∧ (reorder_jac (Tile [2]) arr23 ≠ None).
Proof. done. Qed.
(** All of them as long as the shape stays the same. *)
Theorem C27_memo_one_shape l r a : one_shape (sh a) l → (reorder_jac_memo r a (memo_after l)).2 = reorder_jac r a.
Proof. exact (memo_right_one l r a). Qed.
Print Assumptions C27_memo_one_shape.
Example C27_one_shape_case : one_shape (sh arr23) [(Roll 1 None, arr23); (Roll 2 None, arr23)].
Proof. intros r a [E|[E|E]%elem_of_cons]%elem_of_cons; [by injection E as -> ->..|by apply elem_of_nil in E]. Qed.
(** roll along an axis of an array that was 2 x 3 and is now 3 x 2 *)
Theorem C27_roll_refuted : ∃ J, (reorder_jac_memo roll1 arr32 (memo_after [(roll1, arr23)])).2 = Some J ∧
  fits J (asize arr32) (asize arr32) ∧ ¬ diff1 (λ x, default x (reorder 0%R roll1 x)) J arr32.
Proof. exact roll_stale. Qed.
Print Assumptions C27_roll_refuted.
(** The matrix a Select keeps is right after any assignments and requests. *)
Theorem C27_select_cache l idxs n w : let st := s_run l (SState idxs n w None) in
  (s_request st).2 = select_jac (s_idxs st) (s_size st).
Proof. exact (select_cache_right l idxs n w). Qed.
Print Assumptions C27_select_cache.
