(** Properties C24 and C25: elementwise operations. *)
From Coq Require Import Reals Lra.
From stdpp Require Import list list_numbers numbers gmap.
From Verif Require Import ArrModel Curve ElemModel ElemSpec ElemThms.

(* ------------------------------------------------------------------ *)
(** C24. The Jacobian of a unary function is the diagonal matrix of the derivatives,
    one row and column per element, when the first axis is longer than 1 (or there is
    a single element).  Missing: arrays whose first axis has length 1, see below. *)
Theorem C24_unary_jacobian_partial f a : unary_shape (sh a) → (∀ i, i < asize a → u_dom f (dat a i)) →
  ∃ J, unary_jac f a = Some J ∧ fits J (asize a) (asize a) ∧
    (∀ i j, i < asize a → i ≠ j → entry J i j = 0%R) ∧
    (∀ i, i < asize a → derivable_pt_lim (u_r f) (dat a i) (entry J i i)) ∧
    diff1 (unary f) J a.
Proof. exact (unary_jacobian f a). Qed.
Print Assumptions C24_unary_jacobian_partial.
Example C24_case : let a := of_list 1%R [2; 3] [1; 2; 3; 4; 5; 6]%R in
  unary_shape (sh a) ∧ (∀ i, i < asize a → u_dom Usqrt (dat a i)) ∧ asize a = 6.
Proof.
  split_and!; [simpl; lia| |done]. intros i Hi. do 7 (destruct i as [|i]; [simpl; lra|]). simpl in Hi. exfalso. revert Hi. unfold asize. simpl. lia.
Qed.
(** A row of n > 1 elements (shape 1 x n) gets a 1 x n matrix, which is not the
    derivative. *)
Theorem C24_unary_jacobian_refuted : ∃ f a J, (∀ i, i < asize a → u_dom f (dat a i)) ∧
  unary_jac f a = Some J ∧ nrow J ≠ asize a ∧ ¬ diff1 (unary f) J a.
Proof. exact unary_refuted. Qed.
Print Assumptions C24_unary_jacobian_refuted.
Theorem C24_rows_never_square f d n : 1 < n → ∃ J, unary_jac f (Arr_ [1; n] d) = Some J ∧ nrow J ≠ asize (Arr_ [1; n] d).
Proof. exact (unary_row_any f d n). Qed.
Print Assumptions C24_rows_never_square.
Example C24_rows_case : 1 < 5. Proof. lia. Qed.

(* ------------------------------------------------------------------ *)
(** C25. Shapes: the result has the shape numpy's rule prescribes, if there is one. *)
Theorem C25_broadcast_shape s1 s2 out : bshape s1 s2 = Some out ↔ broadcast_rule s1 s2 out.
Proof. exact (bshape_rule s1 s2 out). Qed.
Print Assumptions C25_broadcast_shape.
Example C25_shapes : bshape [2; 1; 4] [3; 1] = Some [2; 3; 4] ∧ bshape [2; 3] [2] = None.
Proof. done. Qed.
(** C25. Values: element [ix] of the result is the function of the elements numpy's
    broadcasting rule feeds to it. *)
Theorem C25_broadcast_value f a b out ix : bshape (sh a) (sh b) = Some out → inside out ix →
  sh (binary f a b) = out ∧
  ∃ jx kx, feeds (sh a) ix jx ∧ feeds (sh b) ix kx ∧ inside (sh a) jx ∧ inside (sh b) kx ∧
    at_ (binary f a b) ix = b_f f (at_ a jx) (at_ b kx).
Proof. exact (binary_value f a b out ix). Qed.
Print Assumptions C25_broadcast_value.
(** Two different operands: whatever was asked before (from any operation on any
    shapes), the two Jacobians have the right dimensions and together are the
    derivative. *)
Theorem C25_broadcast_jacobian f a b out l1 l2 : bshape (sh a) (sh b) = Some out → meet b_dom f a b →
  ∃ Ja Jb, (binary_jac f true false a b (after_calls l1)).2 = Some Ja ∧
    (binary_jac f false true a b (after_calls l2)).2 = Some Jb ∧
    fits Ja (size out) (asize a) ∧ fits Jb (size out) (asize b) ∧ diff2 (binary f) Ja Jb a b.
Proof. exact (binary_right f a b out l1 l2). Qed.
Print Assumptions C25_broadcast_jacobian.
(** Row i has its only entry in the column of the element that feeds it. *)
Theorem C25_broadcast_columns f (first : bool) a b out l : bshape (sh a) (sh b) = Some out →
  ∃ J, (binary_jac f first (negb first) a b (after_calls l)).2 = Some J ∧
    ∀ i j jx, i < size out → j < size (sh (if first then a else b)) →
      feeds (sh (if first then a else b)) (unravel out i) jx →
      unravel (sh (if first then a else b)) j ≠ jx → entry J i j = 0%R.
Proof. exact (binary_columns f first a b out l). Qed.
Print Assumptions C25_broadcast_columns.
(** The same object as both operands. *)
Theorem C25_same_operand f a l : (∀ i, i < asize a → b_dom f (dat a i) (dat a i)) →
  fits (none_zero (binary_jac f true true a a (after_calls l)).2 (asize a)) (asize a) (asize a) ∧
  diff1 (λ x, binary f x x) (none_zero (binary_jac f true true a a (after_calls l)).2 (asize a)) a.
Proof. exact (binary_same_right f a l). Qed.
Print Assumptions C25_same_operand.
(** x ** n with whole exponents: right with respect to x for all values of x. *)
Theorem C25_power_whole a b out l : bshape (sh a) (sh b) = Some out →
  (∀ i, i < asize b → ∃ n, dat b i = INR n) →
  ∃ J, (binary_jac Bpower true false a b (after_calls l)).2 = Some J ∧ fits J (size out) (asize a) ∧
    diff1 (λ x, binary Bpower x b) J a.
Proof. exact (power_nat_right a b out l). Qed.
Print Assumptions C25_power_whole.

Example C25_case : let a := of_list 1%R [2; 1] [5; 7]%R in let b := of_list 1%R [3] [1; 2; 4]%R in
  bshape (sh a) (sh b) = Some [2; 3] ∧ meet b_dom Bdivide a b ∧
  feeds [2; 1] [1; 2] [1; 0] ∧ feeds [3] [1; 2] [2] ∧ inside [2; 3] [1; 2] ∧
  (∀ i, i < asize a → b_dom Bpower (dat a i) (dat a i)) ∧
  (∃ n, dat (of_list 0%R [1] [2%R]) 0 = INR n).
Proof.
  split_and!; [done| | | | | |].
  - intros out ix jx kx [= <-] Hin _ (ld & tl & -> & Hl & ->). simpl in *. destruct tl as [|k [|? ?]]; try done.
    unfold at_. simpl. rewrite Nat.mul_1_r, Nat.add_0_r.
    do 4 (destruct k as [|k]; [simpl; lra|]). simpl. destruct k; simpl; lra.
  - exists [], [1; 2]. done.
  - exists [1], [2]. done.
  - repeat constructor.
  - intros i Hi. do 3 (destruct i as [|i]; [simpl; lra|]). revert Hi. unfold asize. simpl. lia.
  - exists 2. simpl. lra.
Qed.
