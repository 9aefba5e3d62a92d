(** Property C56: stacking and shape helpers. *)
From Coq Require Import Reals Lra Sorted.
From stdpp Require Import gmap list list_numbers numbers.
From Verif Require Import EngineModel ArrModel Curve ElemModel ReorderModel ReorderSpec RepModel RepSpec ConcModel ConcSpec
  HelpModel HelpSpec HelpThms.

(** C56. atleast_1d, atleast_2d, atleast_3d: the value, … *)
Theorem C56_atleast_nd nd a : 1 ≤ nd ≤ 3 → ∃ b, nd_r nd a = Some b ∧ is_nd nd a b ∧ asize b = asize a ∧ ∀ i, dat b i = dat a i.
Proof. exact (nd_value nd a). Qed.
Print Assumptions C56_atleast_nd.
(** … which [is_nd] determines; any other number raises; *)
Theorem C56_nd_unique nd a b c : is_nd nd a b → is_nd nd a c → aeq b c.
Proof. exact (nd_unique nd a b c). Qed.
Print Assumptions C56_nd_unique.
Theorem C56_nd_raises nd a : nd = 0 ∨ 4 ≤ nd → nd_r nd a = None.
Proof. exact (nd_raises nd a). Qed.
Print Assumptions C56_nd_raises.
(** their derivative, the number 1, is right in chains (an atleast_nd object is a handle
    in the sense of C49_forward_partial), … *)
Theorem C56_nd_chain (g : rgraph) (size : nat → nat) J o x : g !! o = Some (nd_node x) → size o = size x →
  meq (size o) (size x) (J o x) (mscal 1) → handle g size J o.
Proof. exact (nd_handle g size J o x). Qed.
Print Assumptions C56_nd_chain.
(** … but not by itself: atleast_2d(x).dr_wrt(x) is a matrix with one element. *)
Theorem C56_nd_refuted (g : rgraph) o x n : g !! o = Some (nd_node x) → ∀ size, size ≠ 1 →
  ∃ r, rdr (S n) g o x = Some (Some r) ∧ ∀ A, ¬ is_mat r size size A.
Proof. exact (nd_direct_wrong g o x n). Qed.
Print Assumptions C56_nd_refuted.
Example C56_nd_case : (sh <$> nd_r 3 (of_list 0%R [2] [1; 2]%R)) = Some [1; 2; 1] ∧
  let g : rgraph := <[1 := nd_node 0]> {[0 := RNode [] (λ _, None)]} in g !! 1 = Some (nd_node 0).
Proof. done. Qed.

(** C56. squeeze and expand_dims.  r has at least one axis (atleast_1d). *)
Theorem C56_squeeze_all a : ∃ b, view_r (squeeze_shape None (sh a)) a = Some (atleast_1d b) ∧ is_squeeze None a b.
Proof. exact (squeeze_all a). Qed.
Print Assumptions C56_squeeze_all.
Theorem C56_squeeze_axis k a i : axis_is (length (sh a)) k i → sh a !! i = Some 1 →
  ∃ b, view_r (squeeze_shape (Some k) (sh a)) a = Some (atleast_1d b) ∧ is_squeeze (Some k) a b.
Proof. exact (squeeze_one k a i). Qed.
Print Assumptions C56_squeeze_axis.
Theorem C56_squeeze_raises k a : (∀ i, axis_is (length (sh a)) k i → sh a !! i ≠ Some 1) →
  view_r (squeeze_shape (Some k) (sh a)) a = None.
Proof. exact (squeeze_raises k a). Qed.
Print Assumptions C56_squeeze_raises.
Theorem C56_expand_dims k a i : axis_is (S (length (sh a))) k i → ∃ b, view_r (expand_shape k (sh a)) a = Some b ∧ is_expand k a b.
Proof. exact (expand_value k a i). Qed.
Print Assumptions C56_expand_dims.
Theorem C56_expand_raises k a : (∀ i, ¬ axis_is (S (length (sh a))) k i) → view_r (expand_shape k (sh a)) a = None.
Proof. exact (expand_raises k a). Qed.
Print Assumptions C56_expand_raises.
(** The Jacobian is the identity, and the derivative. *)
Theorem C56_view_jacobian ns a b : view_r (Some ns) a = Some b → fits (reshape_jac a) (asize b) (asize a) ∧
  diff1 (λ x, default x (view_r (Some ns) x)) (reshape_jac a) a ∧
  ∀ i j, i < asize a → entry (reshape_jac a) i j = if decide (j = i) then 1%R else 0%R.
Proof. exact (view_right ns a b). Qed.
Print Assumptions C56_view_jacobian.
(** The shape is computed once: when the operand changes its shape, the value is wrong. *)
Theorem C56_squeeze_refuted : ∃ s a b, view_r (squeeze_shape None s) a = Some b ∧
  ∀ c, is_squeeze None a c → sh b ≠ sh (atleast_1d c).
Proof. exact squeeze_stale. Qed.
Print Assumptions C56_squeeze_refuted.
Example C56_squeeze_case : (sh <$> view_r (squeeze_shape None [2; 1; 3; 1]) (Arr_ [2; 1; 3; 1] (λ _, 0%R))) = Some [2; 3] ∧
  (sh <$> view_r (squeeze_shape (Some (-1)%Z) [2; 1; 3; 1]) (Arr_ [2; 1; 3; 1] (λ _, 0%R))) = Some [2; 1; 3] ∧
  view_r (squeeze_shape (Some 0%Z) [2; 1; 3; 1]) (Arr_ [2; 1; 3; 1] (λ _, 0%R)) = None ∧
  (sh <$> view_r (expand_shape (-1) [2; 3]) (Arr_ [2; 3] (λ _, 0%R))) = Some [2; 3; 1].
Proof. done. Qed.

(** C56. fliplr and flipud *)
Theorem C56_fliplr a : 2 ≤ length (sh a) → ∃ b, getitem fliplr_key a = Some b ∧ is_fliplr a b.
Proof. exact (fliplr_value a). Qed.
Print Assumptions C56_fliplr.
Theorem C56_fliplr_raises a : length (sh a) < 2 → getitem fliplr_key a = None.
Proof. exact (fliplr_raises a). Qed.
Print Assumptions C56_fliplr_raises.
Theorem C56_flipud a : 1 ≤ length (sh a) → ∃ b, getitem flipud_key a = Some b ∧ is_flipud a b.
Proof. exact (flipud_value a). Qed.
Print Assumptions C56_flipud.
Theorem C56_flip_jacobian k a b : getitem k a = Some b → ∃ idxs t, getitem_terms k (sh a) = Some (idxs, t) ∧
  fits (select_jac idxs (asize a)) (asize b) (asize a) ∧ diff1 (λ x, default x (getitem k x)) (select_jac idxs (asize a)) a.
Proof. exact (getitem_right k a b). Qed.
Print Assumptions C56_flip_jacobian.
Theorem C56_flip_refuted : ∃ s a idxs t b, getitem_terms fliplr_key s = Some (idxs, t) ∧ select idxs (Some t) a = Some b ∧
  2 ≤ length (sh a) ∧ asize a = size s ∧ ¬ is_fliplr a b.
Proof. exact flip_stale. Qed.
Print Assumptions C56_flip_refuted.
Example C56_flip_case : (elems <$> getitem fliplr_key (of_list 0%R [2; 3] [1; 2; 3; 4; 5; 6]%R)) = Some [3; 2; 1; 6; 5; 4]%R ∧
  (elems <$> getitem flipud_key (of_list 0%R [2; 3] [1; 2; 3; 4; 5; 6]%R)) = Some [4; 5; 6; 1; 2; 3]%R.
Proof. done. Qed.

(** C56. vstack and dstack: they raise when numpy does, and the value is numpy's. *)
Theorem C56_vstack vs :
  (is_Some (stack_r (vstack vs)) ↔ vs ≠ [] ∧ ∃ us s, Forall2 (is_nd 2) vs us ∧ ∀ u, u ∈ us → same_but 0 (sh u) s) ∧
  ∀ y, stack_r (vstack vs) = Some y → is_vstack vs y ∧ ∀ z, is_vstack vs z → aeq y z.
Proof. exact (vstack_value vs). Qed.
Print Assumptions C56_vstack.
Theorem C56_dstack vs :
  (is_Some (stack_r (dstack vs)) ↔ vs ≠ [] ∧ ∃ us s, Forall2 (is_nd 3) vs us ∧ ∀ u, u ∈ us → same_but 2 (sh u) s) ∧
  ∀ y, stack_r (dstack vs) = Some y → is_dstack vs y ∧ ∀ z, is_dstack vs z → aeq y z.
Proof. exact (dstack_value vs). Qed.
Print Assumptions C56_dstack.
Example C56_stack_case : (elems <$> stack_r (vstack [of_list 0%R [2] [1; 2]%R; of_list 0%R [2; 2] [3; 4; 5; 6]%R])) = Some [1; 2; 3; 4; 5; 6]%R ∧
  (sh <$> stack_r (dstack [of_list 0%R [2] [1; 2]%R; of_list 0%R [1; 2] [3; 4]%R])) = Some [1; 2; 2] ∧
  (elems <$> stack_r (dstack [of_list 0%R [2] [1; 2]%R; of_list 0%R [1; 2] [3; 4]%R])) = Some [1; 3; 2; 4]%R ∧
  stack_r (vstack [of_list 0%R [2] [1; 2]%R; of_list 0%R [3] [3; 4; 5]%R]) = None.
Proof. done. Qed.
(** hstack, also of concatenations: right for operands with two or more axes, … *)
Theorem C56_hstack_partial l vs s : cvals l = Some vs → vs ≠ [] → Forall (λ v, 2 ≤ length (sh v)) vs →
  (∀ v, v ∈ vs → same_but 1 (sh v) s) → ∃ y, stack_r (hstack l) = Some y ∧ is_hstack vs y.
Proof. exact (hstack_value l vs s). Qed.
Print Assumptions C56_hstack_partial.
Example C56_hstack_case : let a := of_list 0%R [2; 1] [1; 2]%R in
  cvals [Leaf a; Conc 1 [Leaf a; Leaf a]] ≠ None ∧
  (elems <$> stack_r (hstack [Leaf a; Conc 1 [Leaf a; Leaf a]])) = Some [1; 1; 1; 2; 2; 2]%R.
Proof. done. Qed.
(** … but it raises for vectors, which numpy puts one after the other. *)
Theorem C56_hstack_refuted vs : vs ≠ [] → Forall (λ v, length (sh v) = 1) vs →
  stack_r (hstack (Leaf <$> vs)) = None ∧ ∃ y, is_hstack vs y.
Proof. exact (hstack_vectors vs). Qed.
Print Assumptions C56_hstack_refuted.
Example C56_hstack_refuted_case : Forall (λ v : arr R, length (sh v) = 1) [of_list 0%R [2] [1; 2]%R; of_list 0%R [3] [3; 4; 5]%R].
Proof. by repeat constructor. Qed.
