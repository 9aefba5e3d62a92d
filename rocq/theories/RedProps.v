(** Properties C29, C30, C34, C47 and C48: reductions, extrema, clip. *)
From Coq Require Import Reals Lra.
From stdpp Require Import gmap strings list list_numbers numbers.
From Verif Require Import ArrModel Curve ArrThms ElemModel ElemSpec ElemThms ReorderModel ReorderSpec NpModel NpSpec
  RedModel RedSpec RedThms RedThms2 ExtThms RedOps RedFine.

(* ------------------------------------------------------------------ *)
(** C29. Values: element i of sum (mean) is the sum (average) of the elements that go
    into it. *)
Theorem C29_value m ax a y : red_r m ax a = Some y → reduced ax (sh a) (sh y) ∧
  ∀ i, i < asize y → ∃ l, gathers ax (sh a) i l ∧
    dat y i = match m with Fsum => rsum (dat a <$> l) | Fmean => average (dat a <$> l) end.
Proof. exact (red_value m ax a y). Qed.
Print Assumptions C29_value.
(** The Jacobian of sum, along any axis or over everything, has the weight 1 on exactly
    the elements summed into an element, and is the derivative. *)
Theorem C29_sum_jacobian ax a y : red_r Fsum ax a = Some y → ∃ J,
  red_jac Fsum ax a = Some J ∧ fits J (asize y) (asize a) ∧
  (∀ i, i < asize y → ∃ l, gathers ax (sh a) i l ∧ ∀ p, entry J i p = if decide (p ∈ l) then 1%R else 0%R) ∧
  diff1 (λ x, default x (red_r Fsum ax x)) J a.
Proof. exact (sum_jacobian ax a y). Qed.
Print Assumptions C29_sum_jacobian.
(** The same for mean along an axis, and for the mean of a vector, with weight 1/n.
    Missing: the mean over all elements of an array of two or more dimensions, where it
    is false, see below. *)
Theorem C29_mean_jacobian_partial ax a y : red_r Fmean ax a = Some y → (ax = None → nth 0 (sh a) 0 = asize a) → ∃ J,
  red_jac Fmean ax a = Some J ∧ fits J (asize y) (asize a) ∧
  (∀ i, i < asize y → ∃ l, gathers ax (sh a) i l ∧ ∀ p, entry J i p = if decide (p ∈ l) then (1 / INR (length l))%R else 0%R) ∧
  diff1 (λ x, default x (red_r Fmean ax x)) J a.
Proof. exact (mean_jacobian ax a y). Qed.
Print Assumptions C29_mean_jacobian_partial.
(** mean(x) of an array that is not a vector: the matrix has the wrong number of columns
    and is not the derivative, for every such array. *)
Theorem C29_mean_all_refuted a : nth 0 (sh a) 0 ≠ asize a → 0 < asize a → ∃ J, red_jac Fmean None a = Some J ∧
  ncol J ≠ asize a ∧ ¬ diff1 (λ x, default x (red_r Fmean None x)) J a.
Proof. exact (mean_all_wrong a). Qed.
Print Assumptions C29_mean_all_refuted.
Example C29_mean_all_case : let a := of_list 0%R [2; 2] [1; 2; 3; 4]%R in nth 0 (sh a) 0 ≠ asize a ∧ 0 < asize a.
Proof. unfold asize. simpl. lia. Qed.
(** The object's dictionary of Jacobians makes no difference, whatever was asked before. *)
Theorem C29_history m l ax a : (red_jac_memo m ax a (red_memo_after m l)).2 = red_jac m ax a.
Proof. exact (red_memo m l ax a). Qed.
Print Assumptions C29_history.
Example C29_history_case : let a := of_list 0%R [2; 3] [1; 2; 3; 4; 5; 6]%R in
  length (red_memo_after Fsum [(Some 0%Z, a); (None, a); (Some 1%Z, a); (Some 0%Z, a)]) = 2.
Proof. vm_compute. reflexivity. Qed.
Example C29_case : let a := of_list 0%R [2; 3] [1; 2; 3; 4; 5; 6]%R in
  (sh <$> red_r Fmean (Some (-1)%Z) a) = Some [2] ∧ gathers (Some (-1)%Z) [2; 3] 1 [3; 4; 5] ∧ red_r Fsum (Some 2%Z) a = None ∧
  nth 0 (sh (of_list 0%R [3] [1; 2; 3]%R)) 0 = asize (of_list 0%R [3] [1; 2; 3]%R).
Proof.
  split_and!; [done| |done|done].
  exact (slice_gathers (-1) 1 3 [2; 3] 1 ltac:(split; [simpl; lia|right; done]) eq_refl ltac:(simpl; lia)).
Qed.

(** var is false: it is the mean of the squares, which exceeds the variance by the square
    of the mean. *)
Theorem C29_var_value ax a y : sh a ≠ [] → var_r ax a = Some y → reduced ax (sh a) (sh y) ∧
  ∀ i, i < asize y → ∃ l, gathers ax (sh a) i l ∧
    dat y i = (variance (dat a <$> l) + average (dat a <$> l) * average (dat a <$> l))%R.
Proof. exact (var_value ax a y). Qed.
Print Assumptions C29_var_value.
Theorem C29_var_refuted : ∃ a y, var_r None a = Some y ∧ dat y 0 ≠ variance (elems a).
Proof. exact var_refuted. Qed.
Print Assumptions C29_var_refuted.
Example C29_var_case : let a := of_list 0%R [2; 2] [1; 2; 3; 4]%R in sh a ≠ [] ∧ (sh <$> var_r (Some 0%Z) a) = Some [2].
Proof. done. Qed.

(* ------------------------------------------------------------------ *)
(** C30. cumsum without axis: the running sums, their lower-triangular Jacobian, and that
    it is the derivative.  (With an axis compute_dr_wrt raises NotImplementedError.) *)
Theorem C30_cumsum a : ∃ J y, cumsum_jac None a = Some J ∧ cumsum_r None a = Some y ∧ fits J (asize a) (asize a) ∧
  sh y = [asize a] ∧ (∀ i, i < asize a → dat y i = rsum (dat a <$> seq 0 (S i))) ∧
  (∀ i p, i < asize a → p < asize a → entry J i p = if decide (p ≤ i) then 1%R else 0%R) ∧
  diff1 (λ x, default x (cumsum_r None x)) J a.
Proof. exact (cumsum_right a). Qed.
Print Assumptions C30_cumsum.
Example C30_case : (elems <$> cumsum_r None (of_list 0%R [2; 1] [5; 7]%R)) = Some [5 + 0; 5 + (7 + 0)]%R.
Proof. done. Qed.

(* ------------------------------------------------------------------ *)
(** C34. amax and amin: the value is that of the extreme element (the first one, if there
    are several); the Jacobian has its 1 there; it is the derivative where no other
    element is equal. *)
Theorem C34_axis_value mx ax a y : ext_r mx ax a = Some y → reduced ax (sh a) (sh y) ∧
  ∀ i l, i < asize y → gathers ax (sh a) i l → ∃ p, extreme mx a l p ∧ dat y i = dat a p.
Proof. exact (ext_value mx ax a y). Qed.
Print Assumptions C34_axis_value.
Theorem C34_axis_jacobian mx ax a y : ext_r mx ax a = Some y → ∃ J, ext_jac mx ax a = Some J ∧ fits J (asize y) (asize a) ∧
  (∀ i l p q, i < asize y → gathers ax (sh a) i l → extreme mx a l p → entry J i q = if decide (q = p) then 1%R else 0%R) ∧
  (sole mx ax a → diff1 (λ x, default x (ext_r mx ax x)) J a).
Proof. exact (ext_right mx ax a y). Qed.
Print Assumptions C34_axis_jacobian.
Theorem C34_axis_defined mx ax a : 0 < size (sh a) → (∀ k, ax = Some k → ∃ k', axis_is (length (sh a)) k k') → ext_r mx ax a ≠ None.
Proof. exact (ext_defined mx ax a). Qed.
Print Assumptions C34_axis_defined.
Example C34_axis_case : let a := of_list 0%R [2; 2] [1; 2; 4; 3]%R in
  (∃ y, ext_r true (Some 1%Z) a = Some y ∧ sh y = [2]) ∧ gathers (Some 1%Z) [2; 2] 1 [2; 3] ∧ extreme true a [2; 3] 2 ∧ sole true (Some 1%Z) a ∧
  ∃ k', axis_is (length (sh a)) 1 k'.
Proof. exact ext_case. Qed.

(** maximum and minimum of two arrays: 1 for the element that attains the value, for both
    elements if they are equal; the derivative where none are equal. *)
Theorem C34_binary_value mx a b out i jx kx : bshape (sh a) (sh b) = Some out → i < size out →
  feeds (sh a) (unravel out i) jx → feeds (sh b) (unravel out i) kx →
  sh (ext2_r mx a b) = out ∧ dat (ext2_r mx a b) i = if mx then Rmax (at_ a jx) (at_ b kx) else Rmin (at_ a jx) (at_ b kx).
Proof. exact (ext2_value mx a b out i jx kx). Qed.
Print Assumptions C34_binary_value.
Theorem C34_binary_jacobian mx a b out : bshape (sh a) (sh b) = Some out → ∃ Ja Jb,
  ext2_jac mx true false a b = Some Ja ∧ ext2_jac mx false true a b = Some Jb ∧
  fits Ja (size out) (asize a) ∧ fits Jb (size out) (asize b) ∧
  (∀ i jx kx, i < size out → feeds (sh a) (unravel out i) jx → feeds (sh b) (unravel out i) kx →
    (∀ q, entry Ja i q = if decide (attains mx (at_ a jx) (at_ b kx) ∧ q = ravel (sh a) jx) then 1%R else 0%R) ∧
    (∀ q, entry Jb i q = if decide (attains mx (at_ b kx) (at_ a jx) ∧ q = ravel (sh b) kx) then 1%R else 0%R)) ∧
  ((∀ ix jx kx, inside out ix → feeds (sh a) ix jx → feeds (sh b) ix kx → at_ a jx ≠ at_ b kx) → diff2 (ext2_r mx) Ja Jb a b).
Proof. exact (ext2_jacobians mx a b out). Qed.
Print Assumptions C34_binary_jacobian.
(** The same object twice: the identity, and the derivative. *)
Theorem C34_binary_same mx a : ∃ J, ext2_jac mx true true a a = Some J ∧ fits J (asize a) (asize a) ∧
  (∀ v i, i < asize a → mact J v i = v i) ∧ diff1 (λ x, ext2_r mx x x) J a.
Proof. exact (ext2_same mx a). Qed.
Print Assumptions C34_binary_same.
(** Giving 1 to both on ties makes the sum of the two wrong by a factor of two when both
    move together: there the two matrices are not a derivative. *)
Theorem C34_tie_refuted mx : ∃ a Ja Jb, ext2_jac mx true false a a = Some Ja ∧ ext2_jac mx false true a a = Some Jb ∧
  ¬ diff2 (ext2_r mx) Ja Jb a a.
Proof. exact (ext2_tie_refuted mx). Qed.
Print Assumptions C34_tie_refuted.
Example C34_binary_case : let a := of_list 0%R [2; 1] [1; 5]%R in let b := of_list 0%R [2] [3; 4]%R in
  bshape (sh a) (sh b) = Some [2; 2] ∧ feeds (sh a) (unravel [2; 2] 3) [1; 0] ∧ feeds (sh b) (unravel [2; 2] 3) [1] ∧
  (∀ ix jx kx, inside [2; 2] ix → feeds (sh a) ix jx → feeds (sh b) ix kx → at_ a jx ≠ at_ b kx).
Proof. exact ext2_case. Qed.

(* ------------------------------------------------------------------ *)
(** C47. clip: the Jacobian is diagonal, 1 inside the bounds and 0 outside, and it is the
    derivative where no element is at a bound.  Missing: arrays of shape 1 x n, see
    C24. *)
Theorem C47_clip_partial lo hi a : (lo <= hi)%R → unary_shape (sh a) → (∀ i, i < asize a → dat a i ≠ lo ∧ dat a i ≠ hi) →
  ∃ J, clip_jac lo hi a = Some J ∧ fits J (asize a) (asize a) ∧
  (∀ i j, i < asize a → entry J i j = if decide (j = i ∧ (lo < dat a i < hi)%R) then 1%R else 0%R) ∧
  diff1 (clip_r lo hi) J a.
Proof. exact (clip_right lo hi a). Qed.
Print Assumptions C47_clip_partial.
Theorem C47_clip_value lo hi a i : (lo <= hi)%R → sh (clip_r lo hi a) = sh a ∧
  (lo <= dat (clip_r lo hi a) i <= hi)%R ∧ ((lo <= dat a i <= hi)%R → dat (clip_r lo hi a) i = dat a i) ∧
  ((dat a i < lo)%R → dat (clip_r lo hi a) i = lo) ∧ ((hi < dat a i)%R → dat (clip_r lo hi a) i = hi).
Proof. exact (clip_value lo hi a i). Qed.
Print Assumptions C47_clip_value.
Theorem C47_clip_refuted lo hi d n : 1 < n → ∃ J, clip_jac lo hi (Arr_ [1; n] d) = Some J ∧ nrow J ≠ asize (Arr_ [1; n] d).
Proof. exact (clip_row lo hi d n). Qed.
Print Assumptions C47_clip_refuted.
Example C47_case : let a := of_list 0%R [3] [1; 5; 9]%R in (2 <= 6)%R ∧ unary_shape (sh a) ∧ (∀ i, i < asize a → dat a i ≠ 2%R ∧ dat a i ≠ 6%R) ∧ 1 < 2.
Proof.
  split_and!; [lra|simpl; lia| |lia]. intros i Hi. do 3 (destruct i as [|i]; [simpl; lra|]). unfold asize in Hi. simpl in Hi. lia.
Qed.

(* ------------------------------------------------------------------ *)
(** C48. SumOfSquares *)
Theorem C48_sum_of_squares a : dat (sos_r a) 0 = rsum ((λ x, x * x)%R <$> elems a) ∧ fits (sos_jac a) 1 (asize a) ∧
  (∀ p, p < asize a → entry (sos_jac a) 0 p = (2 * dat a p)%R) ∧ diff1 sos_r (sos_jac a) a.
Proof. exact (conj (sos_value a) (sos_right a)). Qed.
Print Assumptions C48_sum_of_squares.
Example C48_case : asize (of_list 0%R [2; 2] [1; 2; 3; 4]%R) = 4.
Proof. done. Qed.

(* ------------------------------------------------------------------ *)
(** C19. These operations have right local Jacobians, so C19_dr_wrt_is_jacobian_arrays
    applies to expressions that use them. *)
Theorem C19_reduction_is_right m tms ax q a y : axis_term tms = Some ax → red_r m ax a = Some y →
  (m = Fmean → ax = None → nth 0 (sh a) 0 = asize a) → op_right (op_red m) tms [q] [a].
Proof. exact (red_op_right m tms ax q a y). Qed.
Print Assumptions C19_reduction_is_right.
Theorem C19_cumsum_is_right tms q a : axis_term tms = Some None → op_right op_cumsum tms [q] [a].
Proof. exact (cumsum_op_right tms q a). Qed.
Print Assumptions C19_cumsum_is_right.
Theorem C19_sum_of_squares_is_right tms q a : op_right op_sos tms [q] [a].
Proof. exact (sos_op_right tms q a). Qed.
Print Assumptions C19_sum_of_squares_is_right.
Theorem C19_extremum_is_right mx tms ax q a y : axis_term tms = Some ax → ext_r mx ax a = Some y → sole mx ax a →
  op_right (op_ext mx) tms [q] [a].
Proof. exact (ext_op_right mx tms ax q a y). Qed.
Print Assumptions C19_extremum_is_right.
Theorem C19_clip_is_right q lo hi a : (lo <= hi)%R → unary_shape (sh a) → (∀ i, i < asize a → dat a i ≠ lo ∧ dat a i ≠ hi) →
  op_right op_clip [Some (NArr (full [] lo)); Some (NArr (full [] hi))] [q] [a].
Proof. exact (clip_op_right q lo hi a). Qed.
Print Assumptions C19_clip_is_right.
Example C19_reductions_case : axis_term [Some (NZs [1]%Z)] = Some (Some 1%Z) ∧ axis_term [None] = Some None ∧
  red_r Fmean (Some 1%Z) (of_list 0%R [2; 2] [1; 2; 3; 4]%R) ≠ None.
Proof. done. Qed.
