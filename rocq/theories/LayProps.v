(** C60: the derivatives of extrema and the memory layout of arrays. *)
From Coq Require Import Reals.
From stdpp Require Import list list_numbers numbers gmap.
From Verif Require Import ArrModel Curve ElemModel ReorderModel ReorderSpec RedModel RedSpec LayModel LaySpec LayThms.

(** An array in C order none of whose strides is below the size of an item: the Jacobian has
    its 1 at the extreme element, and is the derivative where this is attained once. Missing:
    axes of length one with other strides, for which it is wrong (see below), and arrays
    of over 2^32 elements, whose indices are cut off. *)
Theorem C60_right_partial st mx ax a y : in_order (sh a) st → spaced st → 0 < asize a → (Z.of_nat (asize a) ≤ 4294967296)%Z → ext_r mx ax a = Some y →
  ∃ J, ext_jac_at st mx ax a = Some J ∧ fits J (asize y) (asize a) ∧
  (∀ i l p q, i < asize y → gathers ax (sh a) i l → extreme mx a l p → entry J i q = if decide (q = p) then 1%R else 0%R) ∧
  (sole mx ax a → diff1 (λ x, default x (ext_r mx ax x)) J a).
Proof. exact (at_right st mx ax a y). Qed.
Print Assumptions C60_right_partial.
Example C60_right_case : let a := row3 1 5 2 in let st := permuted 0%Z [1; 0] (fresh [3; 1]) in
  in_order (sh a) st ∧ spaced st ∧ st ≠ fresh (sh a) ∧ 0 < asize a ∧ (Z.of_nat (asize a) ≤ 4294967296)%Z ∧ ∃ y, ext_r true (Some 1%Z) a = Some y.
Proof. exact right_case. Qed.

(** The array r holds is in C order, whatever array compute_r returned, and is that array
    itself if it is in C order. *)
Theorem C60_r_in_order s st : in_order s (as_c s st).
Proof. exact (as_c_order s st). Qed.
Print Assumptions C60_r_in_order.
Theorem C60_r_shared s st : 0 < size s → in_order s st → as_c s st = st.
Proof. exact (as_c_keeps s st). Qed.
Print Assumptions C60_r_shared.
Example C60_r_case : in_order [1; 3] [8; 8]%Z ∧ as_c [1; 3] [8; 8]%Z = [8; 8]%Z ∧ ¬ in_order [2; 2] [8; 16]%Z ∧ as_c [2; 2] [8; 16]%Z = [16; 8]%Z.
Proof.
  split_and!; [by apply contiguous_order|done| |done]. intros [_ H]. specialize (H [0; 1] ltac:(repeat constructor)). discriminate H.
Qed.

(** Which arrays are fine: new ones, ones with their axes permuted, and views that are not
    in C order. *)
Theorem C60_fresh s : 0 < size s → in_order s (fresh s) ∧ spaced (fresh s).
Proof. exact (λ H, conj (contiguous_order s _ (fresh_contiguous s)) (fresh_spaced s H)). Qed.
Print Assumptions C60_fresh.
Theorem C60_permuted s st ax : 0 < size s → Forall (λ k, k < length st) ax → spaced st → spaced (as_c s (permuted 0%Z ax st)).
Proof. exact (λ Hs Hax H, as_c_spaced s _ Hs (permuted_spaced ax st Hax H)). Qed.
Print Assumptions C60_permuted.
Theorem C60_copied s st : 0 < size s → ¬ in_order s st → spaced (as_c s st).
Proof. exact (as_c_copies s st). Qed.
Print Assumptions C60_copied.
Example C60_layout_case : 0 < size [2; 3] ∧ fresh [2; 3] = [24; 8]%Z ∧ permuted 0%Z [1; 0] (fresh [2; 3]) = [8; 24]%Z ∧ ¬ in_order [2; 2] [-16; 8]%Z.
Proof.
  split_and!; [simpl; lia|done|done|]. intros [_ H]. specialize (H [1; 0] ltac:(repeat constructor)). discriminate H.
Qed.

(** The strides ascribed to the views: the element of the view at a multi-index lies in
    memory where the element it shows does. *)
Theorem C60_rotated_views k s st : length st = length s → ∃ base, ∀ ix jx, comes_from (Rot90 k) s ix jx → offset st jx = (base + offset (rotated k st) ix)%Z.
Proof. exact (rotated_views k s st). Qed.
Print Assumptions C60_rotated_views.
Theorem C60_permuted_views ax st ix jx : ax ≡ₚ seq 0 (length st) → length jx = length st → length ix = length ax →
  (∀ i k, ax !! i = Some k → ix !! i = jx !! k) → offset (permuted 0%Z ax st) ix = offset st jx.
Proof. exact (permuted_views ax st ix jx). Qed.
Print Assumptions C60_permuted_views.
Example C60_views_case : comes_from (Rot90 1) [2; 3] [0; 1] [1; 2] ∧ offset (fresh [2; 3]) [1; 2] = 40%Z ∧ offset (rotated 1 (fresh [2; 3])) [0; 1] = 24%Z ∧
  [1; 0] ≡ₚ seq 0 2 ∧ ∀ i k, [1; 0] !! i = Some k → [5; 7] !! i = [7; 5] !! k.
Proof.
  split_and!; [|done|done|by constructor|intros [|[|i]] k [= <-]; done].
  exists 0, 1, 1, 2, [], 2, 3, []. split_and!; try done; intros E; discriminate E.
Qed.

(** Refuted: the maximum down a column made by rot90 of a row; the Jacobian has its 1 at
    another element than the largest, or there is none. *)
Theorem C60_rot90_refuted : ∃ x b y J, reorder 0%R (Rot90 3) x = Some b ∧ ext_r true (Some 0%Z) b = Some y ∧
  ext_jac_at (as_c (sh b) (rotated 3 (fresh (sh x)))) true (Some 0%Z) b = Some J ∧ asize y = 1 ∧
  ∃ l p, gathers (Some 0%Z) (sh b) 0 l ∧ extreme true b l p ∧ sole true (Some 0%Z) b ∧ entry J 0 p = 0%R.
Proof. exact rot_wrong. Qed.
Print Assumptions C60_rot90_refuted.
Theorem C60_rot90_none_refuted : ∃ x b y, reorder 0%R (Rot90 3) x = Some b ∧ ext_r true (Some 0%Z) b = Some y ∧
  ext_jac_at (as_c (sh b) (rotated 3 (fresh (sh x)))) true (Some 0%Z) b = None.
Proof. exact rot_raises. Qed.
Print Assumptions C60_rot90_none_refuted.
(** Refuted: arrays with an axis added by np.newaxis never have a specified Jacobian along
    any axis, though they are in C order. *)
Theorem C60_newaxis_refuted k s mx ax a y : k ≤ length s → 1 < size s → sh a = take k s ++ 1 :: drop k s → ext_r mx (Some ax) a = Some y → asize y ≠ 0 →
  in_order (sh a) (newaxis k (fresh s)) ∧ ext_jac_at (newaxis k (fresh s)) mx (Some ax) a = None.
Proof. exact (newaxis_none k s mx ax a y). Qed.
Print Assumptions C60_newaxis_refuted.
Example C60_newaxis_case : let a := row3 1 5 2 in 0 ≤ length [3] ∧ 1 < size [3] ∧ sh a = take 0 [3] ++ 1 :: drop 0 [3] ∧ newaxis 0 (fresh [3]) = [0; 8]%Z ∧
  ∃ y, ext_r true (Some 1%Z) a = Some y ∧ asize y ≠ 0.
Proof. exact newaxis_case. Qed.
