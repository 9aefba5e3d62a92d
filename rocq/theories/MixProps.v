(** Property C75: every way of indexing. *)
From Coq Require Import Reals Lra Lia.
From stdpp Require Import prelude list_numbers.
From Verif Require Import ArrModel Curve ArrThms ElemModel ElemSpec ElemThms ReorderModel ReorderSpec MixModel MixSpec MixThms MixRules.

(** Indexing whatever moves elements: c\[key\].r is numpy's c.r\[key\] and raises where numpy does. *)
Theorem C75_value F : moves F → ∀ a b, F R a = Some b → ∃ c, any_getitem F a = Some c ∧ aeq c (atleast_1d b).
Proof. exact (any_value F). Qed.
Print Assumptions C75_value.
Theorem C75_raises F : moves F → ∀ a, F R a = None → any_getitem F a = None.
Proof. exact (any_raises F). Qed.
Print Assumptions C75_raises.
(** The derivative has a single one in each row, where the element picked is, and is the
    derivative of numpy's indexing. *)
Theorem C75_jacobian F : moves F → ∀ a b, F R a = Some b → ∃ J col, any_jac F a = Some J ∧ rows_are J (asize b) (asize a) col (λ _, 1%R) ∧
  (∀ i, i < asize b → dat b i = dat a (col i)) ∧ diff1 (λ x, default x (F R x)) J a.
Proof. exact (any_derivative F). Qed.
Print Assumptions C75_jacobian.
(** Later values, while the shape stays.  Missing: the shape changes. *)
Theorem C75_later_partial F : moves F → ∀ (a : arr R) a' b, F R a' = Some b → sh a' = sh a → ∃ c, any_later F (sh a) a' = Some c ∧ aeq c (atleast_1d b).
Proof. exact (any_stays F). Qed.
Print Assumptions C75_later_partial.
(** c\[-1\] of three numbers stays the third when there are four *)
Theorem C75_grown_refuted : ∃ F (a a' b c : arr R), moves F ∧ any_getitem F a ≠ None ∧ F R a' = Some b ∧ any_later F (sh a) a' = Some c ∧ ¬ aeq c (atleast_1d b).
Proof. exact any_grown. Qed.
Print Assumptions C75_grown_refuted.

(** numpy's keys move elements: numbers, slices, new axes, dots, index arrays, masks, in any
    order. *)
Theorem C75_mixed k : moves (np_mixed k).
Proof. exact (mixed_moves k). Qed.
Print Assumptions C75_mixed.
(** their elements: index arrays and slices are looked up independently *)
Theorem C75_rules k (a : arr R) l b : length (filter is_mdots k) ≤ 1 → parts k (sh a) = Some l → common l = Some b →
  ∃ c, np_mixed k R a = Some c ∧ sh c = take (front l) (sliced l) ++ b ++ drop (front l) (sliced l) ∧
  ∀ i1 ib i2, inside (take (front l) (sliced l)) i1 → inside b ib → inside (drop (front l) (sliced l)) i2 →
    at_ c (i1 ++ ib ++ i2) = at_ a (place b l ib (i1 ++ i2)).
Proof. exact (mixed_by k a l b). Qed.
Print Assumptions C75_rules.
(** two index arrays of the same shape pick pairs *)
Theorem C75_pairs t ks hs ns ms (a : arr R) d e s : sh a = d :: e :: s → mapM (naxis d) ks = Some ns → mapM (naxis e) hs = Some ms →
  length ks = size t → length hs = size t → ∃ b, np_mixed [MInts t ks; MInts t hs] R a = Some b ∧ sh b = t ++ s ∧
  ∀ ib ir, inside t ib → inside s ir → at_ b (ib ++ ir) = at_ a (nth (ravel t ib) ns 0 :: nth (ravel t ib) ms 0 :: ir).
Proof. exact (mixed_pairs t ks hs ns ms a d e s). Qed.
Print Assumptions C75_pairs.
(** np.ix_ picks every combination *)
Theorem C75_ix ks hs ns ms (a : arr R) d e s : sh a = d :: e :: s → mapM (naxis d) ks = Some ns → mapM (naxis e) hs = Some ms →
  ∃ b, np_mixed [MInts [length ks; 1] ks; MInts [1; length hs] hs] R a = Some b ∧ sh b = length ks :: length hs :: s ∧
  ∀ i j ir, i < length ks → j < length hs → inside s ir → at_ b (i :: j :: ir) = at_ a (nth i ns 0 :: nth j ms 0 :: ir).
Proof. exact (mixed_ix ks hs ns ms a d e s). Qed.
Print Assumptions C75_ix.
(** with a slice between the index arrays their axes come first, and otherwise where they are *)
Theorem C75_apart t ks hs ns ms (a : arr R) d f e s : sh a = d :: f :: e :: s → mapM (naxis d) ks = Some ns → mapM (naxis e) hs = Some ms →
  length ks = size t → length hs = size t → ∃ b, np_mixed [MInts t ks; MSlice None None 1; MInts t hs] R a = Some b ∧ sh b = t ++ f :: s ∧
  ∀ ib j ir, inside t ib → j < f → inside s ir → at_ b (ib ++ j :: ir) = at_ a (nth (ravel t ib) ns 0 :: j :: nth (ravel t ib) ms 0 :: ir).
Proof. exact (mixed_apart t ks hs ns ms a d f e s). Qed.
Print Assumptions C75_apart.
Theorem C75_behind t ks hs ns ms (a : arr R) f d e s : sh a = f :: d :: e :: s → mapM (naxis d) ks = Some ns → mapM (naxis e) hs = Some ms →
  length ks = size t → length hs = size t → ∃ b, np_mixed [MSlice None None 1; MInts t ks; MInts t hs] R a = Some b ∧ sh b = f :: t ++ s ∧
  ∀ j ib ir, j < f → inside t ib → inside s ir → at_ b (j :: ib ++ ir) = at_ a (j :: nth (ravel t ib) ns 0 :: nth (ravel t ib) ms 0 :: ir).
Proof. exact (mixed_behind t ks hs ns ms a f d e s). Qed.
Print Assumptions C75_behind.
(** without arrays or with a single one: the rules of C36 *)
Theorem C75_basic l (a : arr R) : same (np_getitem 0%R (KBasic l) a) (np_mixed (of_index <$> l) R a).
Proof. exact (mixed_basic l a). Qed.
Print Assumptions C75_basic.
Theorem C75_ints t l (a : arr R) : same (np_getitem 0%R (KInts t l) a) (np_mixed [MInts t l] R a).
Proof. exact (mixed_ints t l a). Qed.
Print Assumptions C75_ints.
Theorem C75_mask m (a : arr R) : sh m = sh a → sh a ≠ [] → same (np_getitem 0%R (KMask m) a) (np_mixed [MMask m] R a).
Proof. exact (mixed_mask m a). Qed.
Print Assumptions C75_mask.

(** x of shape 2 x 3 x 2 *)
Definition x232 : arr R := of_list 0%R [2; 3; 2] [0; 1; 2; 3; 4; 5; 6; 7; 8; 9; 10; 11]%R.
(** x\[\[0, 1, 1\], \[2, -1, 0\]\], x\[np.ix_(\[1, 0\], \[2, 0\])\], x\[1, :, \[0, 1, 1\]\], x\[..., \[0, 1, 1\], \[0, 1, 0\]\]
    and a mask for the first two axes *)
Example C75_case :
  (sh <$> any_getitem (np_mixed [MInts [3] [0; 1; 1]%Z; MInts [3] [2; -1; 0]%Z]) x232) = Some [3; 2] ∧
  (elems <$> any_getitem (np_mixed [MInts [3] [0; 1; 1]%Z; MInts [3] [2; -1; 0]%Z]) x232) = Some [4; 5; 10; 11; 6; 7]%R ∧
  (sh <$> any_getitem (np_mixed [MInts [2; 1] [1; 0]%Z; MInts [1; 2] [2; 0]%Z; MNum 1]) x232) = Some [2; 2] ∧
  (elems <$> any_getitem (np_mixed [MInts [2; 1] [1; 0]%Z; MInts [1; 2] [2; 0]%Z; MNum 1]) x232) = Some [11; 7; 5; 1]%R ∧
  (sh <$> any_getitem (np_mixed [MNum 1; MSlice None None (-1); MInts [3] [0; 1; 1]%Z]) x232) = Some [3; 3] ∧
  (elems <$> any_getitem (np_mixed [MNum 1; MSlice None None (-1); MInts [3] [0; 1; 1]%Z]) x232) = Some [10; 8; 6; 11; 9; 7; 11; 9; 7]%R ∧
  (sh <$> any_getitem (np_mixed [MDots; MInts [3] [0; 1; 1]%Z; MInts [3] [0; 1; 0]%Z; MNew]) x232) = Some [2; 3; 1] ∧
  (elems <$> any_getitem (np_mixed [MDots; MInts [3] [0; 1; 1]%Z; MInts [3] [0; 1; 0]%Z; MNew]) x232) = Some [0; 3; 2; 6; 9; 8]%R ∧
  (sh <$> any_getitem (np_mixed [MMask (of_list false [2; 3] [true; false; true; false; false; true]); MSlice (Some 1%Z) None 1]) x232) = Some [3; 1] ∧
  (elems <$> any_getitem (np_mixed [MMask (of_list false [2; 3] [true; false; true; false; false; true]); MSlice (Some 1%Z) None 1]) x232) = Some [1; 5; 11]%R ∧
  any_getitem (np_mixed [MInts [3] [0; 1; 1]%Z; MInts [2] [0; 1]%Z]) x232 = None ∧
  any_getitem (np_mixed [MInts [2] [0; 2]%Z]) x232 = None.
Proof. vm_compute. done. Qed.
(** x\[\[0, 1\], ..., \[0, 1\]\] and, the dots standing for no axis, x\[\[0, 1\], \[0, 1\], ..., \[0, 1\]\] *)
Example C75_gap_case :
  (sh <$> any_getitem (np_mixed [MInts [2] [0; 1]%Z; MDots; MInts [2] [0; 1]%Z]) x232) = Some [2; 3] ∧
  (sh <$> any_getitem (np_mixed [MSlice None None 1; MInts [2] [0; 1]%Z; MDots; MInts [2] [0; 1]%Z]) x232) = Some [2; 2] ∧
  (elems <$> any_getitem (np_mixed [MSlice None None 1; MInts [2] [0; 1]%Z; MDots; MInts [2] [0; 1]%Z]) x232) = Some [0; 6; 3; 9]%R ∧
  (elems <$> any_getitem (np_mixed [MSlice None None 1; MInts [2] [0; 1]%Z; MInts [2] [0; 1]%Z]) x232) = Some [0; 3; 6; 9]%R.
Proof. vm_compute. done. Qed.
Example C75_jacobian_case : ∃ b, np_mixed [MInts [3] [0; 1; 1]%Z; MInts [3] [2; -1; 0]%Z] R x232 = Some b ∧ sh b = [3; 2].
Proof. eexists. done. Qed.
Example C75_later_case : ∃ a' b, sh a' = sh x232 ∧ dat a' 4 ≠ dat x232 4 ∧ np_mixed [MInts [3] [0; 1; 1]%Z; MInts [3] [2; -1; 0]%Z] R a' = Some b.
Proof. exists (amap (λ v, v + 1)%R x232). eexists. split; [done|]. split; [cbn; lra|done]. Qed.
(** indexing that raises, by any key *)
Example C75_raises_case : np_mixed [MNum 2] R x232 = None.
Proof. done. Qed.
Example C75_pairs_case : sh x232 = [2; 3; 2] ∧ mapM (naxis 2) [0; 1; 1]%Z = Some [0; 1; 1] ∧ mapM (naxis 3) [2; -1; 0]%Z = Some [2; 2; 0] ∧ length [0; 1; 1]%Z = size [3].
Proof. done. Qed.
Example C75_apart_case : sh x232 = [2; 3; 2] ∧ mapM (naxis 2) [0; -1]%Z = Some [0; 1] ∧ mapM (naxis 2) [1; 1]%Z = Some [1; 1] ∧ mapM (naxis 3) [2; -1]%Z = Some [2; 2] ∧ length [0; -1]%Z = size [1; 2].
Proof. done. Qed.
Example C75_mask_case : ∃ m, sh m = sh x232 ∧ trues m = [1; 4].
Proof. exists (Arr_ [2; 3; 2] (λ i, bool_decide (i = 1 ∨ i = 4))). done. Qed.
Example C75_rules_case : ∃ l, parts [MNum 1; MSlice None None (-1); MInts [3] [0; 1; 1]%Z] (sh x232) = Some l ∧ common l = Some [3] ∧ front l = 0 ∧ sliced l = [3].
Proof. eexists. done. Qed.
