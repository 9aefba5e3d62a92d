(** Properties C36 and C37: indexing, item assignment and reshaping. *)
From Coq Require Import Reals Lra.
From stdpp Require Import gmap strings list list_numbers numbers relations.
From Verif Require Import EngineModel EngineSpec GraphSpec ArrModel Curve ElemModel ElemSpec ElemThms ReorderModel ReorderSpec
  ReorderThms IndexThms NpModel NpSpec NpThms ReorderOps ViewSpec ViewThms NpDemo IndexDemo.

(* ------------------------------------------------------------------ *)
(** C36. a\[key\].r is numpy's a.r\[key\], and raises when numpy does. *)
Theorem C36_getitem k a b : np_getitem 0%R k a = Some b → ∃ c, getitem k a = Some c ∧ aeq c (atleast_1d b).
Proof. exact (getitem_numpy k a b). Qed.
Print Assumptions C36_getitem.
Theorem C36_getitem_raises k a : np_getitem 0%R k a = None → getitem k a = None.
Proof. exact (getitem_raises k a). Qed.
Print Assumptions C36_getitem_raises.
Example C36_getitem_case :
  (sh <$> np_getitem 0%R (KBasic [IDots; ISlice None None (-2); INew]) (of_list 0%R [2; 3] [1; 2; 3; 4; 5; 6]%R)) = Some [2; 2; 1] ∧
  (elems <$> np_getitem 0%R (KBasic [IDots; ISlice None None (-2); INew]) (of_list 0%R [2; 3] [1; 2; 3; 4; 5; 6]%R)) = Some [3; 1; 6; 4]%R ∧
  np_getitem 0%R (KBasic [INum 2]) (of_list 0%R [2; 3] [1; 2; 3; 4; 5; 6]%R) = None.
Proof. done. Qed.

(** Assigning to items of a basic object: elements not selected stay; if no element is
    selected twice, reading the key gives the value, broadcast. *)
Theorem C36_setitem_base k x v y tmp : setitem_base k x v = Some y → np_getitem 0 k (arange (sh (atleast_1d x))) = Some tmp →
  sh y = sh (atleast_1d x) ∧ (∀ j, j ∉ elems tmp → dat y j = dat x j) ∧
  (NoDup (elems tmp) → ∃ z, np_getitem 0%R k y = Some z ∧ sh z = sh tmp ∧ ∀ p, p < asize tmp → dat z p = dat v (bidx (sh v) (sh tmp) p)).
Proof. exact (setitem_base_spec k x v y tmp). Qed.
Print Assumptions C36_setitem_base.
Example C36_setitem_base_case : ∃ y tmp, setitem_base (KBasic [INum 1]) (of_list 0%R [2; 3] [1; 2; 3; 4; 5; 6]%R) (Arr_ [] (λ _, 9%R)) = Some y ∧
  np_getitem 0 (KBasic [INum 1]) (arange [2; 3]) = Some tmp ∧ elems y = [1; 2; 3; 9; 9; 9]%R ∧ elems tmp = [3; 4; 5].
Proof. eexists _, _. done. Qed.

(** C36. Assigning through a chain of selections, reshapes and reorderings, after any
    history.  Element i of the view o is element col i of the basic object w; dr_wrt
    has its ones there; if no element occurs twice, then assigning v makes o hold v and
    leaves the elements of w that o does not show unchanged.  (setitem_view is what
    __setitem__ stores into w, J being the derivative it asks for.) *)
Theorem C36_setitem_view l : valid nplib l → ∀ o w c0 x o' b,
  attrs l !! w = Some c0 → c_cls nplib c0 = NBase → c_attr nplib c0 !! "x"%string = Some (narr x) → o' ∉ dom (attrs l) →
  views (attrs l) w o → reads nplib (after l) o QR b → ∃ col J,
  (∀ i, i < asize b → col i < asize x ∧ dat b i = dat x (col i)) ∧
  reads_dr nplib (after l) o w (Some J) ∧ picks J (asize b) (asize x) col ∧
  ((∀ i i', i < asize b → i' < asize b → col i = col i' → i = i') → ∀ v, asize v = asize b →
    ∃ y b', setitem_view J x v = Some y ∧ sh y = sh (atleast_1d x) ∧
      reads nplib (after (l ++ [OSet nplib w "x" (narr y) o'])) o QR b' ∧ sh b' = sh b ∧ (∀ i, i < asize b → dat b' i = dat v i) ∧
      ∀ j, j < asize x → (∀ i, i < asize b → col i ≠ j) → dat y j = dat x j).
Proof. exact (view_assign l). Qed.
Print Assumptions C36_setitem_view.
(** A selection that shows an element twice: the assigned values are added up. *)
Theorem C36_duplicate_refuted : ∃ x v y, select [0; 0] None x ≠ None ∧ setitem_view (select_jac [0; 0] (asize x)) x v = Some y ∧
  ∃ z, select [0; 0] None y = Some z ∧ dat z 0 ≠ dat v 0 ∧ dat z 0 ≠ dat v 1.
Proof. exact view_write_twice. Qed.
Print Assumptions C36_duplicate_refuted.
(** One number for several elements raises, where numpy would broadcast. *)
Theorem C36_scalar_refuted dr x v : asize v = 1 → nrow dr ≠ 1 → setitem_view dr x v = None.
Proof. exact (view_scalar_raises dr x v). Qed.
Print Assumptions C36_scalar_refuted.
Example C36_scalar_case : nrow (select_jac [0; 2] 3) = 2 ∧ ∀ x, bshape [] [2] = Some [2] ∧ np_setitem (KInts [2] [0; 2]%Z) (Arr_ [3] x) (Arr_ [] (λ _, 1%R)) ≠ None.
Proof. done. Qed.

(** x of shape 2 x 3, y = x.T, z = y\[\[5, 0\]\] *)
Example C36_view_case a : sh a = [2; 3] → valid nplib (picked a) ∧ views (attrs (picked a)) 1 3 ∧
  ∃ b, reads nplib (after (picked a)) 3 QR b ∧ elems b = [dat a 5; dat a 0].
Proof. exact (picked_case a). Qed.

(* ------------------------------------------------------------------ *)
(** C37. The shape is the one asked for, -1 standing for what makes the size right; the
    elements stay in order. *)
Theorem C37_reshape_value ns (a b : arr R) : reshaped ns a = Some b →
  shape_asked (asize a) ns (sh b) ∧ ∀ i, dat b i = dat a i.
Proof. exact (reshape_value ns a b). Qed.
Print Assumptions C37_reshape_value.
Example C37_case : (sh <$> reshaped [2; -1]%Z (of_list 0%R [3; 2] [1; 2; 3; 4; 5; 6]%R)) = Some [2; 3] ∧
  reshaped [4; -1]%Z (of_list 0%R [3; 2] [1; 2; 3; 4; 5; 6]%R) = None.
Proof. done. Qed.
(** The Jacobian is the identity, and the derivative. *)
Theorem C37_reshape_jacobian ns a b : reshaped ns a = Some b → fits (reshape_jac a) (asize b) (asize a) ∧
  diff1 (λ x, default x (reshaped ns x)) (reshape_jac a) a ∧
  ∀ i j, i < asize a → entry (reshape_jac a) i j = if decide (j = i) then 1%R else 0%R.
Proof. exact (reshape_right ns a b). Qed.
Print Assumptions C37_reshape_jacobian.
(** A reshape of x refers to the innermost array below x, which is no Reshape, and the
    value is the one it would have if it referred to x. *)
Theorem C37_reshape_collapses (g : gmap oid (core nplib)) x a :
  (∀ y c p, g !! y = Some c → c_cls nplib c = NOp p → is_reshape c = true → p = op_reshape) → denotes nplib g x QR a →
  (∀ n ns b, reshaped ns a = Some b → ∃ a' b', denotes nplib g (innermost n g x) QR a' ∧
    reshaped ns a' = Some b' ∧ sh b' = sh b ∧ ∀ i, dat b' i = dat b i) ∧
  ∃ N, ∀ n c, N ≤ n → g !! innermost n g x = Some c → is_reshape c = false.
Proof. exact (reshape_collapses g x a). Qed.
Print Assumptions C37_reshape_collapses.
(** y is a reshape of a reshape of x: a further reshape refers to x *)
Example C37_collapse_case a : asize a = 6 → (∃ b, denotes nplib (attrs (reshapes a)) 3 QR b ∧ sh b = [2; 3]) ∧
  innermost 9 (attrs (reshapes a)) 3 = 1 ∧
  ∀ y c p, attrs (reshapes a) !! y = Some c → c_cls nplib c = NOp p → is_reshape c = true → p = op_reshape.
Proof. exact (reshapes_case a). Qed.

(* ------------------------------------------------------------------ *)
(** C19. Selections, reshapes and the reorderings that fill in no zeros have right local
    Jacobians, so C19_dr_wrt_is_jacobian_arrays applies to expressions with views. *)
Theorem C19_view_is_right p tms q a b : view_class p tms (sh a) → np_r p tms [a] = Some b → op_right p tms [q] [a].
Proof. exact (view_op_right p tms q a b). Qed.
Print Assumptions C19_view_is_right.
Example C19_view_case : view_class op_select [Some (NInts [1; 1]); None] [3] ∧
  np_r op_select [Some (NInts [1; 1]); None] [of_list 0%R [3] [1; 2; 3]%R] ≠ None.
Proof. split; [by right; left|done]. Qed.
