(** Property C80: equality, membership and sorting of objects. *)
From Coq Require Import Reals Lra.
From stdpp Require Import list list_numbers numbers gmap.
From Verif Require Import ArrModel ElemModel ProtoModel OwnModel OwnSpec OwnThms.

(** Different objects with equal values are not ==. *)
Theorem C80_eq_refuted : ∃ st x y, equal_values (st x) (st y) ∧ py_eq st x y = false.
Proof. exists (λ _, Arr_ [1] (λ _, 1%R)), 0, 1. done. Qed.
Print Assumptions C80_eq_refuted.
(** != is not the opposite: x != x holds for every object with an element, as x == x does;
    and x != y holds for all objects that can be compared, equal or not. *)
Theorem C80_ne_always st x y : asize (st x) ≠ 0 → asize (st y) ≠ 0 → (∃ s, bshape (sh (st x)) (sh (st y)) = Some s) → py_ne st x y = Some true.
Proof. exact (ne_true st x y). Qed.
Print Assumptions C80_ne_always.
Theorem C80_ne_refuted st x s : bshape (sh (st x)) (sh (st x)) = Some s → asize (st x) ≠ 0 → py_eq st x x = true ∧ py_ne st x x = Some true.
Proof. exact (ne_self st x s). Qed.
Print Assumptions C80_ne_refuted.
Example C80_ne_case : bshape (sh (counting 3)) (sh (counting 3)) = Some [1] ∧ asize (counting 3) ≠ 0 ∧ py_ne counting 3 3 = Some true.
Proof. done. Qed.

(** Lists: whatever the values are, an object is found exactly where it is itself. *)
Theorem C80_in st x l : py_in st x l = true ↔ x ∈ l.
Proof. exact (in_is st x l). Qed.
Print Assumptions C80_in.
Theorem C80_index st x l i : py_index st x l = Some i ↔ first_at x l i.
Proof. exact (index_is st x l i). Qed.
Print Assumptions C80_index.
Theorem C80_count st x l : py_count st x l = length (filter (x =.) l).
Proof. exact (count_is st x l). Qed.
Print Assumptions C80_count.
Theorem C80_remove st x l m : py_remove st x l = Some m ↔ ∃ i, first_at x l i ∧ m = delete i l.
Proof. exact (remove_is st x l m). Qed.
Print Assumptions C80_remove.
Example C80_list_case : let st : store := λ _, Arr_ [1] (λ _, 1%R) in
  py_in st 4 [7; 5] = false ∧ py_index st 5 [7; 5; 5] = Some 1 ∧ py_count st 5 [7; 5; 5] = 2 ∧ py_remove st 5 [7; 5; 5] = Some [7; 5].
Proof. done. Qed.
(** Dictionaries keyed by objects, filled while values change: what was stored last under
    the object itself. *)
Theorem C80_dict {T} st x (l : list (store * nat * T)) v : dict_get st x (dict_of l) = Some v ↔ last_under x l v.
Proof. exact (dict_right st x l v). Qed.
Print Assumptions C80_dict.
Example C80_dict_case : let one : store := λ _, Arr_ [1] (λ _, 1%R) in
  dict_get counting 2 (dict_of [(one, 2, true); (counting, 1, true); (one, 2, false)]) = Some false ∧
  dict_get counting 3 (dict_of [(one, 2, true)]) = None.
Proof. done. Qed.

(** sorted, with and without reverse=True, reverses every list of objects that can be
    compared, so lists in order are put out of order. *)
Theorem C80_sorted_always st l : comparable st l → py_sort (py_lt st) l = Sorted_ (reverse l) ∧ py_sort_reverse (py_lt st) l = Sorted_ (reverse l).
Proof. exact (sort_reverses st l). Qed.
Print Assumptions C80_sorted_always.
Theorem C80_sorted_refuted : ∃ st l m, comparable st l ∧ in_order st l ∧ py_sort (py_lt st) l = Sorted_ m ∧ ¬ in_order st m.
Proof. exact sort_wrong. Qed.
Print Assumptions C80_sorted_refuted.
Example C80_sorted_case : comparable counting [1; 3; 2].
Proof. exact (counting_comparable [1; 3; 2]). Qed.
