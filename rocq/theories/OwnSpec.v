(** Vocabulary for equality, membership and sorting of objects. *)
From Coq Require Import Reals.
From stdpp Require Import list list_numbers numbers gmap.
From Verif Require Import ArrModel ElemModel OwnModel.

(** Position [i] holds [x] for the first time. *)
Definition first_at (x : nat) (l : list nat) (i : nat) : Prop := l !! i = Some x ∧ ∀ j, j < i → l !! j ≠ Some x.
(** What a dictionary should hold under [x] after the assignments: the last one made under
    it, at whatever state of the values. *)
Definition last_under {T} (x : nat) (l : list (store * nat * T)) (v : T) : Prop :=
  ∃ l1 st l2, l = l1 ++ (st, x, v) :: l2 ∧ Forall (λ e, e.1.2 ≠ x) l2.
(** Objects that can be compared with each other and have elements. *)
Definition comparable (st : store) (l : list nat) : Prop :=
  ∀ x y, x ∈ l → y ∈ l → asize (st x) ≠ 0 ∧ ∃ s, bshape (sh (st x)) (sh (st y)) = Some s.
(** One-element objects in the order of their values. *)
Definition in_order (st : store) (l : list nat) : Prop :=
  ∀ i j x y, i < j → l !! i = Some x → l !! j = Some y → (dat (st x) 0 <= dat (st y) 0)%R.
(** All elements are equal. *)
Definition equal_values (a b : arr R) : Prop := sh a = sh b ∧ ∀ i, i < asize a → dat a i = dat b i.
