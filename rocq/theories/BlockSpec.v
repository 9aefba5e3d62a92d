(** Specification: the derivative of the residuals with respect to the stacked variables. *)
From Coq Require Import Reals.
From stdpp Require Import gmap list list_numbers.
From Verif Require Import ArrModel RepModel RepSpec RepOpsSpec BlockModel.

(** The elements of the stacked vector: object and position in it, in order. *)
Definition slots (size : nat → nat) (x : fvar) : list (nat * nat) :=
  match x with
  | Whole v => (λ k, (v, k)) <$> seq 0 (size v)
  | Pick v ix => (λ k, (v, k)) <$> ix
  end.
Definition stacked_slots (size : nat → nat) (fvs : list fvar) : list (nat * nat) := mbind (slots size) fvs.
(** The partial derivatives in that order. *)
Definition partials (T : nat → mat) (sl : list (nat * nat)) : mat := λ i j,
  match sl !! j with Some (v, k) => T v i k | None => 0%R end.
Definition base (x : fvar) : nat := match x with Whole v => v | Pick v _ => v end.
(** The indices of a selection exist. *)
Definition fits (size : nat → nat) (x : fvar) : Prop :=
  match x with Whole _ => True | Pick v ix => Forall (λ k, k < size v) ix end.
(** Concatenation of matrices side by side. *)
Fixpoint side_by_side (l : list (nat * mat)) : mat := λ i j,
  match l with
  | [] => 0%R
  | (m, A) :: l' => if decide (j < m) then A i j else side_by_side l' i (j - m)
  end.
(** [T v] is the total derivative of the objective with respect to [v]: it obeys the chain
    rule. *)
Definition total (g : rgraph) (size : nat → nat) (J : nat → nat → mat) (obj : nat) (T : nat → mat) (v : nat) : Prop :=
  ∃ Tv, chain_rule g size v J Tv ∧ T v = Tv obj.
(** The objective is not just the variable handed on. *)
Definition apart (g : rgraph) (size : nat → nat) (J : nat → nat → mat) (obj v : nat) : Prop :=
  obj ≠ v ∧ ¬ alias g size v J obj.
Definition whole (x : fvar) : Prop := match x with Whole _ => True | Pick _ _ => False end.
(** Matrices with n rows in any formats. *)
Definition all_mat (n : nat) : list rep → list (nat * mat) → Prop := Forall2 (λ r mA, is_mat r n mA.1 mA.2).
(** Classes return matrices in any format, without adding up too many operators (see C49), or
    hand on an operand. *)
Definition sums_right (g : rgraph) (size : nat → nat) (J : nat → nat → mat) (v : nat) : Prop :=
  ∀ o, proper g size J (λ _, true) o ∧ sums_few g size v J o ∨ handle g size J o.
