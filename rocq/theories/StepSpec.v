(** Vocabulary for step functions. *)
From Coq Require Import Reals.
From stdpp Require Import list list_numbers numbers gmap.
From Verif Require Import ArrModel ElemModel ElemSpec StepModel.

(** What the step functions are. *)
Definition step_of (f : sfun) (x y : R) : Prop :=
  match f with
  | Sfloor => (∃ k, y = IZR k) ∧ (y <= x < y + 1)%R
  | Sceil => (∃ k, y = IZR k) ∧ (y - 1 < x <= y)%R
  | Ssign => (0 < x ∧ y = 1 ∨ x < 0 ∧ y = -1 ∨ x = 0 ∧ y = 0)%R
  end.
Definition holds (f : cfun) (x y : R) : Prop :=
  match f with
  | Cgreater => (x > y)%R | Cgreater_equal => (x >= y)%R | Cless => (x < y)%R | Cless_equal => (x <= y)%R
  | Cequal => x = y | Cnot_equal => x ≠ y
  end.
(** Where they jump. *)
Definition jumps (f : sfun) (x : R) : Prop := match f with Ssign => x = 0%R | _ => ∃ k, x = IZR k end.
(** [P] of all elements that meet when [a] and [b] are broadcast. *)
Definition meeting (P : R → R → Prop) (a b : arr R) : Prop :=
  ∀ out ix jx kx, bshape (sh a) (sh b) = Some out → inside out ix → feeds (sh a) ix jx → feeds (sh b) ix kx → P (at_ a jx) (at_ b kx).
Definition zero_jac (r c : nat) : spm := Spm r c [].
