(** Vocabulary for arrays with missing values. *)
From Coq Require Import Reals.
From stdpp Require Import list list_numbers numbers gmap.
From Verif Require Import ArrModel Curve RedModel RedSpec NanModel.

(** The order of the values that are not NaN. *)
Inductive below : ev → ev → Prop :=
| below_num x y : (x <= y)%R → below (Num x) (Num y)
| below_top e : e ≠ NaN → below e PInf
| below_bottom e : e ≠ NaN → below NInf e.
(** [p] holds the extreme value among those elements of [l] that are not NaN, and is the first to do so. *)
Definition extreme_known (mx : bool) (a : arr ev) (l : list nat) (p : nat) : Prop :=
  p ∈ l ∧ dat a p ≠ NaN ∧
  ∀ q, q ∈ l → dat a q ≠ NaN → (if mx then below (dat a q) (dat a p) else below (dat a p) (dat a q)) ∧ (dat a q = dat a p → p ≤ q).
(** The first NaN. *)
Definition first_nan (a : arr ev) (l : list nat) (p : nat) : Prop := p ∈ l ∧ dat a p = NaN ∧ ∀ q, q ∈ l → dat a q = NaN → p ≤ q.
(** Every part of the reduction has an element that is not NaN. *)
Definition some_known (ax : option Z) (a : arr ev) (n : nat) : Prop :=
  ∀ i l, i < n → gathers ax (sh a) i l → ∃ q, q ∈ l ∧ dat a q ≠ NaN.
(** The least extreme value. *)
Definition hopeless (mx : bool) (e : ev) : Prop := if mx then e = NInf else e = PInf.
(** Extreme values that are numbers are attained once. *)
Definition sole_known (mx : bool) (ax : option Z) (a : arr ev) : Prop :=
  ∀ i l p q x, gathers ax (sh a) i l → extreme_known mx a l p → dat a p = Num x → q ∈ l → q ≠ p → dat a q ≠ dat a p.

(** A curve of arrays in which numbers move with velocity [v], and all other elements stay. *)
Definition alike (e f : ev) : Prop := match e, f with Num _, Num _ => True | _, _ => e = f end.
Definition emoves (y : R → arr ev) (v : nat → R) : Prop :=
  near (λ t, sh (y t) = sh (y 0%R) ∧ ∀ i, i < asize (y 0%R) → alike (dat (y 0%R) i) (dat (y t) i)) ∧
  ∀ i x, i < asize (y 0%R) → dat (y 0%R) i = Num x → derivable_pt_lim (λ t, num (dat (y t) i)) 0%R (v i).
(** [J] is the derivative of [f] at [a]. *)
Definition ediff (f : arr ev → arr ev) (J : spm) (a : arr ev) : Prop :=
  ∀ y v, y 0%R = a → emoves y v → emoves (λ t, f (y t)) (mact J v).
(** The largest finite double: one unit in the last place below 2^1024. *)
Definition biggest_double : R := (2 ^ 1024 - 2 ^ 971)%R.
