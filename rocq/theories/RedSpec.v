(** Vocabulary for reductions. *)
From Coq Require Import Reals.
From stdpp Require Import list list_numbers numbers gmap.
From Verif Require Import ArrModel Curve ReorderSpec RedModel.

(** Element [p] of an array of shape [s] goes into element [i] of the reduction. *)
Definition goes_into (ax : option Z) (s : shp) (p i : nat) : Prop :=
  match ax with
  | None => True
  | Some k => ∃ a, axis_is (length s) k a ∧ delete a (unravel s p) = unravel (delete a s) i
  end.
(** [l] lists these elements. *)
Definition gathers (ax : option Z) (s : shp) (i : nat) (l : list nat) : Prop :=
  NoDup l ∧ ∀ p, p ∈ l ↔ p < size s ∧ goes_into ax s p i.
(** The shape of a reduction. *)
Definition reduced (ax : option Z) (s out : shp) : Prop :=
  match ax with None => out = [] | Some k => ∃ a, axis_is (length s) k a ∧ out = delete a s end.
(** The variance of a list of numbers. *)
Definition average (l : list R) : R := (rsum l / INR (length l))%R.
Definition variance (l : list R) : R := average ((λ x, (x - average l) * (x - average l))%R <$> l).

(** [p] holds the extreme value among the elements [l], and is the first to do so. *)
Definition extreme (mx : bool) (a : arr R) (l : list nat) (p : nat) : Prop :=
  p ∈ l ∧ ∀ q, q ∈ l → (if mx then dat a q <= dat a p else dat a p <= dat a q)%R ∧ (dat a q = dat a p → p ≤ q).
(** The extreme value is attained once in every part. *)
Definition sole (mx : bool) (ax : option Z) (a : arr R) : Prop :=
  ∀ i l p q, gathers ax (sh a) i l → extreme mx a l p → q ∈ l → q ≠ p → dat a q ≠ dat a p.
(** [x] is at least (at most) [y]. *)
Definition attains (mx : bool) (x y : R) : Prop := if mx then (y <= x)%R else (x <= y)%R.
Global Instance attains_dec mx x y : Decision (attains mx x y).
Proof. destruct mx; apply Rle_dec. Defined.
