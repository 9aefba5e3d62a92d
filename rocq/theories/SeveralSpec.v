(** Vocabulary for reductions over several axes. *)
From Coq Require Import Reals.
From stdpp Require Import strings list list_numbers numbers gmap.
From Verif Require Import ArrModel Curve ReorderSpec RedModel RedSpec SeveralModel.

(** Where axis [b] of the operand is found in the result: behind the axes before it that
    stay. *)
Definition new_place (l : list nat) (b : nat) : nat := length (filter (λ c, c ∉ l) (seq 0 b)).
(** [w] is what is left of [v] without the entries at the positions [l]. *)
Definition leaves {T} (l : list nat) (v w : list T) : Prop :=
  length w = new_place l (length v) ∧ ∀ b, b < length v → b ∉ l → w !! new_place l b = v !! b.
(** The axes meant by a tuple: each exists, none is meant twice. *)
Definition axes_are (n : nat) (t : list Z) (l : list nat) : Prop := Forall2 (axis_is n) t l ∧ NoDup l.
(** [ps] lists the elements of an array of shape [s] that agree with element [i] of the
    result, of shape [out], on the axes that stay. *)
Definition agreeing (l : list nat) (s out : shp) (i : nat) (ps : list nat) : Prop :=
  NoDup ps ∧ ∀ p, p ∈ ps ↔ p < size s ∧ leaves l (unravel s p) (unravel out i).
(** The reduction of some elements. *)
Definition reduces (o : rop) (a : arr R) (ps : list nat) (x : R) : Prop :=
  match o with
  | Osum => x = rsum (dat a <$> ps)
  | Omean => x = average (dat a <$> ps)
  | Oext mx => ∃ p, p ∈ ps ∧ x = dat a p ∧ ∀ q, q ∈ ps → attains mx (dat a p) (dat a q)
  end.
(** The same shape and the same elements. *)
Definition same (a b : arr R) : Prop := sh a = sh b ∧ ∀ i, i < asize a → dat a i = dat b i.
(** Calls whose answers agree. *)
Definition agree (x y : option (arr R)) : Prop :=
  match x, y with Some a, Some b => same a b | None, None => True | _, _ => False end.
(** What numpy leaves of a shape with keepdims=True. *)
Definition ones_at (l : list nat) (s out : shp) : Prop :=
  length out = length s ∧ ∀ b d, s !! b = Some d → out !! b = Some (if decide (b ∈ l) then 1 else d).
(** The axes a call reduces over. *)
Definition reduced_axes (n : nat) (ax : axes) (l : list nat) : Prop :=
  match ax with
  | AxNone => l = seq 0 n
  | AxOne k => ∃ a, axis_is n k a ∧ l = [a]
  | AxTuple t => axes_are n t l
  end.
(** From the last axis to the first. *)
Inductive falling : list nat → Prop :=
  | falling_nil : falling []
  | falling_cons k l : (∀ j, j ∈ l → j < k) → falling l → falling (k :: l).
(** Sums and means. *)
Definition smooth (o : rop) : Prop := match o with Oext _ => False | _ => True end.
(** The weight of each of n elements in a sum or a mean. *)
Definition share (o : rop) (n : nat) : R := match o with Omean => (1 / INR n)%R | _ => 1%R end.
(** In no part of the result, of shape [out], another element is equal to the extreme
    one. *)
Definition alone (mx : bool) (l : list nat) (a : arr R) (out : shp) : Prop := ∀ i ps p q, i < size out → agreeing l (sh a) out i ps →
  p ∈ ps → q ∈ ps → q ≠ p → (∀ r, r ∈ ps → attains mx (dat a p) (dat a r)) → dat a q ≠ dat a p.
