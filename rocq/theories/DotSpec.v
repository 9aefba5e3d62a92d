(** What the products mean, on multi-indices. *)
From Coq Require Import Reals Sorted.
From stdpp Require Import list list_numbers numbers gmap.
From Verif Require Import ArrModel Curve ElemModel ReorderModel ReorderSpec.

(** The matrix product of arrays: the last axis of [a] is summed against the only axis of
    the vector [b], or against the last but one axis of [b]. *)
Definition is_dot (a b y : arr R) : Prop :=
  ∃ sa n, sh a = sa ++ [n] ∧
  ((sh b = [n] ∧ sh y = sa ∧
    ∀ ix, inside sa ix → at_ y ix = rsum ((λ l, at_ a (ix ++ [l]) * at_ b [l])%R <$> seq 0 n)) ∨
   (∃ sb p, sh b = sb ++ [n; p] ∧ sh y = sa ++ sb ++ [p] ∧
    ∀ ix jx j, inside sa ix → inside sb jx → j < p →
      at_ y (ix ++ jx ++ [j]) = rsum ((λ l, at_ a (ix ++ [l]) * at_ b (jx ++ [l; j]))%R <$> seq 0 n))).
(** Shapes that can be multiplied. *)
Definition dot_shapes (s t : shp) : Prop := ∃ sa n, s = sa ++ [n] ∧ (t = [n] ∨ ∃ sb p, t = sb ++ [n; p]).

(** The cross product of vectors, row by row. *)
Definition cross3 (u v : nat → R) (c : nat) : R :=
  match c with
  | 0 => (u 1%nat * v 2%nat - u 2%nat * v 1%nat)%R
  | 1 => (u 2%nat * v 0%nat - u 0%nat * v 2%nat)%R
  | _ => (u 0%nat * v 1%nat - u 1%nat * v 0%nat)%R
  end.

(** A multi-index [mx] made of [ix] on the axes that are not in [ax], in their order, and
    [cx] on those that are. *)
Definition made_of (ax : list nat) (mx ix cx : list nat) : Prop :=
  (∀ i k, ax !! i = Some k → mx !! k = cx !! i) ∧
  ∃ others : list nat, (∀ k, k ∈ others ↔ k < length mx ∧ k ∉ ax) ∧ StronglySorted lt others ∧ length ix = length others ∧
    ∀ i k, others !! i = Some k → mx !! k = ix !! i.
(** tensordot over the axes [axa] and [axb] *)
Definition is_tensordot (axa axb : list nat) (a b y : arr R) : Prop :=
  ∃ sa sb sc, made_of axa (sh a) sa sc ∧ made_of axb (sh b) sb sc ∧ length sc = length axa ∧ length sc = length axb ∧ sh y = sa ++ sb ∧
    ∀ ix jx, inside sa ix → inside sb jx → ∃ ma mb : list nat → list nat,
      (∀ cx, inside sc cx → inside (sh a) (ma cx) ∧ made_of axa (ma cx) ix cx ∧ inside (sh b) (mb cx) ∧ made_of axb (mb cx) jx cx) ∧
      at_ y (ix ++ jx) = rsum ((λ i, at_ a (ma (unravel sc i)) * at_ b (mb (unravel sc i)))%R <$> seq 0 (size sc)).
(** The axes numbers [la] and [lb] mean the distinct axes [axa] and [axb], of equal
    lengths pair by pair, none of length zero. *)
Definition axes_ok (a b : arr R) (la lb : list Z) (axa axb : list nat) : Prop :=
  Forall2 (axis_is (length (sh a))) la axa ∧ Forall2 (axis_is (length (sh b))) lb axb ∧ NoDup axa ∧ NoDup axb ∧ length axa = length axb ∧
  (∀ i k l, axa !! i = Some k → axb !! i = Some l → sh a !! k = sh b !! l) ∧ ∀ k, k ∈ axa → sh a !! k ≠ Some 0.
