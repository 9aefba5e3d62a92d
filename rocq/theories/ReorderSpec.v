(** Vocabulary for the reorderings: which element of the operand each element of the
    result is, stated on multi-indices. *)
From Coq Require Import Reals.
From stdpp Require Import list list_numbers numbers gmap.
From Verif Require Import ArrModel Curve ElemSpec ReorderModel.

(** Python's axis number [k] means axis [a] out of [n]. *)
Definition axis_is (n : nat) (k : Z) (a : nat) : Prop :=
  a < n ∧ (Z.of_nat a = k ∨ Z.of_nat a = k + Z.of_nat n)%Z.
(** Position [b] is where rollaxis puts axis [a]: before the axis [start]. *)
Definition before_axis (n : nat) (start : Z) (a b : nat) : Prop :=
  ∃ c : nat, c ≤ n ∧ (Z.of_nat c = start ∨ (start < 0 ∧ Z.of_nat c = start + Z.of_nat n))%Z ∧
    (if decide (a < c) then b + 1 = c else b = c).
(** Equal except at [a]. *)
Definition same_but (a : nat) (ix jx : list nat) : Prop := length ix = length jx ∧ ∀ b, b ≠ a → ix !! b = jx !! b.

(** Element [ix] of the result is element [jx] of the operand, of shape [s]. *)
Definition comes_from (r : rop) (s : shp) (ix jx : list nat) : Prop :=
  let n := length s in
  match r with
  | Transpose None => jx = reverse ix
  | Transpose (Some l) => ∀ i k, l !! i = Some k → ∃ a, axis_is n k a ∧ ix !! i = jx !! a
  | Swapaxes k1 k2 => ∃ a1 a2, axis_is n k1 a1 ∧ axis_is n k2 a2 ∧ ix !! a1 = jx !! a2 ∧ ix !! a2 = jx !! a1 ∧
      ∀ a, a ≠ a1 → a ≠ a2 → ix !! a = jx !! a
  | Rollaxis k start => ∃ a b, axis_is n k a ∧ before_axis n start a b ∧ ix !! b = jx !! a ∧ delete b ix = delete a jx
  | Roll h None => ∃ c, (Z.of_nat (ravel s ix) = Z.of_nat (ravel s jx) + h + c * Z.of_nat (size s))%Z
  | Roll h (Some k) => ∃ a i j d c, axis_is n k a ∧ same_but a ix jx ∧ ix !! a = Some i ∧ jx !! a = Some j ∧
      s !! a = Some d ∧ (Z.of_nat i = Z.of_nat j + h + c * Z.of_nat d)%Z
  | Rot90 k => ∃ i j i' j' rest n0 n1 t, s = n0 :: n1 :: t ∧ ix = i :: j :: rest ∧ jx = i' :: j' :: rest ∧
      ((k mod 4 = 0)%Z → i' = i ∧ j' = j) ∧
      ((k mod 4 = 1)%Z → i' = j ∧ i + j' + 1 = n1) ∧
      ((k mod 4 = 2)%Z → i + i' + 1 = n0 ∧ j + j' + 1 = n1) ∧
      ((k mod 4 = 3)%Z → j' = i ∧ j + i' + 1 = n0)
  | Tile reps => ∀ b j d, jx !! b = Some j → s !! b = Some d → ∃ c, ix !! (length ix - n + b) = Some (j + c * d)
  | Repeat m None => ∃ c, ix = [ravel s jx * m + c] ∧ c < m
  | Repeat m (Some k) => ∃ a j c, axis_is n k a ∧ same_but a ix jx ∧ jx !! a = Some j ∧ ix !! a = Some (j * m + c) ∧ c < m
  | Diag k =>
    match s with
    | [_] => ∃ j, jx = [j] ∧ ix = [j + Z.to_nat (- k); j + Z.to_nat k]
    | _ => ∃ i, ix = [i] ∧ jx = [i + Z.to_nat (- k); i + Z.to_nat k]
    end
  | DiagFlat k => ix = [ravel s jx + Z.to_nat (- k); ravel s jx + Z.to_nat k]
  end.

(** The shape of the result. *)
Definition shape_rule (r : rop) (s out : shp) : Prop :=
  let n := length s in
  match r with
  | Transpose _ | Swapaxes _ _ | Rollaxis _ _ => length out = n ∧ comes_from r s out s
  | Roll _ _ => out = s
  | Rot90 k => ∃ n0 n1 t, s = n0 :: n1 :: t ∧ out = if decide (k mod 2 = 0)%Z then s else n1 :: n0 :: t
  | Tile reps => length out = length reps `max` n ∧ ∀ k, dim out k = dim s k * dim reps k
  | Repeat m None => out = [size s * m]
  | Repeat m (Some k) => ∃ a d, axis_is n k a ∧ same_but a out s ∧ s !! a = Some d ∧ out !! a = Some (d * m)
  | Diag k =>
    match s with
    | [m] => out = [m + Z.abs_nat k; m + Z.abs_nat k]
    | _ => ∃ p q l, s = [p; q] ∧ out = [l] ∧
        ∀ i, i < l ↔ i + Z.to_nat (- k) < p ∧ i + Z.to_nat k < q
    end
  | DiagFlat k => out = [size s + Z.abs_nat k; size s + Z.abs_nat k]
  end.

(** The reorderings that fill in zeros: making a matrix out of its diagonal, unless it
    is 1 x 1. *)
Definition fills (r : rop) (s : shp) : Prop :=
  match r with
  | Diag k => length s = 1 ∧ (k ≠ 0%Z ∨ 1 < size s)
  | DiagFlat k => k ≠ 0%Z ∨ 1 < size s
  | _ => False
  end.

(** Every row (last axis) increasing. *)
Definition rows_increase (a : arr R) : Prop :=
  ∀ n i, last (sh a) = Some n → i < asize a → S i mod n ≠ 0 → (dat a i < dat a (S i))%R.
