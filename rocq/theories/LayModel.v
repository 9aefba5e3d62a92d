(** The memory layout of arrays (numpy strides, in bytes), and the derivatives of amax and
    amin, which are computed from it (ch_ops.py:613-653). *)
From Coq Require Import Reals.
From stdpp Require Import list list_numbers numbers gmap.
From Verif Require Import ArrModel ElemModel ReorderModel RedModel.

(* ------------------------------------------------------------------ *)
(** Strides of a newly allocated array in C order. *)
Fixpoint fresh (s : shp) : list Z := match s with [] => [] | _ :: s' => (8 * Z.of_nat (size s'))%Z :: fresh s' end.
(** The flag C_CONTIGUOUS of numpy (1.12 and later): strides of axes of length 1 do not count. *)
Fixpoint contiguous (s : shp) (st : list Z) : bool :=
  match s, st with
  | [], [] => true
  | d :: s', x :: st' => (bool_decide (d = 1) || bool_decide (x = 8 * Z.of_nat (size s'))%Z) && contiguous s' st'
  | _, _ => false
  end.
(** np.asarray(…, order='C') in r (ch.py:596) and np.require in transpose (reordering.py:115):
    a copy only if the flag is not set. *)
Definition as_c (s : shp) (st : list Z) : list Z := if contiguous s st then st else fresh s.

(** Strides of the views numpy makes. np.transpose, np.swapaxes and np.rollaxis
    (reordering.py:110-142) permute them: axis i of the result is axis [ax] !! i. *)
Definition permuted {A} (d : A) (ax : list nat) (l : list A) : list A := (λ k, nth k l d) <$> ax.
(** np.rot90 (reordering.py:155-163): flips and swaps the first two axes. *)
Definition rotated (k : Z) (st : list Z) : list Z :=
  match st with
  | x :: y :: t =>
    match (k mod 4)%Z with
    | 0%Z => st
    | 1%Z => (- y)%Z :: x :: t
    | 2%Z => (- x)%Z :: (- y)%Z :: t
    | _ => y :: (- x)%Z :: t
    end
  | _ => st
  end.
(** a\[…, np.newaxis, …\] as the argument of Ch *)
Definition newaxis (k : nat) (st : list Z) : list Z := take k st ++ 0%Z :: drop k st.

(* ------------------------------------------------------------------ *)
Definition zmin (l : list Z) : Z := match l with [] => 0%Z | x :: l' => foldl Z.min x l' end.
(** np.round: to the nearest integer, ties to even. *)
Definition round_quot (n d : Z) : Z :=
  let '(n, d) := if bool_decide (d < 0)%Z then (- n, - d)%Z else (n, d) in
  let q := (n / d)%Z in
  match (2 * (n mod d) ?= d)%Z with
  | Lt => q
  | Gt => (q + 1)%Z
  | Eq => if Z.even q then q else (q + 1)%Z
  end.
(** np.asarray(np.round(m + (num / den) * j), dtype=np.uint32) (ch_ops.py:633). A quotient by
    zero is not a number or infinite; these, negative and large numbers have no specified cast. *)
Definition column (num den : Z) (m j : nat) : option nat :=
  if bool_decide (den = 0)%Z then None
  else
    let z := round_quot (Z.of_nat m * den + num * Z.of_nat j) den in
    if bool_decide (0 ≤ z < 4294967296)%Z then Some (Z.to_nat z) else None.
(** _stride_for_axis (ch_ops.py:642-653): mn, and the stride as a quotient *)
Definition stride_at (st : list Z) (ax : option Z) (a : arr R) : option (arr nat * (Z * Z)) :=
  match ax with
  | None => Some (Arr_ [1] (λ _, 0), (1, 1)%Z)
  | Some k =>
    mn ← np_fold list_min ax (arange (sh a));
    k' ← naxis (length (sh a)) k;
    Some (mn, (nth k' st 0%Z, zmin st))
  end.
(** compute_dr_wrt(self.a) of amax (true) and amin (false) for an array with the strides [st]
    (ch_ops.py:629-640). None if it raises or the result is not specified. csc_matrix
    raises if an index is out of range. *)
Definition ext_jac_at (st : list Z) (mx : bool) (ax : option Z) (a : arr R) : option spm :=
  r ← ext_r mx ax a;
  '(mn, (num, den)) ← stride_at st ax a;
  argf ← np_fold (argbest mx) ax a;
  if decide (asize r * asize a = 1) then Some (dense 1 1 (λ _ _, 1%R))
  else
    JS ← mapM Datatypes.id (elems (bop (column num den) mn argf));
    if decide (Forall (λ j, j < asize a) JS) then
      Some (coo (asize r) (asize a) (replicate (length JS) 1%R) (seq 0 (length JS)) JS)
    else None.
