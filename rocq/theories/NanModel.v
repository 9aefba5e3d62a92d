(** Arrays of numbers, infinities and NaN: amax, amin, nanmax, nanmin and nan_to_num. *)
From Coq Require Import Reals.
From stdpp Require Import list list_numbers numbers gmap.
From Verif Require Import ArrModel ElemModel ReorderModel RedModel.

Inductive ev := Num (x : R) | PInf | NInf | NaN.
Definition is_nan (e : ev) : bool := match e with NaN => true | _ => false end.
Definition is_num (e : ev) : bool := match e with Num _ => true | _ => false end.
Definition num (e : ev) : R := match e with Num x => x | _ => 0%R end.
(** x < y in IEEE arithmetic *)
Definition elt (x y : ev) : bool :=
  match x, y with
  | NaN, _ | _, NaN => false
  | Num a, Num b => bool_decide (a < b)%R
  | NInf, NInf => false
  | NInf, _ => true
  | _, NInf => false
  | PInf, _ => false
  | _, PInf => true
  end.
Definition ebeats (mx : bool) (x y : ev) : bool := if mx then elt y x else elt x y.

(** np.maximum and np.minimum return NaN if either is NaN, np.fmax and np.fmin the other one. *)
Definition pick2 (nan mx : bool) (x y : ev) : ev :=
  if is_nan x then (if nan then y else x)
  else if is_nan y then (if nan then x else y)
  else if ebeats mx y x then y else x.
(** np.amax (np.maximum.reduce) and np.nanmax (np.fmax.reduce) of a list *)
Definition pick (nan mx : bool) (l : list ev) : ev := match l with [] => NaN | x :: l' => foldl (pick2 nan mx) x l' end.
(** np.argmax and np.argmin: the first of the extreme elements; NaN is more extreme than
    any other. *)
Definition abeats (mx : bool) (y x : ev) : bool := if is_nan x then false else if is_nan y then true else ebeats mx y x.
Fixpoint arg_from (mx : bool) (x : ev) (at_x i : nat) (l : list ev) : nat :=
  match l with
  | [] => at_x
  | y :: l' => if abeats mx y x then arg_from mx y i (S i) l' else arg_from mx x at_x (S i) l'
  end.
Definition arg (mx : bool) (l : list ev) : nat := match l with [] => 0 | x :: l' => arg_from mx x 0 1 l' end.
(** np.nanargmax and np.nanargmin replace NaN by the least extreme value … *)
Definition worst (mx : bool) : ev := if mx then NInf else PInf.
Definition patch (mx : bool) (e : ev) : ev := if is_nan e then worst mx else e.
(** … and raise if all elements of a part are NaN. *)
Definition argf (nan mx : bool) (ax : option Z) (a : arr ev) : option (arr nat) :=
  if nan then
    mask ← np_fold (forallb is_nan) ax a;
    if existsb Datatypes.id (elems mask) then None else np_fold (λ l, arg mx (patch mx <$> l)) ax a
  else np_fold (arg mx) ax a.

(** compute_r of amax, amin, nanmax and nanmin (ch_ops.py:625-626, 656-674) *)
Definition e_r (nan mx : bool) (ax : option Z) (a : arr ev) : option (arr ev) :=
  n ← fold_count ax (sh a); if decide (n = 0) then None else np_fold (pick nan mx) ax a.
(** compute_dr_wrt(self.a) (ch_ops.py:628-640) *)
Definition e_jac (nan mx : bool) (ax : option Z) (a : arr ev) : option spm :=
  r ← e_r nan mx ax a;
  '(mn, stride) ← stride_for_axis ax (amap num a);
  ix ← argf nan mx ax a;
  let JS := bop Nat.add mn (amap (λ i, stride * i) ix) in
  Some (coo (asize r) (asize a) (replicate (asize JS) 1%R) (seq 0 (asize JS)) (elems JS)).

(** nan_to_num (ch_ops.py:231-233); the largest double *)
Definition largest : R := ((2 ^ 53 - 1) * 2 ^ 971)%R.
Definition tame (e : ev) : ev := match e with Num x => Num x | PInf => Num largest | NInf => Num (- largest) | NaN => Num 0 end.
Definition n2n_r (a : arr ev) : arr ev := amap tame a.
Definition n2n_jac (a : arr ev) : option spm :=
  let result := amap (λ e, if is_num e then 1%R else 0%R) a in
  match sh result with
  | n :: _ => if decide (1 < n) then Some (diags (elems result)) else atleast_2d result
  | [] => None
  end.
