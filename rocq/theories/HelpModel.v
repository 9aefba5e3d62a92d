(** Model of vstack, hstack, dstack, atleast_1d, atleast_2d, atleast_3d, squeeze,
    expand_dims, fliplr and flipud (chumpy/reordering.py:305-355, 447-454), over the
    models of Reshape, __getitem__ and Concatenate.  Operands are given by their
    values r; that an ndarray is passed on to numpy is not modelled. *)
From Coq Require Import Reals.
From stdpp Require Import gmap list list_numbers numbers.
From Verif Require Import ArrModel ElemModel ReorderModel RepModel ConcModel.

(** AtleastNd.compute_r (reordering.py:309-320); None: it raises.  np.atleast_1d(xr).shape
    and so on by their documented meaning *)
Definition nd_shape (nd : nat) (s : shp) : option shp :=
  match nd with
  | 1 => Some (match s with [] => [1] | _ => s end)
  | 2 => Some (match s with [] => [1; 1] | [n] => [1; n] | _ => s end)
  | 3 => Some (match s with [] => [1; 1; 1] | [n] => [1; n; 1] | [m; n] => [m; n; 1] | _ => s end)
  | _ => None
  end.
Definition nd_r (nd : nat) (a : arr R) : option (arr R) :=
  t ← nd_shape nd (sh a); reshaped (Z.of_nat <$> t) a.
(** AtleastNd.compute_dr_wrt(self.x) (reordering.py:322-324) *)
Definition nd_jac : rep := Num 1.
(** atleast_2d(x) as an object: its only operand is x *)
Definition nd_node (x : nat) : rnode := RNode [x] (λ p, if decide (p = x) then Some nd_jac else None).

(** squeeze (reordering.py:339-343): the newshape of the Reshape it returns, computed from
    the shape at that time; np.squeeze raises unless the axis has length 1 *)
Definition squeeze_shape (ax : option Z) (s : shp) : option (list Z) :=
  match ax with
  | None => Some (Z.of_nat <$> filter (λ d, d ≠ 1) s)
  | Some k =>
    i ← naxis (length s) k;
    if decide (s !! i = Some 1) then Some (Z.of_nat <$> delete i s) else None
  end.
(** expand_dims (reordering.py:345-349); the axis counts in the result *)
Definition expand_shape (k : Z) (s : shp) : option (list Z) :=
  i ← naxis (S (length s)) k; Some (Z.of_nat <$> (take i s ++ 1 :: drop i s)).
(** r of the Reshape when the operand has the value [a] *)
Definition view_r (ns : option (list Z)) (a : arr R) : option (arr R) := ns ← ns; atleast_1d <$> reshaped ns a.

(** The keys of fliplr and flipud (reordering.py:351-355) *)
Definition fliplr_key : key := KBasic [ISlice None None 1; ISlice None None (-1)].
Definition flipud_key : key := KBasic [ISlice None None (-1); IDots].

(** hstack, vstack, dstack (reordering.py:447-454) *)
Definition hstack (l : list ctree) : option ctree := concatenate 1 l.
Definition lift_all (nd : nat) (vs : list (arr R)) : option (list ctree) := us ← mapM (nd_r nd) vs; Some (Leaf <$> us).
Definition vstack (vs : list (arr R)) : option ctree := l ← lift_all 2 vs; concatenate 0 l.
Definition dstack (vs : list (arr R)) : option ctree := l ← lift_all 3 vs; concatenate 2 l.
Definition stack_r (t : option ctree) : option (arr R) := t ← t; cval t.
