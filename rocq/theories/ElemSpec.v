(** Vocabulary for the elementwise operations. *)
From Coq Require Import Reals.
From stdpp Require Import list list_numbers numbers gmap.
From Verif Require Import ArrModel Curve ElemModel.

(** Where the functions are differentiable. *)
Definition u_dom (f : ufun) (x : R) : Prop :=
  match f with
  | Ureciprocal | Uabsolute => x ≠ 0
  | Usqrt | Ulog => 0 < x
  | Uarcsin | Uarccos => -1 < x < 1
  | Utan => cos x ≠ 0
  | _ => True
  end%R.
Definition b_dom (f : bfun) (x y : R) : Prop :=
  match f with Bdivide => y ≠ 0 | Bpower => 0 < x | _ => True end%R.

(** numpy's broadcasting rule, stated on multi-indices: [ix] is a position of the
    result, [jx] the position of the operand it takes: aligned at the right, the same
    except that dimensions of size 1 stay at 0. *)
Definition feeds (s : shp) (ix jx : list nat) : Prop :=
  ∃ lead tail, ix = lead ++ tail ∧ length tail = length s ∧
    jx = zip_with (λ d k, if decide (d = 1) then 0 else k) s tail.

(** A history of Jacobian requests to the binary operations, whatever they were. *)
Definition jac_call : Type := bfun * bool * bool * arr R * arr R.
Definition after_calls (l : list jac_call) : templates :=
  foldl (λ st c, let '(f, wa, wb, a, b) := c in (binary_jac f wa wb a b st).1) no_templates l.

(** Shapes for which the Jacobian of a unary function is square: more than one entry along
    the first axis, or a single element in at most two dimensions. *)
Definition unary_shape (s : shp) : Prop :=
  match s with
  | [] => False
  | n :: s' => 1 < n ∨ (size s = 1 ∧ length s ≤ 2)
  end.
(** A row of n > 1 elements as a 1 x n array gets a 1 x n matrix. *)
Definition row12 : arr R := of_list 0%R [1; 2] [1%R; 1%R].
(** Elements that meet. *)
Definition meet (f : bfun → R → R → Prop) (g : bfun) (a b : arr R) : Prop :=
  ∀ out ix jx kx, bshape (sh a) (sh b) = Some out → inside out ix → feeds (sh a) ix jx → feeds (sh b) ix kx →
    f g (at_ a jx) (at_ b kx).

(** Zero when the class returns None. *)
Definition none_zero (o : option spm) (n : nat) : spm := default (Spm n n []) o.

(** numpy's rule for the shape: count dimensions from the right, missing ones are 1;
    two dimensions go together if they are equal or one of them is 1. *)
Definition dim (s : shp) (k : nat) : nat := nth k (reverse s) 1.
Definition broadcast_rule (s1 s2 out : shp) : Prop :=
  length out = length s1 `max` length s2 ∧
  ∀ k, (dim s1 k = dim s2 k ∨ dim s1 k = 1 ∨ dim s2 k = 1) ∧
       dim out k = if decide (dim s1 k = 1) then dim s2 k else dim s1 k.
