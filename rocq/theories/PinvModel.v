(** Model of Pinv, lstsq and norm (chumpy/linalg.py:32-58, 83-99) over the reals, from the
    models of transpose, dot, inv, sum, power and sqrt. *)
From Coq Require Import Reals.
From stdpp Require Import list list_numbers numbers gmap.
From Verif Require Import ArrModel ElemModel ReorderModel RedModel DotModel LinModel.

(** x.T (ch.py:564-566) *)
Definition transp (a : arr R) : option (arr R) := reorder 0%R (Transpose None) a.
(** Pinv.on_changed and compute_r (linalg.py:86-95); only matrices have a shape[1] and can
    be inverted. *)
Definition pinv_r (a : arr R) : option (arr R) :=
  '(m, n) ← dims2 a; t ← transp a;
  if decide (m < n)
  then g ← np_dot a t; i ← np_inv g; np_dot t i
  else g ← np_dot t a; i ← np_inv g; np_dot i t.

(** Pinv.compute_dr_wrt (linalg.py:97-99): the dr_wrt of the expression, written out as
    the sum of products that dr_wrt forms (ch.py:756-778). *)
Definition dot_ja (a b : arr R) : option spm := mjoin (dot_jac true false a b).
Definition dot_jb (a b : arr R) : option spm := mjoin (dot_jac false true a b).
Definition pinv_jac (a : arr R) : option spm :=
  '(m, n) ← dims2 a; t ← transp a; T ← reorder_jac (Transpose None) a;
  if decide (m < n)
  then g ← np_dot a t; i ← np_inv g;
       G1 ← dot_ja a t; G2 ← dot_jb a t; I ← inv_jac g; P1 ← dot_ja t i; P2 ← dot_jb t i;
       Some (madd (mmul P1 T) (mmul P2 (mmul I (madd G1 (mmul G2 T)))))
  else g ← np_dot t a; i ← np_inv g;
       G1 ← dot_ja t a; G2 ← dot_jb t a; I ← inv_jac g; P1 ← dot_ja i t; P2 ← dot_jb i t;
       Some (madd (mmul P1 (mmul I (madd (mmul G1 T) G2))) (mmul P2 T)).

(** lstsq (linalg.py:47-58): x, the value of the ChLambda (C44), and the residuals; its
    Jacobians with respect to a and b. *)
Definition lstsq_x (a b : arr R) : option (arr R) := p ← pinv_r a; np_dot p b.
Definition lstsq_res (a b : arr R) : option (arr R) :=
  x ← lstsq_x a b; ax ← np_dot a x;
  red_r Fsum (Some 0%Z) (binary Bpower (binary Bsubtract ax b) (full [1] 2%R)).
Definition lstsq_jac (wrt_a : bool) (a b : arr R) : option spm :=
  p ← pinv_r a;
  if wrt_a then J ← dot_ja p b; P ← pinv_jac a; Some (mmul J P) else dot_jb p b.

(** norm (linalg.py:32-36): the value, and the product of the three Jacobians *)
Definition norm_sum (a : arr R) : option (arr R) := red_r Fsum None (binary Bpower a (full [1] 2%R)).
Definition norm_r (a : arr R) : option (arr R) := s ← norm_sum a; Some (unary Usqrt (atleast_1d s)).
Definition norm_jac (a : arr R) : option spm :=
  s ← norm_sum a; U ← unary_jac Usqrt (atleast_1d s);
  S ← red_jac Fsum None (binary Bpower a (full [1] 2%R));
  P ← (binary_jac Bpower true false a (full [1] 2%R) no_templates).2;
  Some (mmul U (mmul S P)).
