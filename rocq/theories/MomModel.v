(** Model of moment (chumpy/extras.py:58-72), gamma (extras.py:45-55) and std
    (chumpy/ch_ops.py:380-383), over the models of mean, expand_dims, subtraction and
    power.  The order of a moment is a natural number. *)
From Coq Require Import Reals.
From stdpp Require Import gmap list list_numbers numbers.
From Verif Require Import ArrModel ElemModel ReorderModel RedModel HelpModel.

(** What the call returns: an object with this value, or a number which is not an object. *)
Inductive mom := Obj (y : arr R) | Plain (x : R).

(** a - mn (extras.py:70-71): the mean along the axis, as an object, is at least
    one-dimensional when expand_dims looks at it *)
Definition mean_r (ax : Z) (a : arr R) : option (arr R) := atleast_1d <$> red_r Fmean (Some ax) a.
Definition mn_r (ax : Z) (a : arr R) : option (arr R) := m ← mean_r ax a; view_r (expand_shape ax (sh m)) m.
Definition minus_r (a mn : arr R) : option (arr R) :=
  match bshape (sh a) (sh mn) with Some _ => Some (binary Bsubtract a mn) | None => None end.
(** power(…, moment): the number becomes an object of shape (1,) *)
Definition pow_r (k : nat) (d : arr R) : arr R := binary Bpower d (full [1] (INR k)).
(** moment, other than the first (extras.py:69-72) *)
Definition central_r (k : nat) (ax : Z) (a : arr R) : option (arr R) :=
  mn ← mn_r ax a; d ← minus_r a mn; mean_r ax (pow_r k d).
(** moment (extras.py:58-72); None: raises *)
Definition moment_r (k : nat) (ax : Z) (a : arr R) : option mom :=
  if decide (k = 1) then
    i ← naxis (length (sh a)) ax;
    Some (match delete i (sh a) with [] => Plain 0 | s => Obj (full s 0%R) end)
  else Obj <$> central_r k ax a.
(** dr_wrt(a) of that object: the Jacobians of its parts multiplied along the paths to a *)
Definition central_jac (k : nat) (ax : Z) (a : arr R) : option spm :=
  m ← mean_r ax a;
  Jm ← red_jac Fmean (Some ax) a;
  mn ← mn_r ax a;
  d ← minus_r a mn;
  Ja ← (binary_jac Bsubtract true false a mn no_templates).2;
  Jb ← (binary_jac Bsubtract false true a mn no_templates).2;
  Jp ← (binary_jac Bpower true false d (full [1] (INR k)) no_templates).2;
  Js ← red_jac Fmean (Some ax) (pow_r k d);
  Some (mmul Js (mmul Jp (madd Ja (mmul Jb (mmul (reshape_jac m) Jm))))).

(** std: the square root of var (ch_ops.py:380-383) *)
Definition std_r (ax : option Z) (a : arr R) : option (arr R) := unary Usqrt <$> (atleast_1d <$> var_r ax a).

(** gamma (extras.py:45-55), for any functions in place of scipy's gamma and digamma *)
Definition gamma_r (G : R → R) (a : arr R) : arr R := Arr_ (sh a) (λ i, G (dat a i)).
Definition gamma_jac (G psi : R → R) (a : arr R) : spm := diags ((λ x, psi x * G x)%R <$> elems a).
