(** The methods T, transpose, reshape and ravel of Ch with the arguments as Python passes
    them, and the chains of objects they make above one Ch (chumpy/ch.py:192-197, 563-568,
    593-600; chumpy/reordering.py:28-54, 109-121, 165-185).  Not modelled: keyword
    arguments, order='F', the memo of Jacobians (C27). *)
From Coq Require Import Reals.
From stdpp Require Import list list_numbers numbers.
From Verif Require Import ArrModel ReorderModel.

(** A positional argument: a number, a tuple (or list) of numbers, None. *)
Inductive arg := ANum (k : Z) | ATuple (l : list Z) | ANone.
(** x.T, x.transpose( *args), x.reshape( *args), x.ravel() *)
Inductive mcall := CT | CTranspose (args : list arg) | CReshape (args : list arg) | CRavel.

(** The attribute axes of a transpose: None (set by on_changed, reordering.py:117-119, if
    it was not given), a tuple, or a number. *)
Inductive axes := NoAxes | Axes (l : list Z) | Axis (k : Z).
(** A Ch holding an array, and the objects above it.  newshape None stays None; a number
    is the same to numpy as a tuple with that number. *)
Inductive mobj := Leaf | Reshape_ (a : mobj) (newshape : option (list Z)) | Transpose_ (a : mobj) (ax : axes).

Definition num (a : arg) : option Z := match a with ANum k => Some k | _ => None end.
(** The class transpose with positional arguments (reordering.py:109-112): after the
    operand there is one name left in term_order, so that with two or more arguments
    setting the terms raises IndexError (ch.py:119-121). *)
Definition transpose_args (args : list arg) : option axes :=
  match args with
  | [] | [ANone] => Some NoAxes
  | [ATuple l] => Some (Axes l)
  | [ANum k] => Some (Axis k)
  | _ => None
  end.
(** newshape=args if len(args)>1 else args[0] (ch.py:192-193); args[0] raises if there is
    none.  Simplified: a tuple of other things than numbers raises here and not when the
    value is computed. *)
Definition reshape_args (args : list arg) : option (option (list Z)) :=
  match args with
  | [] => None
  | [ANone] => Some None
  | [ATuple l] => Some (Some l)
  | [ANum k] => Some (Some [k])
  | l => Some <$> mapM num l
  end.
(** reshape walks to the object below all Reshapes (reordering.py:182-185). *)
Fixpoint below (o : mobj) : mobj := match o with Reshape_ a _ => below a | _ => o end.
(** The object a method returns; None if it raises. *)
Definition mcall_ (c : mcall) (o : mobj) : option mobj :=
  match c with
  | CT => Some (Transpose_ o NoAxes)
  | CTranspose args => Transpose_ o <$> transpose_args args
  | CReshape args => Reshape_ (below o) <$> reshape_args args
  | CRavel => Some (Reshape_ (below o) (Some [(-1)%Z]))
  end.
Fixpoint mcalls (l : list mcall) (o : mobj) : option mobj :=
  match l with [] => Some o | c :: l => o' ← mcall_ c o; mcalls l o' end.

(** np.transpose(a, axes=axes): a number is taken for a tuple. *)
Definition axes_rop (ax : axes) : rop :=
  Transpose (match ax with NoAxes => None | Axes l => Some l | Axis k => Some [k] end).
(** a.reshape(newshape) for an ndarray; a.reshape(None) is a view of a. *)
Definition nd_reshape (ns : option (list Z)) (a : arr R) : option (arr R) :=
  match ns with None => Some a | Some l => reshaped l a end.
(** r, when the Ch below holds [x] (ch.py:593-600); None if it raises *)
Fixpoint mval (o : mobj) (x : arr R) : option (arr R) :=
  match o with
  | Leaf => Some (atleast_1d x)
  | Reshape_ a ns => b ← mval a x; atleast_1d <$> nd_reshape ns b
  | Transpose_ a ax => b ← mval a x; atleast_1d <$> reorder 0%R (axes_rop ax) b
  end.
(** compute_dr_wrt with respect to the operand, which has the value [b]: sp.eye for
    Reshape; for transpose unique_reorder_id makes a tuple of axes first and raises if it
    is a number (reordering.py:38-54, 115, 173-175).  Since r and the shape of the operand
    are read, it raises where r does; Reshape reads self.a.size only. *)
Definition local_jac (o : mobj) (b : arr R) : option spm :=
  match o with
  | Leaf => Some (reshape_jac b)
  | Reshape_ _ _ => Some (reshape_jac b)
  | Transpose_ _ (Axis _) => None
  | Transpose_ _ ax => reorder_jac (axes_rop ax) b
  end.
(** dr_wrt(x) for the Ch below (ch.py:729-780, 271-279): sp.eye for itself, otherwise the
    local Jacobian times the operand's; a product with the identity is left out. *)
Fixpoint mjac (o : mobj) (x : arr R) : option spm :=
  match o with
  | Leaf => Some (reshape_jac (atleast_1d x))
  | Reshape_ Leaf _ | Transpose_ Leaf _ => local_jac o (atleast_1d x)
  | Reshape_ a _ | Transpose_ a _ => b ← mval a x; J ← local_jac o b; K ← mjac a x; Some (mmul J K)
  end.
