(** Model of reductions over several axes and of the keywords given to them
    (chumpy/ch_ops.py:308-371, 613-670; chumpy/ch.py:121-129, 467-482, 574-578,
    1124-1128).  Real numbers stand for floats; a result without axes is left as it is
    (Ch.r makes it an array of one element). *)
From Coq Require Import Reals.
From stdpp Require Import strings list list_numbers numbers gmap.
From Verif Require Import ArrModel ElemModel ReorderModel RedModel.

(* ------------------------------------------------------------------ *)
(** What the caller gives as axis. *)
Inductive axes := AxNone | AxOne (k : Z) | AxTuple (t : list Z).
(** numpy's normalisation of a tuple: every axis exists and none occurs twice *)
Definition naxes (n : nat) (t : list Z) : option (list nat) :=
  l ← mapM (naxis n) t; if decide (NoDup l) then Some l else None.
(** The entries of [v] whose position, counted from [o], is not in [l]. *)
Fixpoint kept_from {T} (o : nat) (l : list nat) (v : list T) : list T :=
  match v with
  | [] => []
  | x :: v' => if decide (o ∈ l) then kept_from (S o) l v' else x :: kept_from (S o) l v'
  end.
Definition kept {T} (l : list nat) (v : list T) : list T := kept_from 0 l v.
(** numpy's reduction over several axes at once: the elements that agree with the place in
    the result on the axes that stay *)
Definition parts (l : list nat) (s : shp) (i : nat) : list nat :=
  filter (λ p, kept l (unravel s p) = unravel (kept l s) i) (seq 0 (size s)).
Definition fold_axes (f : list R → R) (l : list nat) (a : arr R) : arr R :=
  Arr_ (kept l (sh a)) (λ i, f (dat a <$> parts l (sh a) i)).

(* ------------------------------------------------------------------ *)
(** The four reductions. *)
Inductive rop := Osum | Omean | Oext (mx : bool).
Definition f_op (o : rop) (l : list R) : R :=
  match o with Osum => f_red Fsum l | Omean => f_red Fmean l | Oext mx => list_best mx l end.
(** np.sum, np.mean, np.amax, np.amin of a tuple of axes; the last two raise if there are
    no elements to reduce *)
Definition np_axes (o : rop) (t : list Z) (a : arr R) : option (arr R) :=
  l ← naxes (length (sh a)) t;
  match o with
  | Oext _ => if decide (0 ∈ ((λ k, nth k (sh a) 0) <$> l)) then None else Some (fold_axes (f_op o) l a)
  | _ => Some (fold_axes (f_op o) l a)
  end.
(** numpy's functions by the form of the axis *)
Definition np_red (o : rop) (ax : axes) (a : arr R) : option (arr R) :=
  match ax with
  | AxTuple t => np_axes o t a
  | AxNone => match o with Osum => red_r Fsum None a | Omean => red_r Fmean None a | Oext mx => ext_r mx None a end
  | AxOne k => match o with Osum => red_r Fsum (Some k) a | Omean => red_r Fmean (Some k) a | Oext mx => ext_r mx (Some k) a end
  end.

(* ------------------------------------------------------------------ *)
(** Keywords besides axis: keepdims, dtype, and a name that neither numpy's function nor
    the class knows (a slip of the pen). *)
Inductive kw := Keepdims (b : bool) | Dtype | Unknown (name : string).
(** An object made by one of the calls. *)
Record robj := Robj { ro_op : rop; ro_axis : axes; ro_attrs : list kw }.
(** The functions ch.sum(x, axis=ax, ...) are the classes themselves: __new__ hands all
    keywords to set (ch.py:121-129), which sets each as an attribute (ch.py:467-482).
    dtype is a property without setter (ch.py:207-209), so that raises AttributeError.
    The methods (ch.py:574-578, 1124-1128) have axis as their only parameter: TypeError. *)
Inductive form := Function | Method.
Definition make (f : form) (o : rop) (ax : axes) (kws : list kw) : option robj :=
  match f with
  | Function => if existsb (λ k, match k with Dtype => true | _ => false end) kws then None else Some (Robj o ax kws)
  | Method => match kws with [] => Some (Robj o ax []) | _ => None end
  end.
(** compute_r (ch_ops.py:318-319, 352-353, 626-627): only axis is read *)
Definition value (x : robj) (a : arr R) : option (arr R) := np_red (ro_op x) (ro_axis x) a.
(** compute_dr_wrt (ch_ops.py:321-337, 355-371, 629-653).  With a tuple np.rollaxis raises
    TypeError (sum, mean); stride\[axis\] raises IndexError for two axes or more and argmax
    raises TypeError for any tuple (max, min). *)
Definition jacobian (x : robj) (a : arr R) : option spm :=
  match ro_axis x with
  | AxTuple _ => None
  | AxNone => match ro_op x with Osum => red_jac Fsum None a | Omean => red_jac Fmean None a | Oext mx => ext_jac mx None a end
  | AxOne k => match ro_op x with Osum => red_jac Fsum (Some k) a | Omean => red_jac Fmean (Some k) a | Oext mx => ext_jac mx (Some k) a end
  end.

(* ------------------------------------------------------------------ *)
(** Calls written one after the other: along axis k, then along the next one of the list
    in the result, and so on. *)
Fixpoint steps (f : form) (o : rop) (ks : list nat) (a : arr R) : option (arr R) :=
  match ks with
  | [] => Some a
  | k :: ks' => x ← make f o (AxOne (Z.of_nat k)) []; y ← value x a; steps f o ks' y
  end.
(** dr_wrt in forward mode multiplies the Jacobians (ch.py:756-790), starting with the
    identity for the variable itself. *)
Fixpoint steps_jac (f : form) (o : rop) (ks : list nat) (a : arr R) : option spm :=
  match ks with
  | [] => Some (diags (replicate (asize a) 1%R))
  | k :: ks' =>
    x ← make f o (AxOne (Z.of_nat k)) [];
    y ← value x a; J ← jacobian x a; K ← steps_jac f o ks' y; Some (mmul K J)
  end.
