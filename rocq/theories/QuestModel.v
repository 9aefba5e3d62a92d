(** Questions about values: chumpy/logic.py, and argmax, nonzero and their like
    (chumpy/ch_ops.py:62-69, 793-796). *)
From Coq Require Import Reals.
From stdpp Require Import list list_numbers numbers.
From Verif Require Import ArrModel ElemModel ReorderModel RedModel NanModel MixModel ProtoModel.

(** A number counts as true if it is not zero; so do infinities and NaN. *)
Definition truth (e : ev) : bool := match e with Num x => bool_decide (x ≠ 0%R) | _ => true end.
(** numpy's answer element by element; isneginf is isinf and signbit *)
Inductive efun := Efinite | Einf | Enan | Eneginf | Eposinf | Enot.
Definition is_inf (e : ev) : bool := match e with PInf | NInf => true | _ => false end.
Definition e_f (f : efun) (e : ev) : bool :=
  match f with
  | Efinite => is_num e
  | Einf => is_inf e
  | Enan => is_nan e
  | Eneginf => is_inf e && match e with NInf => true | _ => false end
  | Eposinf => is_inf e && negb match e with NInf => true | _ => false end
  | Enot => negb (truth e)
  end.
(** np.all and np.any, of all elements or along an axis; keepdims leaves axes of one element *)
Inductive qfun := Qall | Qany.
Definition q_f (f : qfun) (l : list ev) : bool := match f with Qall => forallb truth l | Qany => existsb truth l end.
Definition kept (ax : option Z) (s : shp) : shp :=
  match ax with
  | None => replicate (length s) 1
  | Some k => match naxis (length s) k with Some k' => <[k' := 1]> s | None => s end
  end.
Definition np_ask (f : qfun) (ax : option Z) (keep : bool) (a : arr ev) : option (arr bool) :=
  (λ r, if keep then Arr_ (kept ax (sh a)) (dat r) else r) <$> np_fold (q_f f) ax a.
(** What is asked: the name of the function and its further arguments (logic.py:17-18, 29-31) *)
Inductive question := Each (f : efun) | Over (f : qfun) (ax : option Z) (keep : bool).
(** compute_r (logic.py:20-23): numpy's function of the value of a *)
Definition logic (q : question) (a : arr ev) : option (arr bool) :=
  match q with Each f => Some (amap (e_f f) a) | Over f ax keep => np_ask f ax keep a end.
(** r (ch.py:593-600): as doubles, with at least one axis *)
Definition bit (b : bool) : R := if b then 1%R else 0%R.
Definition logic_r (q : question) (a : arr ev) : option (arr R) := (λ b, atleast_1d (amap bit b)) <$> logic q a.
(** compute_dr_wrt (logic.py:25-26) *)
Definition logic_jac (q : question) (a : arr ev) : option spm := None.

(** np.argmax, np.argmin, np.nanargmax, np.nanargmin of a.r (ch_ops.py:62-64) raise if there is
    nothing to choose from *)
Definition ask_arg (nan mx : bool) (ax : option Z) (a : arr ev) : option (arr nat) :=
  n ← fold_count ax (sh a); if decide (n = 0) then None else argf nan mx ax a.
(** np.flatnonzero, np.nonzero (an array for each axis) and np.argwhere (the transpose of these)
    of a.r (ch_ops.py:66-69, 793-796) *)
Definition flatnonzero (a : arr ev) : list nat := trues (amap truth a).
Definition nonzero (a : arr ev) : list (list nat) :=
  (λ k, (λ i, nth k (unravel (sh a) i) 0) <$> flatnonzero a) <$> seq 0 (length (sh a)).
Definition argwhere (a : arr ev) : list (list nat) :=
  (λ j, (λ l, nth j l 0) <$> nonzero a) <$> seq 0 (length (flatnonzero a)).
(** the key nonzero(c) *)
Definition nonzero_key (a : arr ev) : list item :=
  (λ l, MInts [length l] (Z.of_nat <$> l)) <$> nonzero a.

(** A Ch as a key (ch.py:499-504): numpy asks for its array (ch.py:331-332), which is of floats,
    and refuses it as an index unless it is empty. *)
Definition key_of (c : arr R) : option item := if decide (asize c = 0) then Some (MInts (sh c) []) else None.
Definition by_ch (c : arr R) (a : arr R) : option (arr R) := k ← key_of c; any_getitem (np_mixed [k]) a.
