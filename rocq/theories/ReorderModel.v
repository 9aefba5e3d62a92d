(** Model of the reorderings (chumpy/reordering.py) and of indexing and item assignment
    (chumpy/ch.py:499-545). *)
From Coq Require Import Reals.
From stdpp Require Import list list_numbers numbers gmap sorting.
From Verif Require Import ArrModel ElemModel.

(* ------------------------------------------------------------------ *)
(** numpy's reordering functions: the shape of the result, and for each multi-index of
    the result the multi-index it is taken from, or None for a filled-in zero. *)
Definition plan : Type := shp * (list nat → option (list nat)).
Definition moved {T} (z : T) (p : plan) (a : arr T) : arr T :=
  Arr_ p.1 (λ i, match p.2 (unravel p.1 i) with Some jx => at_ a jx | None => z end).
Definition then_ (p q : plan) : plan := (q.1, λ ix, jx ← q.2 ix; p.2 jx).

(** Axis numbers; negative ones count from the end. *)
Definition naxis (n : nat) (k : Z) : option nat :=
  if decide (- Z.of_nat n ≤ k < Z.of_nat n)%Z then Some (Z.to_nat (k mod Z.of_nat n)) else None.
Definition pos (k : nat) (l : list nat) : nat :=
  match list_find (eq k) l with Some (i, _) => i | None => length l end.
(** np.transpose: axis k of the result is axis ax\[k\] of the array *)
Definition permute_axes (s : shp) (ax : list nat) : plan :=
  ((λ k, nth k s 0) <$> ax, λ ix, Some ((λ k, nth (pos k ax) ix 0) <$> seq 0 (length s))).
(** np.flip *)
Definition flip_axis (s : shp) (k : nat) : plan := (s, λ ix, Some (alter (λ i, nth k s 0 - 1 - i) k ix)).
Definition pad1 (n : nat) (l : list nat) : list nat := replicate (n - length l) 1 ++ l.
(** np.roll by [h] in a cycle of [n] *)
Definition rolled (n : nat) (h : Z) (i : nat) : nat := Z.to_nat ((Z.of_nat i - h) mod Z.of_nat n).
(** np.diag of a vector: the element that stands at (i, j) *)
Definition on_diag (k : Z) (ix : list nat) : option nat :=
  match ix with
  | [i; j] => if decide (Z.of_nat j - Z.of_nat i = k)%Z then Some (i `min` j) else None
  | _ => None
  end.

(** The parameters of the classes transpose, rollaxis, swapaxes, Roll, Rot90, Tile,
    Repeat, Diag, DiagFlat (reordering.py:67-163).  repeats is one number. *)
Inductive rop :=
  | Transpose (axes : option (list Z))
  | Rollaxis (axis start : Z)
  | Swapaxes (axis1 axis2 : Z)
  | Roll (shift : Z) (axis : option Z)
  | Rot90 (k : Z)
  | Tile (reps : list nat)
  | Repeat (n : nat) (axis : option Z)
  | Diag (k : Z)
  | DiagFlat (k : Z).
Global Instance rop_eq_dec : EqDecision rop.
Proof. solve_decision. Defined.

(** The functions reorder of these classes; None if numpy raises. *)
Definition plan_of (r : rop) (s : shp) : option plan :=
  let n := length s in
  match r with
  | Transpose None => Some (permute_axes s (reverse (seq 0 n)))
  | Transpose (Some l) =>
    ax ← mapM (naxis n) l;
    if decide (length ax = n ∧ NoDup ax) then Some (permute_axes s ax) else None
  | Swapaxes k1 k2 =>
    a1 ← naxis n k1; a2 ← naxis n k2;
    Some (permute_axes s (<[a1 := a2]> (<[a2 := a1]> (seq 0 n))))
  | Rollaxis k st =>
    a ← naxis n k;
    let st' := if decide (st < 0)%Z then (st + Z.of_nat n)%Z else st in
    if decide (0 ≤ st' < Z.of_nat n + 1)%Z then
      let st'' := if decide (a < Z.to_nat st') then Z.to_nat st' - 1 else Z.to_nat st' in
      let rest := delete a (seq 0 n) in
      Some (permute_axes s (take st'' rest ++ a :: drop st'' rest))
    else None
  | Roll h None => Some (s, λ ix, Some (unravel s (rolled (size s) h (ravel s ix))))
  | Roll h (Some k) => a ← naxis n k; Some (s, λ ix, Some (alter (rolled (nth a s 0) h) a ix))
  | Rot90 k =>
    match s with
    | _ :: _ :: _ =>
      let swap t := permute_axes t (1 :: 0 :: seq 2 (n - 2)) in
      if decide (k mod 4 = 0)%Z then Some (s, Some)
      else if decide (k mod 4 = 1)%Z then Some (then_ (flip_axis s 1) (swap s))
      else if decide (k mod 4 = 2)%Z then Some (then_ (flip_axis s 0) (flip_axis s 1))
      else Some (then_ (swap s) (flip_axis (swap s).1 1))
    | _ => None
    end
  | Tile reps =>
    let d := length reps `max` n in
    Some (zip_with Nat.mul (pad1 d s) (pad1 d reps), λ ix, Some (drop (d - n) (zip_with Nat.modulo ix (pad1 d s))))
  | Repeat m None => Some ([size s * m], λ ix, Some (unravel s (nth 0 ix 0 / m)))
  | Repeat m (Some k) => a ← naxis n k; Some (alter (Nat.mul m) a s, λ ix, Some (alter (λ i, i / m) a ix))
  | Diag k =>
    match s with
    | [m] => let d := m + Z.abs_nat k in Some ([d; d], λ ix, i ← on_diag k ix; Some [i])
    | [r; c] =>
      let up := Z.to_nat k in let down := Z.to_nat (- k) in
      Some ([(r - down) `min` (c - up)], λ ix, Some [nth 0 ix 0 + down; nth 0 ix 0 + up])
    | _ => None
    end
  | DiagFlat k => let d := size s + Z.abs_nat k in Some ([d; d], λ ix, i ← on_diag k ix; Some (unravel s i))
  end.
Definition reorder {T} (z : T) (r : rop) (a : arr T) : option (arr T) := (λ p, moved z p a) <$> plan_of r (sh a).

(** np.sort along the last axis (reordering.py:56-64) *)
Definition npsort {T} (z : T) (le : T → T → Prop) `{RelDecision T T le} (a : arr T) : arr T :=
  let n := default 0 (last (sh a)) in
  Arr_ (sh a) (λ i, nth (i mod n) (merge_sort le ((λ j, dat a (i / n * n + j)) <$> seq 0 n)) z).
Global Instance Rle_decision : RelDecision Rle := Rle_dec.

(* ------------------------------------------------------------------ *)
(** Reorder.compute_dr_wrt(self.a) (reordering.py:43-54): reorder the array of element
    numbers. *)
Definition position_matrix (rows : nat) (JS : arr nat) (cols : nat) : spm :=
  coo rows cols (replicate (asize JS) 1%R) (seq 0 (asize JS)) (elems JS).
Definition reorder_jac (r : rop) (a : arr R) : option spm :=
  b ← reorder 0%R r a; JS ← reorder 0 r (arange (sh a)); Some (position_matrix (asize b) JS (asize a)).
Definition sort_jac (a : arr R) : spm :=
  position_matrix (asize (npsort 0%R Rle a)) (npsort 0 le (arange (sh a))) (asize a).

(** unique_reorder_id of these classes: with or without the shape (reordering.py:73, 84,
    95, 106, 116, 128, 140, 150, 161).  An object never changes its class, so the name of
    the class may stand in the key. *)
Definition reorder_id (r : rop) (s : shp) : option shp * rop :=
  match r with
  | Roll _ _ | Repeat _ _ => (None, r)
  | _ => (Some s, r)
  end.
Notation lookup_ := (list ((option shp * rop) * spm)).
Definition find_id (k : option shp * rop) (st : lookup_) : option spm := snd <$> (snd <$> list_find (λ e, e.1 = k) st).
(** with the dictionary dr_lookup (reordering.py:49-54) *)
Definition reorder_jac_memo (r : rop) (a : arr R) (st : lookup_) : lookup_ * option spm :=
  match find_id (reorder_id r (sh a)) st with
  | Some J => (st, Some J)
  | None => match reorder_jac r a with
            | Some J => ((reorder_id r (sh a), J) :: st, Some J)
            | None => (st, None)
            end
  end.

(* ------------------------------------------------------------------ *)
(** Reshape (reordering.py:165-185).  newshape may have one -1. *)
Definition fill_shape (n : nat) (ns : list Z) : option shp :=
  let known := size (Z.to_nat <$> filter (λ d, d ≠ -1)%Z ns) in
  let s := (λ d, if decide (d = -1)%Z then n / known else Z.to_nat d) <$> ns in
  if decide (length (filter (λ d, d = -1)%Z ns) ≤ 1 ∧ Forall (λ d, -1 ≤ d)%Z ns ∧ size s = n ∧
      (length (filter (λ d, d = -1)%Z ns) = 0 ∨ known ≠ 0)) then Some s else None.
Definition reshaped {T} (ns : list Z) (a : arr T) : option (arr T) := (λ s, Arr_ s (dat a)) <$> fill_shape (asize a) ns.
Definition reshape_jac (a : arr R) : spm := diags (replicate (asize a) 1%R).

(* ------------------------------------------------------------------ *)
(** Select (reordering.py:276-301) *)
Definition select (idxs : list nat) (preferred : option shp) (a : arr R) : option (arr R) :=
  if decide (Forall (λ j, j < asize a) idxs) then
    match preferred with
    | None => Some (of_list 0%R [length idxs] ((λ j, dat a j) <$> idxs))
    | Some s => if decide (size s = length idxs) then Some (of_list 0%R s ((λ j, dat a j) <$> idxs)) else None
    end
  else None.
Definition select_jac (idxs : list nat) (n : nat) : spm :=
  coo (length idxs) n (replicate (length idxs) 1%R) (seq 0 (length idxs)) idxs.

(** The matrix kept in _dr_cached (reordering.py:289-301), for one Select: what it
    holds, the variables changed since on_changed ran, and the matrix. *)
Record sstate := SState { s_idxs : list nat; s_size : nat; s_which : list bool; s_kept : option spm }.
Inductive sevent := SIdxs (l : list nat) | SArray (n : nat) | SShape.
(** assignments: to idxs, to the array (of size n), to preferred_shape; the flag says
    whether it was idxs *)
Definition s_assign (e : sevent) (st : sstate) : sstate :=
  match e with
  | SIdxs l => SState l (s_size st) (true :: s_which st) (s_kept st)
  | SArray n => SState (s_idxs st) n (false :: s_which st) (s_kept st)
  | SShape => SState (s_idxs st) (s_size st) (false :: s_which st) (s_kept st)
  end.
(** _call_on_changed then compute_dr_wrt(self.a) *)
Definition s_request (st : sstate) : sstate * spm :=
  let kept := match s_kept st with
    | None => None
    | Some m => match s_which st with
                | [] => Some m
                | w => if decide (true ∈ w ∨ s_size st ≠ ncol m) then None else Some m
                end
    end in
  let m := default (select_jac (s_idxs st) (s_size st)) kept in
  (SState (s_idxs st) (s_size st) [] (Some m), m).

(* ------------------------------------------------------------------ *)
(** numpy indexing.  One index per axis: a number, a slice, None (np.newaxis) or ...;
    or an array of numbers for the first axis; or an array of booleans.  *)
Inductive index := INum (k : Z) | ISlice (start stop : option Z) (step : Z) | INew | IDots.
Inductive key := KBasic (l : list index) | KInts (s : shp) (l : list Z) | KMask (m : arr bool).

(** slice(start, stop, step).indices(n): first element and length, then the element
    numbers (Python's rules) *)
Definition clip_to (lo hi k : Z) : Z := Z.max lo (Z.min hi k).
Definition slice_elems (n : nat) (start stop : option Z) (step : Z) : option (list nat) :=
  let n := Z.of_nat n in
  let norm d k := match k with None => d | Some k => if decide (k < 0)%Z then (k + n)%Z else k end in
  if decide (step = 0)%Z then None
  else if decide (0 < step)%Z then
    let b := clip_to 0 n (norm 0%Z start) in let e := clip_to 0 n (norm n stop) in
    Some ((λ i, Z.to_nat (b + Z.of_nat i * step)) <$> seq 0 (Z.to_nat ((e - b + step - 1) / step)))
  else
    let b := clip_to (-1) (n - 1) (norm (n - 1)%Z start) in
    let e := match stop with None => (-1)%Z | Some _ => clip_to (-1) (n - 1) (norm n stop) end in
    Some ((λ i, Z.to_nat (b + Z.of_nat i * step)) <$> seq 0 (Z.to_nat ((b - e - step - 1) / - step))).

(** What each axis is indexed by, in order: one element; these elements, as an axis of
    the result; a new axis of the result. *)
Inductive sel := SOne (i : nat) | SMany (l : list nat) | SNew.
Definition on_axis (i : index) : bool := match i with INum _ | ISlice _ _ _ => true | _ => false end.
Definition count_axes (l : list index) : nat := length (filter on_axis l).
Fixpoint sels (l : list index) (s : shp) : option (list sel) :=
  match l with
  | [] => Some ((λ d, SMany (seq 0 d)) <$> s)
  | INew :: l' => (cons SNew) <$> sels l' s
  | IDots :: l' =>
    let k := length s - count_axes l' in
    (λ r, ((λ d, SMany (seq 0 d)) <$> take k s) ++ r) <$> sels l' (drop k s)
  | INum k :: l' =>
    match s with
    | [] => None
    | d :: s' => i ← naxis d k; (cons (SOne i)) <$> sels l' s'
    end
  | ISlice b e st :: l' =>
    match s with
    | [] => None
    | d :: s' => es ← slice_elems d b e st; (cons (SMany es)) <$> sels l' s'
    end
  end.
Fixpoint sel_shape (l : list sel) : shp :=
  match l with
  | [] => []
  | SOne _ :: l' => sel_shape l'
  | SMany es :: l' => length es :: sel_shape l'
  | SNew :: l' => 1 :: sel_shape l'
  end.
Fixpoint sel_index (l : list sel) (ix : list nat) : list nat :=
  match l, ix with
  | SOne i :: l', _ => i :: sel_index l' ix
  | SMany es :: l', i :: ix' => nth i es 0 :: sel_index l' ix'
  | SNew :: l', _ :: ix' => sel_index l' ix'
  | _, _ => []
  end.
(** positions of the true elements *)
Definition trues (m : arr bool) : list nat := filter (λ i, dat m i = true) (seq 0 (asize m)).
Definition is_dots (i : index) : bool := match i with IDots => true | _ => false end.
Definition index_plan (k : key) (s : shp) : option plan :=
  match k with
  | KBasic l =>
    if decide (length (filter is_dots l) ≤ 1) then
      sl ← sels l s; Some (sel_shape sl, λ ix, Some (sel_index sl ix))
    else None
  | KInts t l =>
    match s with
    | [] => None
    | d :: s' =>
      ns ← mapM (naxis d) l;
      if decide (size t = length l) then
        Some (t ++ s', λ ix, Some (nth (ravel t (take (length t) ix)) ns 0 :: drop (length t) ix))
      else None
    end
  | KMask m =>
    if decide (sh m = s) then Some ([length (trues m)], λ ix, Some (unravel s (nth (nth 0 ix 0) (trues m) 0))) else None
  end.
(** numpy's a\[key\] *)
Definition np_getitem {T} (z : T) (k : key) (a : arr T) : option (arr T) := (λ p, moved z p a) <$> index_plan k (sh a).

(** Ch.__getitem__ (ch.py:499-504): the terms of the Select it returns, and the value
    of this, [a] being the value of the array *)
Definition getitem_terms (k : key) (s : shp) : option (list nat * shp) :=
  tmp ← np_getitem 0 k (arange s); Some (elems tmp, sh tmp).
Definition getitem (k : key) (a : arr R) : option (arr R) :=
  '(idxs, newshape) ← getitem_terms k (sh a); atleast_1d <$> select idxs (Some newshape) a.

(** Ch.__setitem__ of a basic object (ch.py:510-514): numpy's data\[key\] = value, where
    value is broadcast to the shape of data\[key\]; of several values for one element
    the last one stays.  That data is the array that was given to the object, which
    changes too, is not modelled. *)
Fixpoint put (x : nat → R) (l : list (nat * R)) : nat → R :=
  match l with
  | [] => x
  | (j, v) :: l' => put (λ i, if decide (i = j) then v else x i) l'
  end.
Definition np_setitem (k : key) (x v : arr R) : option (arr R) :=
  tmp ← np_getitem 0 k (arange (sh x));
  if decide (bshape (sh v) (sh tmp) = Some (sh tmp)) then
    Some (Arr_ (sh x) (put (dat x) (zip (elems tmp) ((λ i, dat v (bidx (sh v) (sh tmp) i)) <$> seq 0 (asize tmp)))))
  else None.
Definition setitem_base (k : key) (x v : arr R) : option (arr R) := np_setitem k (atleast_1d x) v.

(** ... of a reordering (ch.py:526-545): [dr] is the derivative of self\[key\] with
    respect to the basic object inside, whose array is [x]; None if scipy raises. *)
Definition setitem_view (dr : spm) (x v : arr R) : option (arr R) :=
  if decide (asize v = nrow dr) then
    Some (Arr_ (sh (atleast_1d x)) (λ i, (dat x i + mact (mT dr) (elem v) i - mact (mT dr) (mact dr (elem x)) i)%R))
  else None.
