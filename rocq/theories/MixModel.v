(** Indexing by any key (chumpy/ch.py:499-504, chumpy/reordering.py:276-297), and numpy's rules
    for several index arrays. *)
From Coq Require Import Reals.
From stdpp Require Import list list_numbers numbers.
From Verif Require Import ArrModel ElemModel ReorderModel.

(** What a key does to arrays, whatever their elements; None if numpy raises. *)
Definition indexer := ∀ T : Type, arr T → option (arr T).
(** __getitem__ (ch.py:499-504): np.arange(np.prod(shape)).reshape(shape)[key], its elements and
    its shape are the terms of the Select *)
Definition any_terms (F : indexer) (s : shp) : option (list nat * shp) :=
  tmp ← F nat (arange s); Some (elems tmp, sh tmp).
(** the value of the Select when the array has the value [a], [s] being its shape when it was
    indexed *)
Definition any_later (F : indexer) (s : shp) (a : arr R) : option (arr R) :=
  '(idxs, newshape) ← any_terms F s; atleast_1d <$> select idxs (Some newshape) a.
Definition any_getitem (F : indexer) (a : arr R) : option (arr R) := any_later F (sh a) a.
(** its derivative (reordering.py:288-296) *)
Definition any_jac (F : indexer) (a : arr R) : option spm :=
  '(idxs, _) ← any_terms F (sh a); Some (select_jac idxs (asize a)).

(** Keys of numpy that are tuples: a number, a slice, np.newaxis, ..., an array of numbers, an
    array of booleans (with at least one axis).  Not here: the single boolean, names of fields. *)
Inductive item := MNum (k : Z) | MSlice (start stop : option Z) (step : Z) | MNew | MDots | MInts (t : shp) (l : list Z) | MMask (m : arr bool).
(** Items put on the axes of the array. Numbers are index arrays without axes, a mask is an index
    array for each of its axes. A gap is where dots were: they count as an item, also if they
    stand for no axis. *)
Inductive part := PSlice (es : list nat) | PNew | PGap | PIndex (t : shp) (ns : list nat).
Definition item_axes (i : item) : nat := match i with MNum _ | MSlice _ _ _ | MInts _ _ => 1 | MNew | MDots => 0 | MMask m => length (sh m) end.
Definition all_of (s : shp) : list part := (λ d, PSlice (seq 0 d)) <$> s.
Definition mask_parts (m : arr bool) : list part :=
  (λ k, PIndex [length (trues m)] ((λ i, nth k (unravel (sh m) i) 0) <$> trues m)) <$> seq 0 (length (sh m)).
Fixpoint parts (l : list item) (s : shp) : option (list part) :=
  match l with
  | [] => Some (all_of s)
  | MNew :: l' => (cons PNew) <$> parts l' s
  | MDots :: l' =>
    let k := length s - sum_list (item_axes <$> l') in
    (λ r, PGap :: all_of (take k s) ++ r) <$> parts l' (drop k s)
  | MMask m :: l' =>
    if decide (sh m ≠ [] ∧ take (length (sh m)) s = sh m) then (app (mask_parts m)) <$> parts l' (drop (length (sh m)) s) else None
  | MNum k :: l' => match s with [] => None | d :: s' => i ← naxis d k; (cons (PIndex [] [i])) <$> parts l' s' end
  | MSlice b e st :: l' => match s with [] => None | d :: s' => es ← slice_elems d b e st; (cons (PSlice es)) <$> parts l' s' end
  | MInts t ks :: l' =>
    match s with
    | [] => None
    | d :: s' => ns ← mapM (naxis d) ks; if decide (size t = length ks) then (cons (PIndex t ns)) <$> parts l' s' else None
    end
  end.
(** the common shape of the index arrays *)
Fixpoint common (l : list part) : option shp :=
  match l with [] => Some [] | PIndex t _ :: l' => b ← common l'; bshape t b | _ :: l' => common l' end.
(** the axes of the result that come from slices and new axes *)
Fixpoint sliced (l : list part) : shp :=
  match l with [] => [] | PSlice es :: l' => length es :: sliced l' | PNew :: l' => 1 :: sliced l' | _ :: l' => sliced l' end.
(** the element for an index [ib] among the index arrays and an index [ir] among the others *)
Fixpoint place (b : shp) (l : list part) (ib ir : list nat) : list nat :=
  match l with
  | [] => []
  | PSlice es :: l' => match ir with i :: ir' => nth i es 0 :: place b l' ib ir' | [] => [] end
  | PNew :: l' => match ir with _ :: ir' => place b l' ib ir' | [] => [] end
  | PGap :: l' => place b l' ib ir
  | PIndex t ns :: l' => nth (bidx t b (ravel b ib)) ns 0 :: place b l' ib ir
  end.
Definition is_index (p : part) : Prop := match p with PIndex _ _ => True | _ => False end.
Global Instance is_index_dec p : Decision (is_index p).
Proof. destruct p; solve_decision. Defined.
Fixpoint before (l : list part) : list part := match l with [] => [] | p :: l' => if decide (is_index p) then [] else p :: before l' end.
Fixpoint from (l : list part) : list part := match l with [] => [] | p :: l' => if decide (is_index p) then l else from l' end.
Fixpoint after (l : list part) : list part := match l with [] => [] | p :: l' => if decide (is_index p) then after l' else l end.
(** The axes of the index arrays are where these are, if they are next to each other, and
    otherwise in front. *)
Definition front (l : list part) : nat := if decide (Forall (λ p, ¬ is_index p) (after (from l))) then length (sliced (before l)) else 0.
Definition is_mdots (i : item) : bool := match i with MDots => true | _ => false end.
Definition mix_plan (k : list item) (s : shp) : option (shp * (list nat → list nat)) :=
  if decide (length (filter is_mdots k) ≤ 1) then
    l ← parts k s; b ← common l;
    let f := front l in
    Some (take f (sliced l) ++ b ++ drop f (sliced l),
          λ ix, place b l (take (length b) (drop f ix)) (take f ix ++ drop (f + length b) ix))
  else None.
(** numpy's a[key] *)
Definition np_mixed (k : list item) : indexer := λ T a,
  '(s, g) ← mix_plan k (sh a); Some (Arr_ s (λ i, at_ a (g (unravel s i)))).
