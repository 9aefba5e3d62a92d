(** What Python's containers and comparisons make of the methods of Ch (chumpy/ch.py:
    199-200, 324-325, 1157-1163; chumpy/ch_ops.py:765-791).  An object is a number, its
    identity; the store gives its current value r, which has at least one axis. *)
From Coq Require Import Reals.
From stdpp Require Import list list_numbers numbers gmap.
From Verif Require Import ArrModel ElemModel ReorderModel StepModel ProtoModel.

Notation store := (nat → arr R).

(** x == y: Ch has no __eq__ (ch.py:1165-1166), so object.__eq__ of both sides answers
    NotImplemented unless they are the same object, and Python compares identities. *)
Definition py_eq (st : store) (x y : nat) : bool := bool_decide (x = y).
(** x != y and x < y as conditions: the truth of the new object (ch.py:1160, 1163), which
    is that of its length (ch.py:324-325).  None: it raises. *)
Definition py_ne (st : store) (x y : nat) : option bool := c ← py_compare Cnot_equal (st x) (st y); py_truth c.
Definition py_lt (st : store) (x y : nat) : option bool := c ← py_compare Cless (st x) (st y); py_truth c.
(** __hash__ (ch.py:199-200) *)
Definition py_hash (x : nat) : nat := x.

(* ------------------------------------------------------------------ *)
(** CPython's lists: an element is found if it is the object or compares equal. *)
Definition hit (st : store) (x e : nat) : bool := bool_decide (e = x) || py_eq st e x.
Definition py_in (st : store) (x : nat) (l : list nat) : bool := existsb (hit st x) l.
Fixpoint py_index_from (st : store) (i : nat) (x : nat) (l : list nat) : option nat :=
  match l with [] => None | e :: l' => if hit st x e then Some i else py_index_from st (S i) x l' end.
Definition py_index (st : store) (x : nat) (l : list nat) : option nat := py_index_from st 0 x l.
Fixpoint py_count (st : store) (x : nat) (l : list nat) : nat :=
  match l with [] => 0 | e :: l' => (if hit st x e then 1 else 0) + py_count st x l' end.
(** None: ValueError *)
Fixpoint py_remove (st : store) (x : nat) (l : list nat) : option (list nat) :=
  match l with [] => None | e :: l' => if hit st x e then Some l' else cons e <$> py_remove st x l' end.

(* ------------------------------------------------------------------ *)
(** Dictionaries: slots with hash, key and content, in order of insertion; a slot is found
    if the hashes agree and the key is the object or compares equal. *)
Record slot T := Slot { s_hash : nat; s_key : nat; s_item : T }.
Arguments Slot {T}. Arguments s_hash {T}. Arguments s_key {T}. Arguments s_item {T}.
Definition fits_slot {T} (st : store) (x : nat) (s : slot T) : bool := bool_decide (s_hash s = py_hash x) && hit st x (s_key s).
Fixpoint dict_get {T} (st : store) (x : nat) (d : list (slot T)) : option T :=
  match d with [] => None | s :: d' => if fits_slot st x s then Some (s_item s) else dict_get st x d' end.
Fixpoint dict_set {T} (st : store) (x : nat) (v : T) (d : list (slot T)) : list (slot T) :=
  match d with
  | [] => [Slot (py_hash x) x v]
  | s :: d' => if fits_slot st x s then Slot (s_hash s) (s_key s) v :: d' else s :: dict_set st x v d'
  end.
(** A program that fills a dictionary while values change. *)
Definition dict_of {T} (l : list (store * nat * T)) : list (slot T) := foldl (λ d e, dict_set e.1.1 e.1.2 e.2 d) [] l.

(* ------------------------------------------------------------------ *)
(** Sorting. *)
Inductive outcome := Sorted_ (l : list nat) | Raises | Merging.
(** CPython's count_run (Objects/listobject.c): how far the list goes on descending
    (ascending) from its first element; None: a comparison raises *)
Fixpoint run_on (lt : nat → nat → option bool) (desc : bool) (prev : nat) (l : list nat) : option nat :=
  match l with
  | [] => Some 0
  | e :: l' => t ← lt e prev; if Bool.eqb t desc then S <$> run_on lt desc e l' else Some 0
  end.
(** list.sort: a descending run is reversed in place; if the run is the whole list this is
    the answer.  Otherwise runs are merged, which is not modelled. *)
Definition py_sort (lt : nat → nat → option bool) (l : list nat) : outcome :=
  match l with
  | [] | [_] => Sorted_ l
  | x :: y :: l' =>
    match lt y x with
    | None => Raises
    | Some desc =>
      match run_on lt desc y l' with
      | None => Raises
      | Some n => if decide (n = length l') then Sorted_ (if desc then reverse l else l) else Merging
      end
    end
  end.
(** list.sort(reverse=True) reverses the list before and after. *)
Definition py_sort_reverse (lt : nat → nat → option bool) (l : list nat) : outcome :=
  match py_sort lt (reverse l) with Sorted_ m => Sorted_ (reverse m) | o => o end.
