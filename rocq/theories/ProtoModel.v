(** What Python's builtins make of the methods of Ch (chumpy/ch.py:327-328, 499-504,
    549-559, 1136, 1158-1162): len, for loops, truth, float, int, max, min and sum.  An
    object is represented by its value r, which has at least one axis (ch.py:596). *)
From Coq Require Import Reals.
From stdpp Require Import list list_numbers numbers gmap.
From Verif Require Import ArrModel ElemModel ReorderModel StepModel.

(** __len__ (ch.py:327-328): len of an array is the length of its first axis; None: it
    raises (numpy's "len() of unsized object") *)
Definition py_len (a : arr R) : option nat := head (sh a).
(** Ch has no __iter__, so a for loop calls __getitem__ (ch.py:499-504) with 0, 1, … until
    it raises IndexError.  None: still running when the fuel is used up. *)
Fixpoint py_iter (fuel : nat) (i : Z) (a : arr R) : option (list (arr R)) :=
  match fuel with
  | O => None
  | S fuel' =>
    match getitem (KBasic [INum i]) a with
    | None => Some []
    | Some b => (cons b) <$> py_iter fuel' (i + 1) a
    end
  end.
(** idxs of the Selects that the loop makes (ch.py:501-504) *)
Fixpoint py_iter_idxs (fuel : nat) (i : Z) (s : shp) : option (list (list nat)) :=
  match fuel with
  | O => None
  | S fuel' =>
    match getitem_terms (KBasic [INum i]) s with
    | None => Some []
    | Some (idxs, _) => (cons idxs) <$> py_iter_idxs fuel' (i + 1) s
    end
  end.
(** bool(x): Ch has no __bool__ (and no __nonzero__), so it is len(x) != 0 *)
Definition py_truth (a : arr R) : option bool := (λ n, bool_decide (n ≠ 0)) <$> py_len a.
(** __float__ (ch.py:555-556): ndarray.__float__ raises unless there is one element *)
Definition py_float (a : arr R) : option R := if decide (asize a = 1) then Some (dat a 0) else None.
(** __int__ (ch.py:558-559): int of that element, towards zero *)
Definition py_int (a : arr R) : option Z :=
  (λ x, if Rle_dec 0 x then Int_part x else (- Int_part (- x))%Z) <$> py_float a.
(** r of the comparison of two objects (ch.py:1158-1162); None if numpy cannot broadcast *)
Definition py_compare (f : cfun) (a b : arr R) : option (arr R) :=
  match bshape (sh a) (sh b) with Some _ => Some (atleast_1d (cmp_r f a b)) | None => None end.
(** CPython's max and min of a list: the first object, replaced by each later one that
    compares greater (less) than what is kept *)
Fixpoint py_best (f : cfun) (best : arr R) (l : list (arr R)) : option (arr R) :=
  match l with
  | [] => Some best
  | b :: l' => c ← py_compare f b best; t ← py_truth c; py_best f (if t : bool then b else best) l'
  end.
Definition py_max (l : list (arr R)) : option (arr R) := match l with [] => None | a :: l' => py_best Cgreater a l' end.
Definition py_min (l : list (arr R)) : option (arr R) := match l with [] => None | a :: l' => py_best Cless a l' end.
(** __add__ and __radd__ (ch.py:1136-1137): r of the sum; None if numpy cannot broadcast *)
Definition py_add (a b : arr R) : option (arr R) :=
  match bshape (sh a) (sh b) with Some _ => Some (atleast_1d (bop Rplus a b)) | None => None end.
(** sum(l): 0 + l\[0\] + l\[1\] + …; the number 0 becomes an object (ch.py:370-374), whose r has one axis *)
Fixpoint py_adds (acc : arr R) (l : list (arr R)) : option (arr R) :=
  match l with [] => Some acc | b :: l' => c ← py_add acc b; py_adds c l' end.
Definition py_sum (l : list (arr R)) : option (arr R) := py_adds (Arr_ [1] (λ _, 0%R)) l.
