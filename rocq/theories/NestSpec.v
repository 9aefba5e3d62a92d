(** Specification: the objects as the program was written. *)
From Coq Require Import Reals.
From stdpp Require Import list list_numbers numbers.
From Verif Require Import ArrModel NestModel.

(** Every object holds on to what it was given. *)
Definition wstep (h : nheap) (c : ncmd) : nheap :=
  match c with
  | CLeaf a => h ++ [NLeaf a]
  | CCat ax ts => h ++ [NCat ax ts]
  | CResh ns t => h ++ [NResh ns t]
  | CFun f ts => h ++ [NFun f ts]
  | CSet o a => alter (put_value a) o h
  | CAssign o i t => alter (put_operand i t) o h
  end.
Definition written (h : nheap) (cs : list ncmd) : nheap := foldl wstep h cs.

(** Functions of arrays, not of what lies beyond their elements. *)
Definition of_arrays (f : list (arr R) → option (arr R)) : Prop :=
  ∀ vs ws y, Forall2 aeq vs ws → f vs = Some y → ∃ z, f ws = Some z ∧ aeq y z.
(** Operands of concatenations and reshapes are not reassigned. *)
Definition may_be_looked_through (x : nobj) : Prop := match x with NCat _ _ | NResh _ _ => True | _ => False end.
Fixpoint tidy (h : nheap) (cs : list ncmd) : Prop :=
  match cs with
  | [] => True
  | c :: cs' => match c with
                | CFun f _ => of_arrays f
                | CAssign o _ _ => ∀ x, h !! o = Some x → ¬ may_be_looked_through x
                | _ => True
                end ∧ tidy (wstep h c) cs'
  end.
(** Concatenations and reshapes are given objects that exist, when there are [l]. *)
Fixpoint backward (l : nat) (cs : list ncmd) : Prop :=
  match cs with
  | [] => True
  | c :: cs' => match c with
                | CCat _ ts => ∀ t, t ∈ ts → t < l
                | CResh _ t => t < l
                | _ => True
                end ∧ backward (match c with CSet _ _ | CAssign _ _ _ => l | _ => S l end) cs'
  end.
