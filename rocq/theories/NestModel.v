(** Concatenations and reshapes that look through their operands (chumpy/reordering.py). *)
From Coq Require Import Reals.
From stdpp Require Import list list_numbers numbers.
From Verif Require Import ArrModel ReorderModel ConcModel.

(** Objects, by position in the heap: basic arrays, Concatenate with its axis and m0, m1, …
    (reordering.py:357-420), Reshape with newshape and a (165-176), and everything else as a
    function of the operands' values. *)
Inductive nobj :=
  | NLeaf (a : arr R)
  | NCat (ax : Z) (ts : list nat)
  | NResh (ns : list Z) (t : nat)
  | NFun (f : list (arr R) → option (arr R)) (ts : list nat).
Notation nheap := (list nobj).
(** The operands (dterms). *)
Definition nops (x : nobj) : list nat :=
  match x with NLeaf _ => [] | NCat _ ts => ts | NResh _ t => [t] | NFun _ ts => ts end.

(** r (ch.py:592-600) of an object, without caches; None if it raises or the operands go
    deeper than [n]. *)
Fixpoint nval (n : nat) (h : nheap) (o : nat) : option (arr R) :=
  match n with
  | O => None
  | S n' =>
    x ← h !! o;
    vs ← mapM (nval n' h) (nops x);
    atleast_1d <$> match x with
                   | NLeaf a => Some a
                   | NCat ax _ => concat ax vs
                   | NResh ns _ => v ← head vs; reshaped ns v
                   | NFun f _ => f vs
                   end
  end.

(** expand_concatenates (reordering.py:423-432); [n] bounds the rounds of its loop. *)
Fixpoint hexpand (n : nat) (h : nheap) (ax : Z) (todo done : list nat) : option (list nat) :=
  match n with
  | O => None
  | S n' =>
    match todo with
    | [] => Some done
    | t :: todo' =>
      match h !! t with
      | Some (NCat ax' us) => if decide (ax' = ax) then hexpand n' h ax (us ++ todo') done
                              else hexpand n' h ax todo' (done ++ [t])
      | _ => hexpand n' h ax todo' (done ++ [t])
      end
    end
  end.
(** The loop of reshape (reordering.py:182-184). *)
Fixpoint hstrip (n : nat) (h : nheap) (t : nat) : option nat :=
  match n with
  | O => None
  | S n' => match h !! t with Some (NResh _ u) => hstrip n' h u | _ => Some t end
  end.

(** What a program does: new basic arrays, concatenate (435-445; hstack, vstack and dstack
    call it), reshape (182-185; also ravel and the shape helpers), other operations, new
    values of basic arrays, and new operands: o.m0 = t, o.a = t (ch.py:361-407). *)
Inductive ncmd :=
  | CLeaf (a : arr R)
  | CCat (ax : Z) (ts : list nat)
  | CResh (ns : list Z) (t : nat)
  | CFun (f : list (arr R) → option (arr R)) (ts : list nat)
  | CSet (o : nat) (a : arr R)
  | CAssign (o i t : nat).
Definition put_value (a : arr R) (x : nobj) : nobj := match x with NLeaf _ => NLeaf a | _ => x end.
Definition put_operand (i t : nat) (x : nobj) : nobj :=
  match x with
  | NLeaf a => NLeaf a
  | NCat ax ts => NCat ax (<[i := t]> ts)
  | NResh ns u => if decide (i = 0) then NResh ns t else NResh ns u
  | NFun f ts => NFun f (<[i := t]> ts)
  end.
(** None: the loops do not end in [n] rounds. *)
Definition nstep (n : nat) (h : nheap) (c : ncmd) : option nheap :=
  match c with
  | CLeaf a => Some (h ++ [NLeaf a])
  | CCat ax ts => ts' ← hexpand n h ax ts []; Some (h ++ [NCat ax ts'])
  | CResh ns t => t' ← hstrip n h t; Some (h ++ [NResh ns t'])
  | CFun f ts => Some (h ++ [NFun f ts])
  | CSet o a => Some (alter (put_value a) o h)
  | CAssign o i t => Some (alter (put_operand i t) o h)
  end.
Fixpoint nrun (n : nat) (h : nheap) (cs : list ncmd) : option nheap :=
  match cs with [] => Some h | c :: cs' => h' ← nstep n h c; nrun n h' cs' end.
(** is_dr_wrt (ch.py:485-489) follows operands; it is C13's reachability. *)
Inductive hangs (h : nheap) (e : nat) : nat → Prop :=
  | hangs_here : hangs h e e
  | hangs_on o p x : hangs h e o → h !! o = Some x → p ∈ nops x → hangs h e p.
