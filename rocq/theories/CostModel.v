(** How often the objects of an expression are worked on (chumpy/ch.py).  An object is given
    by its operands, the Ch objects among its dterms, one per dterm: x*x has x twice. *)
From stdpp Require Import gmap list.

(** The objects on which dr_wrt (ch.py:729-834) in forward mode forms a derivative, in the
    order in which they are finished, and the objects with a cached one afterwards: those
    cached before are only looked up (737-743), operands other than the variable are asked
    (757-778), and the result is kept unless there is exactly one parent (818-819).  None:
    the recursion is deeper than [n]. *)
Definition ask (w : nat) (f : gset nat → nat → option (gset nat * list nat))
    (acc : option (gset nat * list nat)) (p : nat) : option (gset nat * list nat) :=
  '(c, l) ← acc;
  if decide (p = w) then Some (c, l)
  else '(c', l') ← f c p; Some (c', l ++ l').
Fixpoint work (n : nat) (ops : nat → list nat) (par : nat → nat) (w : nat) (c : gset nat) (o : nat)
    : option (gset nat * list nat) :=
  match n with
  | O => None
  | S n' =>
    if decide (o ∈ c) then Some (c, [])
    else '(c1, l) ← foldl (ask w (work n' ops par w)) (Some (c, [])) (ops o);
         Some (if decide (par o = 1) then c1 else {[o]} ∪ c1, l ++ [o])
  end.

(** The calls of a function that calls itself on operands without keeping anything; [use o]
    are the operands of [o] it is called on. *)
Fixpoint walk (n : nat) (use : nat → list nat) (o : nat) : option (list nat) :=
  match n with
  | O => None
  | S n' => ls ← mapM (walk n' use) (use o); Some (o :: concat ls)
  end.
(** lop (ch.py:690-721): all operands other than the variable for which the local derivative
    is not None; [link o p] tells whether it is not None. *)
Definition lop_use (ops : nat → list nat) (link : nat → nat → bool) (w o : nat) : list nat :=
  filter (λ p, p ≠ w ∧ link o p = true) (ops o).
(** is_dr_wrt (ch.py:485-489): all operands, unless the variable is among them. *)
Definition isdr_use (ops : nat → list nat) (w o : nat) : list nat :=
  if decide (w ∈ ops o) then [] else ops o.
(** loop_children_do (ch.py:852-859): all operands. *)
Definition loop_use (ops : nat → list nat) (o : nat) : list nat := ops o.
