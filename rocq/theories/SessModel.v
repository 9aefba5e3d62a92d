(** Sessions: names, objects and assignments (chumpy/ch.py:86-131, 361-373; expressions
    are those of BlendModel.v). *)
From stdpp Require Import list numbers gmap.
From Verif Require Import BlendModel.

Section session.
  Context {N : numpy}.
  Notation V := (arrays N).
  (** y = ch.Ch(v); y = expression; y.x = v *)
  Inductive stmt := SNew (y : nat) (v : V) | SBind (y : nat) (p : prog N) | SAssign (y : nat) (v : V).
  (** The values of the basic objects, how many there are, and what names are bound to. *)
  Record state := State { cells : nat → V; made : nat; names : nat → option (pyval N) }.
  Definition fresh (v : V) : state := State (λ _, v) 0 (λ _, None).
  (** Python's y = .. *)
  Definition bind {A} (ns : nat → option A) (y : nat) (x : A) : nat → option A :=
    λ z, if decide (z = y) then Some x else ns z.
  (** An expression in which [PVar y] is the Python name y; an unbound one raises.
      Otherwise as [run] in BlendModel.v (chumpy/ch.py:331-332, 381-383, 1136-1151;
      chumpy/ch_ops.py:70-71, 84-89). *)
  Fixpoint run_in (ns : nat → option (pyval N)) (e : nat → V) (p : prog N) : option (pyval N) :=
    match p with
    | PVar y => ns y
    | PArr v => Some (Plain v)
    | POper o p q => x ← run_in ns e p; y ← run_in ns e q; apply_op o x y
    | PCh1 f p => x ← run_in ns e p; Some (Obj (O1 f (lift x)))
    | PCh2 f p q => x ← run_in ns e p; y ← run_in ns e q; Some (Obj (O2 f (lift x) (lift y)))
    | PNp1 f p => x ← run_in ns e p; v ← array_of e x; Plain <$> np1 N f v
    | PNp2 f p q => x ← run_in ns e p; y ← run_in ns e q; v ← array_of e x; w ← array_of e y; Plain <$> np2 N f v w
    | PArray p => x ← run_in ns e p; v ← array_of e x; Some (Obj (OConst v))
    | PAsarray p => x ← run_in ns e p; Some (Obj (lift x))
    end.
  (** y.x = v for a basic object (ch.py:361-373); other assignments are not modelled. *)
  Definition set_cell (st : state) (k : nat) (v : V) : state :=
    State (λ i, if decide (i = k) then v else cells st i) (made st) (names st).
  Definition step (st : state) (s : stmt) : option state :=
    match s with
    | SNew y v => (* ch.py:86-131: another object each time *)
        Some (State (λ i, if decide (i = made st) then v else cells st i) (S (made st))
                    (bind (names st) y (Obj (OVar (made st)))))
    | SBind y p => x ← run_in (names st) (cells st) p; Some (State (cells st) (made st) (bind (names st) y x))
    | SAssign y v => match names st y with Some (Obj (OVar k)) => Some (set_cell st k v) | _ => None end
    end.
  Fixpoint session (st : state) (l : list stmt) : option state :=
    match l with [] => Some st | s :: l => st' ← step st s; session st' l end.
  (** y.r, or y itself if it is an array *)
  Definition look (st : state) (y : nat) : option V := x ← names st y; array_of (cells st) x.
End session.
Arguments stmt : clear implicits. Arguments state : clear implicits.
