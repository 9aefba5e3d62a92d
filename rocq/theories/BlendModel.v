(** Expressions that mix numpy arrays, numpy's functions and objects (chumpy/ch.py:74,
    331-332, 381-383, 485-489, 1136-1151; chumpy/ch_ops.py:70-71, 84-89). *)
From stdpp Require Import list numbers gmap.

(** numpy: arrays and its elementary functions of one and two arrays, named by numbers;
    None if one raises.  Simplified: all arrays are of float64, so that making a Ch of one
    does not change it, and an object's value is what numpy's function of the same name
    gives of its terms' values, computed whenever it is read.  The operators + - * / ** are functions of two arrays. *)
Record numpy := Numpy { arrays : Type; np1 : nat → arrays → option arrays; np2 : nat → arrays → arrays → option arrays }.
Inductive oper := Plus | Minus | Times | Divide | Power.
Definition oper_name (o : oper) : nat := match o with Plus => 0 | Minus => 1 | Times => 2 | Divide => 3 | Power => 4 end.

Section blend.
  Context {N : numpy}.
  Notation V := (arrays N).
  Notation env := (nat → V).

  (** Expressions as written: the object called [x], a numpy array, an operator, ch.f(..),
      np.f(..), ch.array(..), ch.asarray(..). *)
  Inductive prog :=
    | PVar (x : nat) | PArr (v : V)
    | POper (o : oper) (p q : prog)
    | PCh1 (f : nat) (p : prog) | PCh2 (f : nat) (p q : prog)
    | PNp1 (f : nat) (p : prog) | PNp2 (f : nat) (p q : prog)
    | PArray (p : prog) | PAsarray (p : prog).
  (** Objects: basic objects that the program can assign to, basic objects made from an
      array, and operations. *)
  Inductive obj := OVar (x : nat) | OConst (v : V) | O1 (f : nat) (a : obj) | O2 (f : nat) (a b : obj).
  Inductive pyval := Plain (v : V) | Obj (a : obj).
  (** r (ch.py:592-600, without the cache; arrays have at least one axis) *)
  Fixpoint read (e : env) (a : obj) : option V :=
    match a with
    | OVar x => Some (e x)
    | OConst v => Some v
    | O1 f a => v ← read e a; np1 N f v
    | O2 f a b => v ← read e a; w ← read e b; np2 N f v w
    end.
  (** A term that has no dterms is made a Ch (ch.py:381-383). *)
  Definition lift (x : pyval) : obj := match x with Plain v => OConst v | Obj a => a end.
  (** What numpy makes of an argument: __array__ (ch.py:331-332) *)
  Definition array_of (e : env) (x : pyval) : option V := match x with Plain v => Some v | Obj a => read e a end.
  (** a op b (ch.py:1136-1151).  numpy arrays give way to objects on the right, whose
      __array_priority__ is higher (ch.py:74); there is no __rtruediv__. *)
  Definition apply_op (o : oper) (x y : pyval) : option pyval :=
    match x, y with
    | Plain v, Plain w => Plain <$> np2 N (oper_name o) v w
    | Plain _, Obj _ => match o with Divide => None | _ => Some (Obj (O2 (oper_name o) (lift x) (lift y))) end
    | Obj _, _ => Some (Obj (O2 (oper_name o) (lift x) (lift y)))
    end.
  (** Running an expression while the objects have the values [e]; None: it raises. *)
  Fixpoint run (e : env) (p : prog) : option pyval :=
    match p with
    | PVar x => Some (Obj (OVar x))
    | PArr v => Some (Plain v)
    | POper o p q => x ← run e p; y ← run e q; apply_op o x y
    | PCh1 f p => x ← run e p; Some (Obj (O1 f (lift x)))
    | PCh2 f p q => x ← run e p; y ← run e q; Some (Obj (O2 f (lift x) (lift y)))
    | PNp1 f p => x ← run e p; v ← array_of e x; Plain <$> np1 N f v
    | PNp2 f p q => x ← run e p; y ← run e q; v ← array_of e x; w ← array_of e y; Plain <$> np2 N f v w
    | PArray p => x ← run e p; v ← array_of e x; Some (Obj (OConst v)) (* ch_ops.py:70-71 *)
    | PAsarray p => x ← run e p; Some (Obj (lift x)) (* ch_ops.py:84-89 *)
    end.
  (** The basic objects below an object (those for which is_dr_wrt is true, ch.py:485-489). *)
  Fixpoint below (a : obj) : list nat :=
    match a with OVar x => [x] | OConst _ => [] | O1 _ a => below a | O2 _ a b => below a ++ below b end.
  Definition depends_on (x : pyval) : list nat := match x with Plain _ => [] | Obj a => below a end.
End blend.
Arguments prog : clear implicits. Arguments obj : clear implicits. Arguments pyval : clear implicits.
