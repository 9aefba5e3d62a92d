(** Model of construction (chumpy/ch.py:86-174) and of the operators (ch.py:1133-1165). *)
From stdpp Require Import strings gmap list.

(** terms or dterms as written in a class: one name or several *)
Inductive decl := One (s : string) | Many (l : list string).
(** the attributes terms, dterms and term_order written in a class body (None if absent) *)
Record attrs := Attrs { a_terms : option decl; a_dterms : option decl; a_order : option (list string) }.
(** A class: its name, the classes where attributes are looked up (itself first, up to but
    without Ch), what its body says, and its declarations by Term objects (ch.py:59-68):
    names and whether they are differentiable.  Their default values are not modelled: a
    class with such declarations cannot be constructed. *)
Record cls := Cls { c_name : string; c_mro : list nat; c_body : attrs; c_parms : list (string * bool) }.

(** What construction changes: class attributes, and the dictionaries _setup_terms (keyed by
    class) and _cached_parms (keyed by the name of the class). *)
Record table := Table { t_own : nat → attrs; t_setup : nat → bool; t_parms : string → option (list (string * bool)) }.
Inductive error := AssertionError | AttributeError | IndexError | TypeError | ReservedError.

Section bind.
  Context (classes : nat → cls).
  Definition set_own (t : table) (c : nat) (a : attrs) : table :=
    Table (λ c', if decide (c' = c) then a else t_own t c') (t_setup t) (t_parms t).
  (** getattr(cls, …): the first class that has it *)
  Fixpoint first_of {A} (f : nat → option A) (l : list nat) : option A :=
    match l with [] => None | c :: l => match f c with Some x => Some x | None => first_of f l end end.
  Definition look {A} (t : table) (f : attrs → option A) (c : nat) : option A := first_of (λ c', f (t_own t c')) (c_mro (classes c)).
  (** parm_declarations (ch.py:133-142) *)
  Definition parm_declarations (t : table) (c : nat) : table * list (string * bool) :=
    match t_parms t (c_name (classes c)) with
    | Some l => (t, l)
    | None => (Table (t_own t) (t_setup t) (λ n, if decide (n = c_name (classes c)) then Some (c_parms (classes c)) else t_parms t n), c_parms (classes c))
    end.
  (** ch.py:152-159: what terms or dterms become; None for those of Ch *)
  Definition many (d : option decl) : list string := match d with None => [] | Some (One s) => [s] | Some (Many l) => l end.
  Definition fixed (own found : option decl) : option decl := match found with None => Some (Many []) | Some (One s) => Some (Many [s]) | Some (Many _) => own end.
  (** the names in Ch.__dict__ *)
  Context (reserved : string → bool).
  (** setup_terms (ch.py:144-174), for classes other than Ch *)
  Definition setup_terms (t : table) (c : nat) : table * option error :=
    if t_setup t c then (t, None) else
    let '(t, parms) := parm_declarations t c in
    let own := t_own t c in
    let t := set_own t c (Attrs (fixed (a_terms own) (look t a_terms c)) (fixed (a_dterms own) (look t a_dterms c)) (a_order own)) in
    let terms := many (look t a_terms c) in
    let dterms := many (look t a_dterms c) in
    if decide (parms ≠ []) then
      (t, Some (if decide (terms ++ dterms = []) then AttributeError (* t.name of a string *) else AssertionError))
    else
      let t := match look t a_order c with
        | Some _ => t
        | None => set_own t c (Attrs (a_terms (t_own t c)) (a_dterms (t_own t c)) (Some (terms ++ dterms)))
        end in
      if existsb reserved (terms ++ dterms) then (t, Some ReservedError)
      else (Table (t_own t) (λ c', if decide (c' = c) then true else t_setup t c') (t_parms t), None).

  (** Values given as arguments: objects of this library, Python functions, and anything else. *)
  Inductive arg := ChObj (o : nat) | Lambda (n : nat) | Plain (n : nat).
  (** An attribute: an object, given or made from a plain value by Ch(value), or a plain value. *)
  Inductive slot := Obj (o : nat) | Fresh (a : arg) | Raw (a : arg).
  Record object := Object { o_class : nat; o_attrs : gmap string slot }.
  (** kwargs[cls.term_order[idx]] = a (ch.py:117-119) *)
  Fixpoint bind_args (order : list string) (args : list arg) (kw : gmap string arg) : option (gmap string arg) :=
    match args with
    | [] => Some kw
    | a :: args => match order with [] => None | n :: order => bind_args order args (<[n := a]> kw) end
    end.
  (** what __setattr__ stores (ch.py:381-384, 407), for names that are not properties *)
  Definition stored (dterms : list string) (n : string) (a : arg) : slot :=
    if decide (n ∈ dterms) then match a with ChObj o => Obj o | _ => Fresh a end else Raw a.
  (** __new__ (ch.py:86-131) for a class other than Ch, not given a function as first argument;
      make_dense and make_sparse are kept elsewhere *)
  Definition construct (t : table) (c : nat) (args : list arg) (kw : gmap string arg) : table * (object + error) :=
    match setup_terms t c with
    | (t, Some e) => (t, inr e)
    | (t, None) =>
        let kw := delete "make_dense"%string (delete "make_sparse"%string kw) in
        match bind_args (default [] (look t a_order c)) args kw with
        | None => (t, inr IndexError)
        | Some kw => (t, inl (Object c (map_imap (λ n a, Some (stored (many (look t a_dterms c)) n a)) kw)))
        end
    end.
  (** a program so far: constructions with their arguments *)
  Definition history : Type := list (nat * list arg * gmap string arg).
  Fixpoint after (t : table) (h : history) : table :=
    match h with [] => t | (c, args, kw) :: h => after (construct t c args kw).1 h end.
  Definition at_first : table := Table (λ c, c_body (classes c)) (λ _, false) (λ _, None).

  (** The operators.  Ids of the classes add, subtract, multiply, divide, power. *)
  Inductive op := Add | Sub | Mul | Div | Pow.
  Inductive python := Py2 | Py3.
  Context (class_of : op → nat).
  (** A method of Ch: the class it constructs, and the names for self and for the other
      operand (ch.py:1136-1152). *)
  Definition method (name : string) : option (op * string * string) :=
    if decide (name = "__add__"%string) then Some (Add, "a"%string, "b"%string)
    else if decide (name = "__radd__"%string) then Some (Add, "b"%string, "a"%string)
    else if decide (name = "__sub__"%string) then Some (Sub, "a"%string, "b"%string)
    else if decide (name = "__rsub__"%string) then Some (Sub, "b"%string, "a"%string)
    else if decide (name = "__mul__"%string) then Some (Mul, "a"%string, "b"%string)
    else if decide (name = "__rmul__"%string) then Some (Mul, "b"%string, "a"%string)
    else if decide (name = "__div__"%string) then Some (Div, "x1"%string, "x2"%string)
    else if decide (name = "__truediv__"%string) then Some (Div, "x1"%string, "x2"%string)
    else if decide (name = "__rdiv__"%string) then Some (Div, "x2"%string, "x1"%string)
    else if decide (name = "__pow__"%string) then Some (Pow, "x"%string, "pow"%string)
    else if decide (name = "__rpow__"%string) then Some (Pow, "pow"%string, "x"%string)
    else None.
  (** the methods Python tries for an operator *)
  Definition special (v : python) (o : op) : string * string :=
    match o with
    | Add => ("__add__", "__radd__") | Sub => ("__sub__", "__rsub__") | Mul => ("__mul__", "__rmul__")
    | Div => match v with Py2 => ("__div__", "__rdiv__") | Py3 => ("__truediv__", "__rtruediv__") end
    | Pow => ("__pow__", "__rpow__")
    end%string.
  Definition call (t : table) (name : string) (self other : arg) : option (table * (object + error)) :=
    match method name with
    | None => None
    | Some (o, n1, n2) => Some (construct t (class_of o) [] (<[n1 := self]> {[n2 := other]}))
    end.
  (** Python's dispatch for l op r, at least one of them an object of this library.  Any other
      left operand (a number, a list, an array: __array_priority__, ch.py:73) is taken to
      decline, which leads to the method of the right operand. *)
  Definition operate (v : python) (o : op) (t : table) (l r : arg) : table * (object + error) :=
    let right := match r with
      | ChObj _ => match call t (special v o).2 r l with Some x => x | None => (t, inr TypeError) end
      | _ => (t, inr TypeError)
      end in
    match l with
    | ChObj _ => match call t (special v o).1 l r with Some x => x | None => right end
    | _ => right
    end.
  (** compute_r of these classes (ch_ops.py:400, 549, 565, 583, 707): attributes read, in order;
      [operation] is what numpy does with the two values *)
  Context {V : Type} (value : slot → V) (operation : op → V → V → V).
  Definition operand_names (o : op) : string * string :=
    match o with Add | Sub | Mul => ("a", "b") | Div => ("x1", "x2") | Pow => ("x", "pow") end%string.
  Definition compute_r (o : op) (b : object) : option V :=
    match o_attrs b !! (operand_names o).1, o_attrs b !! (operand_names o).2 with
    | Some x, Some y => Some (operation o (value x) (value y))
    | _, _ => None
    end.
End bind.
