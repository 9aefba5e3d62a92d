(** How arguments should bind. *)
From stdpp Require Import strings gmap list.
From Verif Require Import BindModel.

Section spec.
  Context (classes : nat → cls).
  Notation mro c := (c_mro (classes c)).
  Notation body c := (c_body (classes c)).
  (** classes inherit from at most one other; lookup starts at the class itself *)
  Definition single_inheritance : Prop :=
    ∀ c, (∃ l, mro c = c :: l) ∧ ∀ b l1 l2, mro c = l1 ++ b :: l2 → mro b = b :: l2.
  (** what the nearest class says *)
  Definition declared {A} (f : attrs → option A) (c : nat) : option A := first_of (λ b, f (body b)) (mro c).
  Definition names (d : option decl) : list string := match d with None => [] | Some (One s) => [s] | Some (Many l) => l end.
  Definition declared_order (c : nat) : list string :=
    match declared a_order c with
    | Some l => l
    | None => names (declared a_terms c) ++ names (declared a_dterms c)
    end.
  Definition declared_dterms (c : nat) : list string := names (declared a_dterms c).
  (** the position of a name in the order: the argument there, or else the keyword *)
  Fixpoint given (order : list string) (args : list arg) (kw : gmap string arg) (n : string) : option arg :=
    match order, args with
    | m :: order, a :: args => if decide (n = m) then Some a else given order args kw n
    | _, _ => kw !! n
    end.
  (** what the object stores under a name: differentiable terms are objects *)
  Inductive holds (dterms : list string) (n : string) : arg → slot → Prop :=
  | holds_obj o : n ∈ dterms → holds dterms n (ChObj o) (Obj o)
  | holds_made a : n ∈ dterms → (∀ o, a ≠ ChObj o) → holds dterms n a (Fresh a)
  | holds_raw a : n ∉ dterms → holds dterms n a (Raw a).
  (** an object of the class that binds the arguments as declared *)
  Definition bound (c : nat) (args : list arg) (kw : gmap string arg) (b : object) : Prop :=
    o_class b = c ∧ ∀ n, option_Forall2 (holds (declared_dterms c) n) (given (declared_order c) args kw n) (o_attrs b !! n).
  (** an ancestor that is no nearer to an explicit order than the class *)
  Definition above_order (c b : nat) : Prop := ∃ l1 l2, mro c = l1 ++ b :: l2 ∧ ∀ a, a ∈ l1 → a_order (body a) = None.
End spec.

(** The classes of the operators as declared (ch_ops.py:397, 546, 562, 579, 704): two
    differentiable terms, no other class of that name with Term declarations. *)
Definition operator_classes (classes : nat → cls) (reserved : string → bool) (class_of : op → nat) : Prop :=
  ∀ o, let c := classes (class_of o) in
    c_mro c = [class_of o] ∧
    c_body c = Attrs None (Some (Many [(operand_names o).1; (operand_names o).2])) None ∧
    (∀ b, c_name (classes b) = c_name c → c_parms (classes b) = []) ∧
    reserved (operand_names o).1 = false ∧ reserved (operand_names o).2 = false.
(** an operand as an object *)
Definition operand (a : arg) : slot := match a with ChObj o => Obj o | _ => Fresh a end.
Definition is_ch (a : arg) : Prop := ∃ o, a = ChObj o.
