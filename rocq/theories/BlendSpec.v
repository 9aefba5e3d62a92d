(** What expressions that mix numpy and objects should mean. *)
From stdpp Require Import list numbers gmap.
From Verif Require Import BlendModel.

(** numpy's functions for Python's operators. *)
Definition function_of (o : oper) : nat :=
  match o with Plus => 0 | Minus => 1 | Times => 2 | Divide => 3 | Power => 4 end.
Section spec.
  Context {N : numpy}.
  (** numpy's value of an expression for some values of the objects. *)
  Fixpoint meaning (e : nat → arrays N) (p : prog N) : option (arrays N) :=
    match p with
    | PVar x => Some (e x)
    | PArr v => Some v
    | POper o p q => v ← meaning e p; w ← meaning e q; np2 N (function_of o) v w
    | PCh1 f p | PNp1 f p => v ← meaning e p; np1 N f v
    | PCh2 f p q | PNp2 f p q => v ← meaning e p; w ← meaning e q; np2 N f v w
    | PArray p | PAsarray p => meaning e p
    end.
  (** The same with what is below numpy's functions and ch.array taken at the time the
      expression was run. *)
  Fixpoint meaning_since (e0 e : nat → arrays N) (p : prog N) : option (arrays N) :=
    match p with
    | PVar x => Some (e x)
    | PArr v => Some v
    | POper o p q => v ← meaning_since e0 e p; w ← meaning_since e0 e q; np2 N (function_of o) v w
    | PCh1 f p => v ← meaning_since e0 e p; np1 N f v
    | PCh2 f p q => v ← meaning_since e0 e p; w ← meaning_since e0 e q; np2 N f v w
    | PAsarray p => meaning_since e0 e p
    | PNp1 _ _ | PNp2 _ _ _ | PArray _ => meaning e0 p
    end.
  (** The objects named in an expression. *)
  Fixpoint named (p : prog N) : list nat :=
    match p with
    | PVar x => [x] | PArr _ => []
    | POper _ p q | PCh2 _ p q | PNp2 _ p q => named p ++ named q
    | PCh1 _ p | PNp1 _ p | PArray p | PAsarray p => named p
    end.
  (** Those that are not below a numpy function or ch.array. *)
  Fixpoint named_outside (p : prog N) : list nat :=
    match p with
    | PVar x => [x] | PArr _ | PNp1 _ _ | PNp2 _ _ _ | PArray _ => []
    | POper _ p q | PCh2 _ p q => named_outside p ++ named_outside q
    | PCh1 _ p | PAsarray p => named_outside p
    end.
  (** No object is named below a numpy function or ch.array. *)
  Fixpoint open (p : prog N) : Prop :=
    match p with
    | PVar _ | PArr _ => True
    | POper _ p q | PCh2 _ p q => open p ∧ open q
    | PCh1 _ p | PAsarray p => open p
    | PNp1 _ p | PArray p => named p = []
    | PNp2 _ p q => named p = [] ∧ named q = []
    end.
  (** Expressions that make an object and not an array; no array is divided by an object. *)
  Fixpoint is_object (p : prog N) : Prop :=
    match p with
    | PVar _ | PCh1 _ _ | PCh2 _ _ _ | PArray _ | PAsarray _ => True
    | PArr _ | PNp1 _ _ | PNp2 _ _ _ => False
    | POper _ p q => is_object p ∨ is_object q
    end.
  Fixpoint divides_objects (p : prog N) : Prop :=
    match p with
    | PVar _ | PArr _ => True
    | POper o p q => divides_objects p ∧ divides_objects q ∧ (o = Divide → is_object q → is_object p)
    | PCh2 _ p q | PNp2 _ p q => divides_objects p ∧ divides_objects q
    | PCh1 _ p | PNp1 _ p | PArray p | PAsarray p => divides_objects p
    end.
End spec.
(** A small numpy for examples: arrays of integers with one axis; function 0 of one array
    negates and 1 squares; the functions of two arrays raise for different lengths. *)
Definition toy1 (f : nat) (v : list Z) : option (list Z) :=
  match f with 0 => Some (Z.opp <$> v) | 1 => Some ((λ z : Z, (z * z)%Z) <$> v) | _ => None end.
Definition toy2 (f : nat) (v w : list Z) : option (list Z) :=
  if decide (length v = length w) then
    match f with
    | 0 => Some (zip_with Z.add v w) | 1 => Some (zip_with Z.sub v w) | 2 => Some (zip_with Z.mul v w)
    | 3 => Some (zip_with Z.div v w) | 4 => Some (zip_with Z.pow v w) | _ => None
    end
  else None.
Definition toy : numpy := Numpy (list Z) toy1 toy2.
Definition toy_array (l : list Z) : prog toy := PArr (N:=toy) l.
