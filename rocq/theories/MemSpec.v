(** The semantics without shared memory: arrays handed over and values read are copied, and
    nothing is cached. *)
From Coq Require Import Reals.
From stdpp Require Import list list_numbers numbers.
From Verif Require Import MemModel.

Inductive gobj :=
| GLeaf (v : list R)
| GView (c : nat)
| GFun (f : list (list R) → list R) (cs : list nat).

(** Whose memory an array shows, for histories that obey [tidy] below: the user's own; that of
    basic object b, because it was handed to b or read from b or a view of b; memory that no
    basic object has, which is not written to; memory written to by an object since. *)
Inductive tag := Mine | Of (b : nat) | Frozen | Stale.
#[global] Instance tag_eq_dec : EqDecision tag.
Proof. solve_decision. Defined.

Record garr := GArr { gkind : kind; gdata : list R; gw : bool; gtag : tag }.
Record gst := GSt { gobjs : list gobj; garrs : list garr }.

(** The value of an object from the values of the basic objects. *)
Fixpoint meaning (fuel : nat) (os : list gobj) (n : nat) : list R :=
  match fuel with
  | O => []
  | S f =>
    match os !! n with
    | Some (GLeaf v) => v
    | Some (GView c) => meaning f os c
    | Some (GFun g cs) => g (map (meaning f os) cs)
    | None => []
    end
  end.
Definition value (g : gst) (n : nat) : list R := meaning (S n) (gobjs g) n.

(** The basic object a chain of views ends at. *)
Fixpoint base (fuel : nat) (os : list gobj) (n : nat) : option nat :=
  match fuel with
  | O => None
  | S f =>
    match os !! n with
    | Some (GLeaf _) => Some n
    | Some (GView c) => base f os c
    | _ => None
    end
  end.

Definition add_arr (g : gst) (a : garr) : gst := GSt (gobjs g) (garrs g ++ [a]).
Definition add_obj (g : gst) (o : gobj) : gst := GSt (gobjs g ++ [o]) (garrs g).
Definition retag (f : tag → tag) (a : garr) : garr := GArr (gkind a) (gdata a) (gw a) (f (gtag a)).
(** Array h is handed to basic object b; integers are copied. *)
Definition give (g : gst) (h b : nat) : gst :=
  GSt (gobjs g) (alter (λ a, if decide (gkind a = Ints) then a else retag (λ _, Of b) a) h (garrs g)).
(** Basic object b leaves its memory, or writes to it. *)
Definition leave (g : gst) (b : nat) (t : tag) : gst :=
  GSt (gobjs g) (map (retag (λ t', if decide (t' = Of b) then t else t')) (garrs g)).
Definition put (g : gst) (n : nat) (v : list R) : gst := GSt (<[n := GLeaf v]> (gobjs g)) (garrs g).

Definition gstep (g : gst) (o : op) : gst * bool :=
  match o with
  | ONew k v => (add_arr g (GArr k v true Mine), true)
  | OCopy h =>
    match garrs g !! h with
    | Some a => (add_arr g (GArr (gkind a) (gdata a) true Mine), true)
    | None => (g, false)
    end
  | OLeaf h =>
    match garrs g !! h with
    | Some a => (add_obj (give g h (length (gobjs g))) (GLeaf (gdata a)), true)
    | None => (g, false)
    end
  | OView n => if decide (n < length (gobjs g)) then (add_obj g (GView n), true) else (g, false)
  | OFun f ns => if decide (Forall (λ n, n < length (gobjs g)) ns) then (add_obj g (GFun f ns), true) else (g, false)
  | OAssign n h =>
    match gobjs g !! n, garrs g !! h with
    | Some (GLeaf _), Some a => (put (give (leave g n Frozen) h n) n (gdata a), true)
    | _, _ => (g, false)
    end
  | OSet n i v =>
    match base (S n) (gobjs g) n with
    | Some b =>
      if decide (i < length (value g b)) then (put (leave g b (if decide (n = b) then Stale else Frozen)) b (<[i := v]> (value g b)), true) else (g, false)
    | None => (g, false)
    end
  | OWrite h i v =>
    match garrs g !! h with
    | Some a =>
      if decide (i < length (gdata a)) then
        if gw a then (GSt (gobjs g) (<[h := GArr (gkind a) (<[i := store (gkind a) v]> (gdata a)) (gw a) (gtag a)]> (garrs g)), true)
        else (g, false)
      else (g, false)
    | None => (g, false)
    end
  | ORead n =>
    if decide (n < length (gobjs g)) then
      (add_arr g (GArr Plain (value g n) false (match base (S n) (gobjs g) n with Some b => Of b | None => Frozen end)), true)
    else (g, false)
  | OAttr n =>
    match gobjs g !! n with
    | Some (GLeaf v) => (add_arr g (GArr Plain v true (Of n)), true)
    | _ => (g, false)
    end
  end.

Definition grun (os : list op) : gst * list bool :=
  foldl (λ '(g, bs) o, let '(g1, b) := gstep g o in (g1, bs ++ [b])) (GSt [] [], []) os.

(** A rule that calls obey, along a history. *)
Definition obeys (rule : gst → op → Prop) (os : list op) : Prop :=
  ∀ os1 o os2, os = os1 ++ o :: os2 → rule (fst (grun os1)) o.

(** Nothing is written in place: only whole arrays are assigned, or elements of views. *)
Definition whole (g : gst) (o : op) : Prop :=
  match o with
  | OSet n _ _ => ∀ v, gobjs g !! n ≠ Some (GLeaf v)
  | OWrite _ _ _ => False
  | _ => True
  end.

(** Arrays handed over are the user's own, handed over once (integers may be used to make
    objects, but are not assigned), and not written to afterwards; what is copied has not been
    written to by an object. *)
Definition tidy (g : gst) (o : op) : Prop :=
  match o with
  | OCopy h => ∀ a, garrs g !! h = Some a → gtag a ≠ Stale
  | OLeaf h => ∀ a, garrs g !! h = Some a → gtag a = Mine
  | OAssign _ h => ∀ a, garrs g !! h = Some a → gtag a = Mine ∧ gkind a ≠ Ints
  | OWrite h _ _ => ∀ a, garrs g !! h = Some a → gtag a = Mine
  | _ => True
  end.
