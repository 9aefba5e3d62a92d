(** What assignments mean. *)
From Coq Require Import ZArith Reals.
From stdpp Require Import list.
From Flocq Require Import Core IEEE754.BinarySingleNaN.
From Verif Require Import Dog64 StoreModel.

(** [x] is the double precision number nearest to the integer [z] *)
Definition nearest_to (z : Z) (x : b64) : Prop := fin64 x ∧ B2R x = rnd (IZR z).
(** the numbers handed over, as doubles *)
Definition doubles (v : held) (l : list b64) : Prop := match v with Ints _ zs => Forall2 nearest_to zs l | Flts _ xs => l = xs end.
(** the elements [ps] get the values [vs], the others stay *)
Definition written (ps : list nat) (vs l l' : list b64) : Prop :=
  length l' = length l ∧ (∀ p i v, ps !! p = Some i → vs !! p = Some v → l' !! i = Some v) ∧ ∀ i, i ∉ ps → l' !! i = l !! i.
Inductive meant : list b64 → op → list b64 → Prop :=
  | meant_x v l l' : doubles v l' → meant l (SetX v) l'
  | meant_item ps v vs l l' : doubles v vs → length vs = length ps → written ps vs l l' → meant l (SetItem ps v) l'
  | meant_view ps v vs l l' : doubles v vs → length vs = length ps → written ps vs l l' → meant l (SetView ps v) l'.
Inductive meant_all : list b64 → list op → list b64 → Prop :=
  | meant_nil l : meant_all l [] l
  | meant_cons l o l1 os l2 : meant l o l1 → meant_all l1 os l2 → meant_all l (o :: os) l2.
(** the same number, or both no number; zeros have no sign *)
Definition same_num (x y : b64) : Prop := (fin64 x ∧ fin64 y ∧ B2R x = B2R y) ∨ (¬ fin64 x ∧ x = y).
(** integers that fit into 64 bits *)
Definition fits64 (h : held) : Prop := match h with Ints _ l => Forall (λ z, - 2 ^ 63 ≤ z < 2 ^ 63)%Z l | Flts _ _ => True end.
Definition op_fits (o : op) : Prop := match o with SetX v | SetItem _ v | SetView _ v => fits64 v end.
(** Histories in which no float is put into an array of integers, and nothing is assigned through
    views; [f] tells whether floats are stored. *)
Definition of_floats (v : held) : bool := match v with Ints _ _ => false | Flts _ _ => true end.
Fixpoint tame (f : bool) (os : list op) : Prop :=
  match os with
  | [] => True
  | SetX v :: os' => tame (of_floats v) os'
  | SetItem ps v :: os' => NoDup ps ∧ (f = true ∨ of_floats v = false) ∧ tame f os'
  | SetView _ _ :: _ => False
  end.
