(** Specification vocabulary for RedunModel.v. *)
From stdpp Require Import gmap strings list relations.
From Verif Require Import EngineModel EngineSpec GraphSpec RevSpec RedunModel.

Section spec.
Context (L : lib) `{EqDecision (Cls L), EqDecision (Val L)}.
Notation graph := (gmap oid (core L)).

(** The expression an object stands for, to depth [n]: classes and plain values,
    not the identities of the objects inside. *)
Inductive expr :=
| XCut
| XVal (t : Val L)
| XObj (c : Cls L) (l : list (name * expr)).

Definition xattr (f : oid → expr) (a : aval L) : expr :=
  match a with AVal t => XVal t | ARef p => f p end.
Fixpoint expr_of (n : nat) (g : graph) (o : oid) : expr :=
  match n with
  | O => XCut
  | S n' =>
    match g !! o with
    | None => XCut
    | Some c => XObj (c_cls L c) (prod_map id (xattr (expr_of n' g)) <$> (sid L c).2)
    end
  end.
(** Two objects that stand for the same expression of the same plain values. *)
Definition twins (g : graph) (p q : oid) : Prop := ∀ n, expr_of n g p = expr_of n g q.

(** A name that is a term of one instance of a class is not an undeclared attribute
    of another. *)
Definition uniform (g : graph) : Prop :=
  ∀ o c o' c' k, g !! o = Some c → g !! o' = Some c' → c_cls L c = c_cls L c' →
    k ∈ tracked (c_dt L c) (c_tm L c) → is_Some (c_attr L c' !! k) →
    k ∈ tracked (c_dt L c') (c_tm L c').

(** [D] contains, with an object, the operands it is made of; its dterms are set and
    its terms hold plain values. *)
Definition closed_under (g : graph) (D : gset oid) : Prop :=
  ∀ o p, o ∈ D → points L g o p → p ∈ D.
Definition all_set (g : graph) (D : gset oid) : Prop :=
  ∀ o, o ∈ D → ∃ c, g !! o = Some c ∧
    (∀ k, k ∈ c_dt L c → is_Some (c_attr L c !! k)) ∧
    (∀ k p, k ∈ c_tm L c → c_attr L c !! k ≠ Some (ARef p)).

(** Objects below [o] that hold twins hold the same object. *)
Definition shared_all (g : graph) (o : oid) : Prop := ∀ x1 x2 p1 p2, rtc (points L g) o x1 → rtc (points L g) o x2 →
  points L g x1 p1 → points L g x2 p2 → twins g p1 p2 → p1 = p2.

(** No object of the graph has twins under two of its dterms. *)
Definition no_twin_operands (g : graph) : Prop :=
  ∀ o c k1 k2 p1 p2, g !! o = Some c → k1 ∈ c_dt L c → k2 ∈ c_dt L c →
    c_attr L c !! k1 = Some (ARef p1) → c_attr L c !! k2 = Some (ARef p2) → twins g p1 p2 → k1 = k2.

(** Twins have the same dterms, and compute_dr_wrt has an answer for operands. *)
Definition same_terms (g : graph) : Prop :=
  ∀ o c o' c', g !! o = Some c → g !! o' = Some c' → twins g o o' → c_dt L c = c_dt L c'.
Definition answers_operands (g : graph) : Prop :=
  ∀ o c ks ts, g !! o = Some c → is_base L (c_cls L c) = false → ks ≠ [] → (∀ k, k ∈ ks → k ∈ c_dt L c) →
    returns L (λ j, j ≠ None) (compute_dr L (c_cls L c) ts false ks).
End spec.
