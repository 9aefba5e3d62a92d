(** Specification for groups: paths in the object graph. *)
From stdpp Require Import gmap list relations.
From Coq Require Import Reals.
From Verif Require Import ArrModel RepModel RepSpec.

Section paths.
Context (g : rgraph).
(** [b] is an operand of [a]. *)
Definition feeds (a b : nat) : Prop := ∃ nd, g !! a = Some nd ∧ b ∈ ops nd.
(** There is a path from the first object down to [w] that meets none of [l]. *)
Inductive around (l : list nat) (w : nat) : nat → Prop :=
| around_here : w ∉ l → around l w w
| around_step a b : a ∉ l → feeds a b → around l w b → around l w a.
End paths.

(** Twice a matrix. *)
Definition mtwice (A : mat) : mat := λ i j, (2 * A i j)%R.
(** A + Σ_p D p · B p over the objects in [l] other than [w]. *)
Definition with_chain (size : nat → nat) (l : list nat) (w : nat) (A : mat) (D B : nat → mat) : mat := λ i j,
  (A i j + rsum ((λ p, if decide (p = w) then 0 else mmult (size p) (D p) (B p) i j) <$> l))%R.

(** [o] is a lambda object: it has the value of its result and depends on its arguments
    only through it. *)
Definition lambda_obj (node : list nat → nat → rnode) (g : rgraph) (size : nat → nat) (J : nat → nat → mat) (o : nat) : Prop :=
  ∃ l r, g !! o = Some (node l r) ∧ r ∈ l ∧ size o = size r ∧ meq (size o) (size r) (J o r) (mscal 1) ∧
    ∀ p, p ∈ l → p ≠ r → meq (size o) (size p) (J o p) mzero.
