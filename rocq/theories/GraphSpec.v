(** Specification vocabulary for GraphModel.v. *)
From stdpp Require Import gmap strings list relations.
From Verif Require Import EngineModel EngineSpec.

Section spec.
Context (L : lib).
Notation graph := (gmap oid (core L)).

(** [o.k is p] for a differentiable term k. *)
Definition points (g : graph) (o p : oid) : Prop :=
  ∃ c k, g !! o = Some c ∧ k ∈ c_dt L c ∧ c_attr L c !! k = Some (ARef p).
(** [o.k is p] for any term k. *)
Definition holds (g : graph) (o p : oid) : Prop :=
  ∃ c k, g !! o = Some c ∧ (k ∈ c_dt L c ∨ k ∈ c_tm L c) ∧ c_attr L c !! k = Some (ARef p).

Definition acyclic {A} (R : relation A) : Prop := ∀ x, ¬ tc R x x.

(** References lead to objects; the x of a basic Ch is a plain value. *)
Record well_formed (g : graph) : Prop := {
  wf_closed : ∀ o c k p, g !! o = Some c → c_attr L c !! k = Some (ARef p) → p ∈ dom g;
  wf_base : ∀ o c k p, g !! o = Some c → is_base L (c_cls L c) = true → (k ∈ c_dt L c ∨ k ∈ c_tm L c) →
    c_attr L c !! k ≠ Some (ARef p)
}.

(** Replacing [old] by [new] in the attributes of an object. *)
Definition subst_core (old new : oid) (c : core L) : core L :=
  Core L (c_cls L c) (c_dt L c) (c_tm L c)
    (map_imap (λ k a, Some (match a with
       | ARef p => if decide (p = old ∧ (k ∈ c_dt L c ∨ k ∈ c_tm L c)) then ARef new else ARef p
       | AVal t => AVal t end)) (c_attr L c)).

End spec.
