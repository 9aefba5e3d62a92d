(** Vocabulary for the properties of reverse mode. *)
From stdpp Require Import gmap strings list.
From Verif Require Import EngineModel EngineSpec GraphSpec.

Section spec.
Context (L : lib).

(** Laws of matrices that reverse mode relies on. *)
Record jac_laws : Prop := {
  jl_assoc : ∀ a b c, jmul L a (jmul L b c) = jmul L (jmul L a b) c;
  jl_dist : ∀ a b c, jmul L a (jadd L b c) = jadd L (jmul L a b) (jmul L a c)
}.

(** compute_dr_wrt(w) returns nothing unless w is an operand, or self is the basic
    object w. *)
Fixpoint returns {R} (P : R → Prop) (p : prog (Arr L) R) : Prop :=
  match p with
  | PRet r => P r
  | PRaise => True
  | PAsk q f => ∀ v, returns P (f v)
  end.
Definition local_derivatives : Prop :=
  ∀ c ts b, (b = true → is_base L c = false) → returns (eq None) (compute_dr L c ts b []).

(** No method raises: every differentiable term is set, and every local derivative
    (slices included) can be computed with enough stack. *)
Definition smooth (g : gmap oid (core L)) : Prop :=
  (∀ o c k, g !! o = Some c → k ∈ c_dt L c → is_Some (c_attr L c !! k)) ∧
  (∀ o p, o ∈ dom g → p ∈ dom g → ∃ n d, psliced L n g o p = Some d).
End spec.
