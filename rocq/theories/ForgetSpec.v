(** What is expected of clear_cache_wrt: it does not change any attribute, so results are
    to be those of the history without the calls. *)
From stdpp Require Import gmap strings list relations.
From Verif Require Import EngineModel EngineSpec ForgetModel.

Section spec.
Context (L : lib).
Notation graph := (gmap oid (core L)).

(** The calls other than clear_cache_wrt. *)
Definition plain_ops (l : list (xop L)) : list (op L) :=
  omap (λ a, match a with XOp _ b => Some b | XForget _ _ _ _ => None end) l.

(** The variables clear_cache_wrt was called with. *)
Definition forgotten (l : list (xop L)) : gset oid :=
  list_to_set (omap (λ a, match a with XOp _ _ => None | XForget _ _ _ w => Some w end) l).

(** An order of the objects in which every user of an object comes later. *)
Definition acyclic (g : graph) : Prop := ∃ rank : oid → nat, ∀ o p, child L g o p → rank p < rank o.

End spec.
