(** Chains of reordering views, stated on the objects. *)
From Coq Require Import Reals.
From stdpp Require Import gmap strings list list_numbers.
From Verif Require Import EngineModel EngineSpec GraphSpec ArrModel ElemModel ReorderModel ReorderSpec NpModel ReorderOps.
Local Notation graph := (gmap oid (core nplib)).

(** Reshape, Select, or a reordering that fills in no zeros. *)
Definition view_class (p : npop) (tms : list (option nval)) (s : shp) : Prop :=
  p = op_reshape ∨ p = op_select ∨ ∃ c r, p = op_reorder c ∧ rdecode c tms = Some r ∧ ¬ fills r s.
(** [o] is [w], or a view of a view of ... [w]; every view has its declared terms. *)
Inductive views (g : graph) (w : oid) : oid → Prop :=
  | views_here : views g w w
  | views_more o c p q a b : g !! o = Some c → c_cls nplib c = NOp p → c_dt nplib c = np_dt p → c_tm nplib c = np_tm p →
      c_attr nplib c !! "a"%string = Some (@ARef nplib q) → denotes nplib g q QR a → denotes nplib g o QR b →
      view_class p (terms_of p (plain nplib c)) (sh a) → o ≠ w → views g w q → views g w o.
