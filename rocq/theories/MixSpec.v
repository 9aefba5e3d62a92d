(** What indexing is. *)
From Coq Require Import Reals.
From stdpp Require Import list.
From Verif Require Import ArrModel MixModel.

Definition same {T} (x y : option (arr T)) : Prop :=
  match x, y with Some a, Some b => aeq a b | None, None => True | _, _ => False end.
(** It moves elements, whatever they are, and looks at nothing else. *)
Definition moves (F : indexer) : Prop :=
  (∀ T U (f : T → U) (a : arr T), same (F U (amap f a)) (amap f <$> F T a)) ∧
  (∀ T (a b : arr T), aeq a b → same (F T a) (F T b)).
