(** Vocabulary for memory layouts. *)
From stdpp Require Import list list_numbers numbers gmap.
From Verif Require Import ArrModel.

(** The distance in memory of the element at a multi-index from the first element. *)
Fixpoint offset (st : list Z) (ix : list nat) : Z :=
  match st, ix with
  | x :: st', i :: ix' => (x * Z.of_nat i + offset st' ix')%Z
  | _, _ => 0%Z
  end.
(** The elements lie one after the other in C order. *)
Definition in_order (s : shp) (st : list Z) : Prop :=
  length st = length s ∧ ∀ ix, inside s ix → offset st ix = (8 * Z.of_nat (ravel s ix))%Z.
(** No stride is below the size of an item. *)
Definition spaced (st : list Z) : Prop := Forall (λ x, (8 ≤ x)%Z) st.
