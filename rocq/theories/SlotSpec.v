(** What is asked of the function and the gradient. *)
From Coq Require Import Reals.
From stdpp Require Import list.
From Verif Require Import SlotModel.

(** the function of one entry of the vector *)
Definition moved (F : list R → R) (vs : list R) (k : nat) (s : R) : R := F (alter (λ a, a + s)%R k vs).
(** one entry per entry of the vector, each the derivative with respect to it *)
Definition lines_up (F : list R → R) (vs : list R) (g : list (option R)) : Prop :=
  length g = length vs ∧ ∀ k, k < length vs → ∃ d, g !! k = Some (Some d) ∧ derivable_pt_lim (moved F vs k) 0 d.
(** the derivatives of the objective with respect to the elements of the variable [v] *)
Definition partials (f : env → R) (e : env) (v : nat) (g : list R) : Prop :=
  length g = length (e v) ∧ ∀ j d, g !! j = Some d → derivable_pt_lim (λ s, f (assign e v (alter (λ a, a + s)%R j (e v)))) 0 d.
(** [f] does not depend on the variable [v] *)
Definition indifferent (f : env → R) (v : nat) : Prop := ∀ e l, f (assign e v l) = f e.
