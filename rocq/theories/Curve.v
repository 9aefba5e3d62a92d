(** Curves of real arrays and their velocities at time 0. *)
From Coq Require Import Reals.
From stdpp Require Import list list_numbers numbers.
From Verif Require Import ArrModel.

(** Near 0. *)
Definition near (P : R → Prop) : Prop := ∃ d, (0 < d)%R ∧ ∀ t, (Rabs t < d)%R → P t.

(** A curve of arrays whose shape does not change and whose elements have the
    derivatives [v] at time 0. *)
Definition amoves (y : R → arr R) (v : nat → R) : Prop :=
  near (λ t, sh (y t) = sh (y 0%R)) ∧ ∀ i, derivable_pt_lim (λ t, elem (y t) i) 0%R (v i).

(** [f], with Jacobian [J], is differentiable at [a]: any curve through [a] is mapped to
    a curve whose velocity is the product of the Jacobian and the velocity. *)
Definition diff1 (f : arr R → arr R) (J : spm) (a : arr R) : Prop :=
  ∀ y v, y 0%R = a → amoves y v → amoves (λ t, f (y t)) (mact J v).
Definition diff2 (f : arr R → arr R → arr R) (J1 J2 : spm) (a b : arr R) : Prop :=
  ∀ y v z w, y 0%R = a → z 0%R = b → amoves y v → amoves z w →
    amoves (λ t, f (y t) (z t)) (λ i, mact J1 v i + mact J2 w i)%R.
(** A Jacobian of the right dimensions. *)
Definition fits (J : spm) (r c : nat) : Prop := nrow J = r ∧ ncol J = c ∧ in_range J.
