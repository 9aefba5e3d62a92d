(** Vocabulary for locations in a volume. *)
From Coq Require Import Reals.
From stdpp Require Import list list_numbers numbers gmap.
From Verif Require Import ArrModel.

(** Along an axis with [d] grid points: strictly between two neighbouring ones, on or
    between the first and the last, beyond them. *)
Definition in_cell (d : nat) (x : R) : Prop := ∃ k, S k < d ∧ (INR k < x < INR (S k))%R.
Definition within (d : nat) (x : R) : Prop := (0 <= x <= INR d - 1)%R.
Definition beyond (d : nat) (x : R) : Prop := (x < 0 ∨ INR d - 1 < x)%R.
(** The volume is an affine function of the position. *)
Definition affine (img : arr R) (a0 b0 b1 b2 : R) : Prop :=
  ∀ ix, inside (sh img) ix → at_ img ix = (a0 + b0 * INR (nth 0 ix 0%nat) + b1 * INR (nth 1 ix 0%nat) + b2 * INR (nth 2 ix 0%nat))%R.
(** No coordinate is a grid point of the volume: each lies strictly between two, or beyond
    the border. *)
Definition between_grid (img loc : arr R) : Prop :=
  ∀ r c, inside (sh loc) [r; c] → in_cell (nth c (sh img) 0) (at_ loc [r; c]) ∨ beyond (nth c (sh img) 0) (at_ loc [r; c]).
(** [y] is the point of the range closest to [x]. *)
Definition closest (d : nat) (x y : R) : Prop := within d y ∧ ∀ z, within d z → (Rabs (x - y) <= Rabs (x - z))%R.
