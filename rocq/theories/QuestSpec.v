(** Vocabulary for questions about values. *)
From Coq Require Import Reals.
From stdpp Require Import list list_numbers numbers.
From Verif Require Import ArrModel Curve ReorderSpec RedSpec NanModel QuestModel.

(** What numpy's functions ask of a value. *)
Definition asks (f : efun) (e : ev) : Prop :=
  match f with
  | Efinite => ∃ x, e = Num x
  | Einf => e = PInf ∨ e = NInf
  | Enan => e = NaN
  | Eneginf => e = NInf
  | Eposinf => e = PInf
  | Enot => e = Num 0
  end.
(** What any and all ask of the elements [l]. *)
Definition asks_of (f : qfun) (a : arr ev) (l : list nat) : Prop :=
  match f with Qall => ∀ p, p ∈ l → dat a p ≠ Num 0 | Qany => ∃ p, p ∈ l ∧ dat a p ≠ Num 0 end.
(** 1 for yes, 0 for no *)
Definition answers (x : R) (P : Prop) : Prop := (P → x = 1%R) ∧ (¬ P → x = 0%R).
(** Shapes of results: with keepdims the axes gone have one element each. *)
Definition asked_shape (ax : option Z) (keep : bool) (s out : shp) : Prop :=
  if keep then
    match ax with
    | None => length out = length s `max` 1 ∧ ∀ d, d ∈ out → d = 1
    | Some k => ∃ a, axis_is (length s) k a ∧ length out = length s ∧ out !! a = Some 1 ∧ ∀ b, b ≠ a → out !! b = s !! b
    end
  else ∃ o, reduced ax s o ∧ out = match o with [] => [1] | _ => o end.
(** Element [p] is the one in place [j] along the axis. *)
Definition along (ax : option Z) (s : shp) (p j : nat) : Prop :=
  match ax with None => p = j | Some k => ∃ a, axis_is (length s) k a ∧ unravel s p !! a = Some j end.
(** Values at which small changes change the answer. *)
Definition at_edge (q : question) (e : ev) : Prop := match q with Each Enot | Over _ _ _ => e = Num 0 | _ => False end.
