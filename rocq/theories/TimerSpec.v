(** What a timer measures. *)
From Coq Require Import Reals Sorting.Sorted.
From stdpp Require Import list.
From Verif Require Import TimerModel.

Definition turned (on : bool) (o : op) : bool := match o with Read => on | Pause => false | Resume => true end.
(** is it running after the operations? *)
Definition running (on : bool) (l : list (R * op)) : bool := foldl (λ on e, turned on e.2) on l.
(** the length of the intervals in which it runs, from [from] until [now] *)
Fixpoint unpaused (on : bool) (from : R) (l : list (R * op)) (now : R) : R :=
  match l with
  | [] => if on then (now - from)%R else 0%R
  | (t, o) :: l => ((if on then t - from else 0) + unpaused (turned on o) t l now)%R
  end.
Definition monotone (t0 : R) (l : list (R * op)) : Prop := StronglySorted Rle (t0 :: l.*1).
