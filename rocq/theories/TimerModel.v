(** Model of the timer (chumpy/utils.py:16-34), with real numbers for times. *)
From Coq Require Import Reals.
From stdpp Require Import list.

(** the attributes _elapsed and _start *)
Record timer := Timer { elapsed : R; started : option R }.
(** __init__ (utils.py:20-22), given what self.time() returned *)
Definition new_timer (now : R) : timer := Timer 0 (Some now).
(** __call__ (utils.py:23-27) *)
Definition read (now : R) (w : timer) : R :=
  match started w with Some s => (elapsed w + now - s)%R | None => elapsed w end.
(** pause (utils.py:28-31); None if the assertion fails *)
Definition pause (now : R) (w : timer) : option timer :=
  match started w with Some s => Some (Timer (elapsed w + (now - s))%R None) | None => None end.
(** resume (utils.py:32-34) *)
Definition resume (now : R) (w : timer) : option timer :=
  match started w with Some _ => None | None => Some (Timer (elapsed w) (Some now)) end.

Inductive op := Read | Pause | Resume.
Inductive outcome := Value (x : R) | Done | Rejected.
Definition act (w : timer) (e : R * op) : timer * outcome :=
  match e.2 with
  | Read => (w, Value (read e.1 w))
  | Pause => match pause e.1 w with Some w' => (w', Done) | None => (w, Rejected) end
  | Resume => match resume e.1 w with Some w' => (w', Done) | None => (w, Rejected) end
  end.
Fixpoint outcomes (w : timer) (l : list (R * op)) : list outcome :=
  match l with [] => [] | e :: l => (act w e).2 :: outcomes (act w e).1 l end.
(** a timer made at [t0] and used as in [l], a list of clock readings and operations *)
Definition uses (t0 : R) (l : list (R * op)) : list outcome := outcomes (new_timer t0) l.
