(** What concatenation means, on multi-indices. *)
From Coq Require Import Reals.
From stdpp Require Import list list_numbers numbers.
From Verif Require Import EngineModel ArrModel Curve ElemModel ReorderModel ReorderSpec ConcModel.

(** The length of the operands along axis [k], taken together. *)
Inductive total (k : nat) : list (arr R) → nat → Prop :=
  | total_nil : total k [] 0
  | total_cons v vs d n : sh v !! k = Some d → total k vs n → total k (v :: vs) (d + n).
(** Element [jx] of operand number [t] stands at [ix]: its coordinate along the axis is
    moved by the lengths of the operands before it. *)
Definition stands (k : nat) (vs : list (arr R)) (t : nat) (jx ix : list nat) : Prop :=
  ∃ off j, total k (take t vs) off ∧ same_but k ix jx ∧ jx !! k = Some j ∧ ix !! k = Some (off + j).
(** [y] is [vs] put one after the other along axis [k]. *)
Definition is_concat (k : nat) (vs : list (arr R)) (y : arr R) : Prop :=
  (∃ n, total k vs n ∧ sh y !! k = Some n) ∧
  (∀ v, v ∈ vs → same_but k (sh v) (sh y)) ∧
  ∀ t v jx ix, vs !! t = Some v → inside (sh v) jx → stands k vs t jx ix → at_ y ix = at_ v jx.

(** The values of a list of operands, which may be concatenations themselves. *)
Definition cvals (l : list ctree) : option (list (arr R)) :=
  (fix go l := match l with [] => Some [] | t :: l' => v ← cval t; vs ← go l'; Some (v :: vs) end) l.
(** No concatenation along the axis. *)
Definition no_conc (ax : Z) (t : ctree) : Prop := match t with Leaf _ => True | Conc ax' _ => ax' ≠ ax end.

(** The same object has the same value. *)
Definition agree (ps : list oid) (vs : list (arr R)) : Prop :=
  length vs = length ps ∧ ∀ t t' q v v', ps !! t = Some q → ps !! t' = Some q → vs !! t = Some v → vs !! t' = Some v' → v = v'.

(** What a memory-less concatenation of the current operands answers. *)
Definition fresh_output (e : cevent) (env : oid → arr R) (ax : Z) (ps : list oid) : option coutput :=
  match e with
  | AskR => Some (OutR (concat ax (env <$> ps)))
  | AskDr w _ => Some (OutDr (if decide (w ∈ ps) then Some <$> conc_jac ax (env <$> ps) ((λ p, bool_decide (p = w)) <$> ps) else Some None))
  | _ => None
  end.
(** The events after the first question: operands may get new values of their shape. *)
Definition later_ok (e : cevent) (env : oid → arr R) : Prop :=
  match e with Assign _ _ => False | Put q a => sh a = sh (env q) | _ => True end.
(** The events before: anything but questions. *)
Definition before_ok (e : cevent) : Prop := match e with Assign _ _ | Put _ _ => True | _ => False end.
Fixpoint conc_run (es : list cevent) (s : cstate) : cstate :=
  match es with [] => s | e :: es' => conc_run es' (conc_step e s).2 end.
(** every event of the history is as [later_ok] asks, in the state it happens in *)
Fixpoint quiet (es : list cevent) (s : cstate) : Prop :=
  match es with [] => True | e :: es' => later_ok e s.1 ∧ quiet es' (conc_step e s).2 end.
