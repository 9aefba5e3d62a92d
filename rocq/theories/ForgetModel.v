(** Model of clear_cache_wrt (ch.py:438-452) over the object graph of EngineModel.v.
    The memo dr_cached of Concatenate (reordering.py:357-420) is not modelled here (C28 is
    about it). *)
From stdpp Require Import gmap strings list.
From Verif Require Import EngineModel.

Section forget.
Context (L : lib).
Notation heap := (gmap oid (node L)).
Implicit Types (h : heap).

(** [wrt in o._cache['drs']] *)
Definition has_dr h (o w : oid) : bool :=
  match h !! o with
  | Some nd => match n_dr L nd !! w with Some _ => true | None => false end
  | None => false
  end.

(** ch.py:439-440: the entry is not removed, it becomes None, which is also what dr_wrt
    stores for an object that does not depend on w. *)
Definition unset (w : oid) (m : gmap oid (option (Jac L))) : gmap oid (option (Jac L)) :=
  match m !! w with Some _ => <[w := None]> m | None => m end.

Definition set_itr (i : option Z) (n : node L) : node L :=
  Node L (n_core L n) (n_par L n) (n_r L n) (n_dr L n) (n_dirty L n) i (n_pc L n).

(** ch.py:446-450, the loop over the parents; [rec] is the recursive call, whose [false] is
    RecursionError. *)
Fixpoint forget_parents (rec : oid → heap → heap * bool) (w : oid)
    (ps : list (oid * gset name)) (h : heap) : heap * bool :=
  match ps with
  | [] => (h, true)
  | (p, ks) :: ps' =>
    let '(h1, ok) := if has_dr h p w then rec p h else (h, true) in
    if ok then forget_parents rec w ps' (alter (touch L ks) p h1) else (h1, false)
  end.

(** clear_cache_wrt (ch.py:438-452); [n] bounds the recursion depth. *)
Fixpoint clear_wrt (n : nat) (itr : option Z) (w o : oid) (h : heap) : heap * bool :=
  match n with
  | O => (h, false)
  | S n' =>
    match h !! o with
    | None => (h, false)
    | Some nd =>
      let h1 := alter (map_dr L (unset w)) o h in
      let '(h2, ok) :=
        if decide (itr = None ∨ itr ≠ n_itr L nd)
        then forget_parents (clear_wrt n' itr w) w (map_to_list (n_par L nd)) h1
        else (h1, true) in
      if ok then (alter (set_itr itr) o h2, true) else (h2, false)
    end
  end.

(** Histories with such calls, without an iteration number. *)
Inductive xop :=
| XOp (a : op L)
| XForget (n : nat) (o w : oid).

Definition xstep (a : xop) (st : state L) : state L :=
  match a with
  | XOp a => step L a st
  | XForget n o w => on_heap L (λ h, fst (clear_wrt n None w o h)) st
  end.
Definition xexec (l : list xop) (st : state L) : state L := foldl (λ st a, xstep a st) st l.

End forget.
