(** make_dense, make_sparse and the cache of derivatives (chumpy/ch.py), over the stored
    Jacobians of RepModel.v.  All derivatives are those with respect to one variable; the
    cache entries for other variables are separate (a dictionary by variable, ch.py:101). *)
From Coq Require Import Reals.
From stdpp Require Import gmap list.
From Verif Require Import ArrModel RepModel.

(** An object with its flags _make_dense and _make_sparse (ch.py:77, 107-110). *)
Record fnode := FNode { base : rnode; dense : bool; sparse : bool }.
Notation fgraph := (gmap nat fnode).
(** _cache\['drs'\]\[wrt\] of the objects that have it *)
Notation cache := (gmap nat (option rep)).

Definition is_sparse (r : rep) : bool := match r with Spr _ _ _ => true | _ => false end.

(** sp.csc_matrix (ch.py:829).  scipy raises for a LinearOperator; for None it raises or
    returns a 1 x 1 matrix, depending on its version: [blank] is what it returns (None: it
    raises). *)
Definition csc (blank : option rep) (res : option rep) : option (option rep) :=
  match res with
  | None => Some <$> blank
  | Some r => match as_array r with
              | Some a => Some <$> to_sparse a
              | None => None
              end
  end.
(** The conversions at the end of dr_wrt (ch.py:826-829). *)
Definition convert (blank : option rep) (nd : fnode) (res : option rep) : option (option rep) :=
  let res := if dense nd then densify <$> res else res in
  if sparse nd then
    match res with
    | Some r => if is_sparse r then Some res else csc blank res
    | None => csc blank res
    end
  else Some res.

(** The calls p.dr_wrt(wrt) for the operands (ch.py:757-778), in one go: the results by
    operand, and the caches afterwards. *)
Definition visit (w : nat) (f : cache → nat → cache * option (option rep))
    (acc : cache * option (gmap nat (option rep))) (p : nat) : cache * option (gmap nat (option rep)) :=
  match acc with
  | (c, Some m) =>
    if decide (p = w) then acc
    else let '(c', r) := f c p in (c', res ← r; Some (<[p := res]> m))
  | (c, None) => acc
  end.

(** Products, sum and first conversions (ch.py:745-812), given the derivatives of the
    operands. *)
Definition round (w : nat) (nd : rnode) (f : nat → option (option rep)) : option (option rep) :=
  drs ← foldl (add_forward w nd f) (Some (option_list (jac nd w))) (ops nd);
  conclude drs.

(** dr_wrt (ch.py:729-834), forward mode.  [par o] is the number of parents of [o].  The
    result is stored before it is converted (ch.py:818-819, 826-829). *)
Fixpoint fdr (blank : option rep) (n : nat) (g : fgraph) (par : nat → nat) (w : nat) (c : cache) (o : nat)
    : cache * option (option rep) :=
  match n with
  | O => (c, None)
  | S n' =>
    match c !! o with
    | Some res => (c, Some res)
    | None =>
      match g !! o with
      | None => (c, None)
      | Some nd =>
        let '(c1, kids) := foldl (visit w (λ c p, fdr blank n' g par w c p)) (c, Some ∅) (ops (base nd)) in
        match m ← kids; round w (base nd) (λ p, m !! p) with
        | None => (c1, None)
        | Some res => (if decide (par o = 1) then c1 else <[o := res]> c1, convert blank nd res)
        end
      end
    end
  end.

(** What happens: o.dr_wrt(wrt) when the objects have these numbers of parents, and
    clear_cache and clear_cache_wrt dropping entries (ch.py:416-452). *)
Inductive event :=
| Ask (par : nat → nat) (o : nat)
| Drop (os : list nat).

Definition happen (blank : option rep) (n : nat) (g : fgraph) (w : nat) (c : cache) (e : event)
    : cache * option (option rep) :=
  match e with
  | Ask par o => fdr blank n g par w c o
  | Drop os => (foldr delete c os, Some None)
  end.
(** Caches after a history. *)
Definition after (blank : option rep) (n : nat) (g : fgraph) (w : nat) (h : list event) : cache :=
  foldl (λ c e, (happen blank n g w c e).1) ∅ h.
(** What the call [o].dr_wrt(wrt) gives after a history. *)
Definition answer (blank : option rep) (n : nat) (g : fgraph) (w : nat) (h : list event) (par : nat → nat) (o : nat)
    : option (option rep) :=
  (fdr blank n g par w (after blank n g w h) o).2.
