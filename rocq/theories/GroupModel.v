(** Model of ChGroup (chumpy/ch.py:1279-1307): an expression [r] whose inputs are exposed
    as attributes of the group, which keeps the expression itself as a plain attribute.
    Derivatives are over RepModel, values over LamModel. *)
From Coq Require Import Reals.
From stdpp Require Import gmap strings list.
From Verif Require Import ArrModel RepModel EngineModel GraphModel LamModel.

(* ------------------------------------------------------------------ *)
(** Derivatives.  The graph [g] holds everything below the group: [r], the handles put in
    place of its attributes (ch.py:1293-1295) and the arguments [l]. *)

(** compute_dr_wrt of the group (ch.py:1306-1307): self._result.dr_wrt(wrt). *)
Definition group_jac (n : nat) (g : rgraph) (r v : nat) : option (option rep) := rdr n g r v.

(** One round of the loop of dr_wrt over the operands (ch.py:757-786) where asking for the
    local Jacobian may raise: [f p] is p.dr_wrt(wrt), [j p] the local Jacobian. *)
Definition add_group (w : nat) (f j : nat → option (option rep)) (acc : option (list rep)) (p : nat)
    : option (list rep) :=
  l ← acc;
  if decide (p = w) then Some l
  else dr2 ← f p;
       match dr2 with
       | None => Some l
       | Some d2 => jp ← j p;
                    match jp with
                    | None => Some l
                    | Some jp => x ← superdot jp d2; Some (l ++ [x])
                    end
       end.

(** dr_wrt (ch.py:729-834) of the group over [r] with the arguments [l]; only arguments
    [r] depends on become dterms (ch.py:1296-1300).  As [rdr]: forward mode, no caches. *)
Definition group_dr (n : nat) (g : rgraph) (l : list nat) (r w : nat) : option (option rep) :=
  direct ← group_jac n g r w;
  drs ← foldl (add_group w (λ p, rdr n g p w) (group_jac n g r)) (Some (option_list direct)) l;
  conclude drs.

(** ChLambda (ch.py:1270-1273): [l] are the dterms, [r] the result among them; the local
    Jacobian is the number 1 for the result and None otherwise. *)
Definition lambda_node (l : list nat) (r : nat) : rnode :=
  RNode l (λ p, if decide (p = r) then Some (Num 1%R) else None).

(* ------------------------------------------------------------------ *)
(** Values. *)
Section group.
Context (L : lib) (is_lam : Cls L → bool).
Notation heap := (gmap oid (node L)).

Definition new_dterm (k : name) (c : core L) : core L :=
  Core L (c_cls L c) (c_dt L c ++ [k]) (c_tm L c) (c_attr L c).
Definition new_term (k : name) (c : core L) : core L :=
  Core L (c_cls L c) (c_dt L c) (c_tm L c ++ [k]) (c_attr L c).

(** The loop of __init__ (ch.py:1293-1300): the handle becomes an attribute of the result,
    then the argument one of the group.  Simplified: self.terms.append concerns only this
    group, not the class. *)
Fixpoint group_args (f result : oid) (args : list (name * oid)) (h : heap) : option heap :=
  match args with
  | [] => Some h
  | (k, hd) :: args' =>
    let h1 := set_attr L None h result k (ARef hd) in
    match uses_arg L h1 result hd, attr_of L h1 hd "x"%string with
    | Some used, Some v =>
      let h2 := alter (map_core L (if used then new_dterm k else new_term k)) f h1 in
      group_args f result args' (set_attr L None h2 f k v)
    | _, _ => None
    end
  end.

(** The arguments whose handles on_changed assigns to (ch.py:1284-1287). *)
Fixpoint group_reg (f : oid) (args : list (name * oid)) (reg : registry) : registry :=
  match args with
  | [] => reg
  | (k, hd) :: args' => group_reg f args' (<[hd := (f, k)]> reg)
  end.

(** __init__ (ch.py:1292-1301) once the handles exist.  The last line, self._result =
    result, makes a plain attribute, since '_result' is neither a term nor a dterm. *)
Definition make_group (c : Cls L) (f : oid) (args : list (name * oid)) (result : oid) (ls : lstate L)
    : option (lstate L) :=
  let h0 := <[f := fresh_node L c [] ["result"%string; "args"%string]]> (st_h L (ls_st L ls)) in
  h1 ← group_args f result args h0;
  Some (LSt L (on_heap L (λ _, alter (map_core L (write L "_result"%string (ARef result))) f h1) (ls_st L ls))
              (group_reg f args (ls_reg L ls)) (ls_terms L ls)).
End group.
