(** The class library made of real arrays: basic objects and operations that compute
    from the values of their operands and their plain terms. *)
From Coq Require Import Reals.
From stdpp Require Import gmap strings list list_numbers.
From Verif Require Import EngineModel ArrModel ElemModel.

(** Plain attribute values. *)
Inductive nval := NArr (a : arr R) | NInts (l : list nat) | NZs (l : list Z).

(** An operation: its dterms and terms, whether it is a Permute, compute_r from the
    terms and the operands' values, and compute_dr_wrt, which is also told which
    operands the variable is.  None: raises.  All operands are read before computing;
    by C03 the order of reads does not matter. *)
Record npop := NpOp {
  np_dt : list name;
  np_tm : list name;
  np_perm : bool;
  np_r : list (option nval) → list (arr R) → option (arr R);
  np_jac : list (option nval) → list (arr R) → list bool → option (option spm)
}.

Inductive ncls := NBase | NOp (p : npop).

Fixpoint ask_all {A} (ks : list name) (acc : list (arr R)) (f : list (arr R) → option A) : prog (arr R) A :=
  match ks with
  | [] => match f (reverse acc) with Some r => PRet r | None => PRaise end
  | k :: ks' => PAsk (RChild k) (λ v, ask_all ks' (v :: acc) f)
  end.
Definition terms_of (p : npop) (ts : gmap name nval) : list (option nval) := (λ k, ts !! k) <$> np_tm p.

(** The value r, which is at least one-dimensional (ch.py:596): of the array itself
    (ch.py:271-272), or of the operation *)
Definition np_compute_r (c : ncls) (ts : gmap name nval) : prog (arr R) (arr R) :=
  match c with
  | NBase => match ts !! "x"%string with Some (NArr a) => PRet (atleast_1d a) | _ => PRaise end
  | NOp p => ask_all (np_dt p) [] (λ vs, atleast_1d <$> np_r p (terms_of p ts) vs)
  end.
(** compute_dr_wrt: the identity for the object itself (ch.py:275-280), or the
    operation's, which starts with "if wrt is not self.a: return None" *)
Definition np_compute_dr (c : ncls) (ts : gmap name nval) (self : bool) (ks : list name) : prog (arr R) (option spm) :=
  match c with
  | NBase => if self then PAsk RSelf (λ u, PRet (Some (diags (replicate (asize u) 1%R)))) else PRet None
  | NOp p =>
    match ks with
    | [] => PRet None
    | _ => ask_all (np_dt p) [] (λ vs, np_jac p (terms_of p ts) vs ((λ k, bool_decide (k ∈ ks)) <$> np_dt p))
    end
  end.

Definition nplib : lib := {|
  Cls := ncls; Val := nval; Arr := arr R; Jac := spm;
  is_base c := match c with NBase => true | _ => false end;
  is_permute c := match c with NBase => false | NOp p => np_perm p end;
  compute_r := np_compute_r;
  compute_dr := np_compute_dr;
  prop_deps _ := ∅;
  compute_prop _ _ _ := PRaise;
  as_array v := v;
  base_cls := NBase;
  jadd := madd; jmul := mmul; jT := mT
|}.

(* ------------------------------------------------------------------ *)
(** Elementwise operations as classes (ch_ops.py:219-292, 397-416, 546-607, 704-721);
    by C25 the template caches make no difference. *)
Definition op_unary (f : ufun) : npop := {|
  np_dt := ["x"%string]; np_tm := []; np_perm := false;
  np_r _ vs := match vs with [a] => Some (unary f a) | _ => None end;
  np_jac _ vs _ := match vs with [a] => Some <$> unary_jac f a | _ => None end
|}.
Definition bnames (f : bfun) : list name :=
  match f with
  | Bdivide => ["x1"%string; "x2"%string]
  | Bpower => ["x"%string; "pow"%string]
  | _ => ["a"%string; "b"%string]
  end.
Definition op_binary (f : bfun) : npop := {|
  np_dt := bnames f; np_tm := []; np_perm := false;
  np_r _ vs := match vs with
    | [a; b] => match bshape (sh a) (sh b) with Some _ => Some (binary f a b) | None => None end
    | _ => None end;
  np_jac _ vs ws := match vs, ws with
    | [a; b], [wa; wb] => Some (binary_jac f wa wb a b no_templates).2
    | _, _ => None end
|}.
