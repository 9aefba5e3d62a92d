(** Free variables and their places in the vectors exchanged with scipy
    (chumpy/optimization.py:83-125, 137-149), over the reals. *)
From Coq Require Import Reals.
From stdpp Require Import list.

(** Objects by numbers; the elements of each, r.ravel(). *)
Definition env := nat → list R.
Definition assign (e : env) (v : nat) (l : list R) : env := λ w, if decide (w = v) then l else e w.
(** a free variable and its size *)
Definition variables := list (nat * nat).
(** x0: np.concatenate([freevar.r.ravel() for freevar in free_variables]) (optimization.py:141) *)
Definition vector (e : env) (fv : variables) : list R := fv ≫= λ x, e x.1.
(** changevars (optimization.py:83-99): the slices cur to cur+sz, in order.  An equal slice is
    not assigned, which makes no difference here (C42). *)
Fixpoint changevars (e : env) (fv : variables) (vs : list R) : env :=
  match fv with [] => e | (v, n) :: rest => changevars (assign e v (take n vs)) rest (drop n vs) end.
(** scalar_jacfunc (optimization.py:106-125): np.concatenate([np.array(obj_scalar.lop(wrt, [[1]])).ravel()
    for wrt in free_variables]); where lop gives None the array is [None] *)
Definition jacfunc (lop : nat → env → option (list R)) (e : env) (fv : variables) : list (option R) :=
  fv ≫= λ x, match lop x.1 e with Some g => Some <$> g | None => [None] end.
(** what scipy sees: a function of vectors, and its gradient; None if minimize raises, which
    without method='dogleg' it does not here (optimization.py:43-57) *)
Definition scipy_problem (f : env → R) (lop : nat → env → option (list R)) (e : env) (fv : variables) : option ((list R → R) * (list R → list (option R))) :=
  Some (λ vs, f (changevars e fv vs), λ vs, jacfunc lop (changevars e fv vs) fv).
(** setup_objective's check (optimization_internal.py:131-134): duplicates raise *)
Definition dogleg_accepts (fv : variables) : bool := bool_decide (NoDup fv.*1).
