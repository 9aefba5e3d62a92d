(** What minimize hands to the optimizers (chumpy/optimization.py:37-152, setup_objective in
    chumpy/optimization_internal.py:124-155), over the reals. *)
From Coq Require Import Reals String.
From stdpp Require Import list.
From Verif Require Import ArrModel DogExact.

(** An object: its elements, r.ravel(), and the rows of its Jacobian with respect to all
    free variables (hstack over the variables, C59), as functions of the free variables. *)
Record term := Term { t_val : vec → list R; t_jac : vec → list vec }.
(** the argument fun *)
Inductive objective := Single (t : term) | Several (l : list term) | Labelled (l : list (string * term)).
(** ch.concatenate([f.ravel() for f in fun]) (optimization.py:43-46, optimization_internal.py:137-141);
    concatenating nothing raises *)
Definition stack (l : list term) : option term :=
  match l with
  | [] => None
  | _ => Some (Term (λ x, l ≫= λ t, t_val t x) (λ x, l ≫= λ t, t_jac t x))
  end.
Definition merged (o : objective) : option term :=
  match o with Single t => Some t | Several l => stack l | Labelled l => stack (snd <$> l) end.

(** method='dogleg' (optimization.py:39-41): trials compare np.linalg.norm(r)**2
    (optimization_internal.py:333) *)
Definition norm (r : list R) : R := R_sqrt.sqrt (rsum ((λ a, a * a)%R <$> r)).
Definition dogleg_cost (o : objective) (x : vec) : option R := (λ t, norm (t_val t x) * norm (t_val t x))%R <$> merged o.
(** the other methods: obj_scalar is obj itself if its size is 1 where minimize is called, at [x0], and
    SumOfSquares(obj) otherwise (optimization.py:55-58); residuals (101-104) *)
Definition scalar_itself (t : term) (x0 : vec) : bool := bool_decide (length (t_val t x0) = 1).
Definition scipy_value (o : objective) (x0 x : vec) : option R :=
  t ← merged o; if scalar_itself t x0 then head (t_val t x) else Some (rsum ((λ a, a * a)%R <$> t_val t x)).
(** scalar_jacfunc (optimization.py:106-125): obj_scalar.lop(wrt, [[1]]), that is, the
    Jacobian's row, or row(x.r.ravel()*2.) (ch_ops.py:392-394) times the Jacobian *)
Definition times (r : list R) (J : list vec) : vec := λ j, rsum (zip_with (λ a v, (a * v j)%R) r J).
Definition scipy_grad (o : objective) (x0 x : vec) : option vec :=
  t ← merged o; Some (if scalar_itself t x0 then times [1%R] (t_jac t x) else times ((λ a, a * 2)%R <$> t_val t x) (t_jac t x)).
(** hess and hessp (optimization.py:60-81): 2. * J.T.dot(J), and times p; None for one element *)
Definition scipy_hess (o : objective) (x0 x : vec) : option mat :=
  t ← merged o; if scalar_itself t x0 then None else Some (λ i j, 2 * rsum ((λ v : vec, v i * v j) <$> t_jac t x))%R.
Definition scipy_hessp (n : nat) (o : objective) (x0 x p : vec) : option vec := (λ h, mulv n h p) <$> scipy_hess o x0 x.
(** the report (optimization_internal.py:149-154): the total, and per label; the order of
    the labels, sorted there, is left out *)
Definition report (o : objective) (x : vec) : option (R * list (string * R)) :=
  t ← merged o;
  Some (rsum ((λ a, a * a)%R <$> t_val t x),
        match o with Labelled l => (λ e, (e.1, rsum ((λ a, a * a)%R <$> t_val e.2 x))) <$> l | _ => [] end).
