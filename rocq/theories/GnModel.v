(** The Gauss-Newton step of chumpy/optimization_internal.py and the choice of its solver. *)
From Coq Require Import Reals String.
From stdpp Require Import list.
From Verif Require Import ArrModel DogExact.

(** What a sparse solver gives: a vector, a vector with NaN or infinite elements, or it raises. *)
Inductive answer := Finite (y : vec) | NotFinite | Raises.
(** The functions of numpy and scipy used: np.linalg.solve and np.linalg.lstsq (None if they
    raise), and of scipy.sparse.linalg spsolve, cg with tol=1e-10 and lsqr, for systems of [n]
    equations. *)
Record library := Library {
  np_solve : nat → mat → vec → option vec; np_lstsq : nat → mat → vec → option vec;
  sp_spsolve : nat → mat → vec → answer; sp_cg : nat → mat → vec → answer; sp_lsqr : nat → mat → vec → answer
}.
(** The argument sparse_solver: a string, a function, or something else. *)
Inductive choice := Name (s : string) | Function (f : nat → mat → vec → answer) | Other.
(** setup_sparse_solver (optimization_internal.py:111-121); None: it raises *)
Definition setup_sparse_solver (l : library) (c : choice) : option (nat → mat → vec → answer) :=
  match c with
  | Function f => Some f
  | Name s => if String.eqb s "cg" then Some (sp_cg l) else if String.eqb s "spsolve" then Some (sp_spsolve l) else None
  | Other => None
  end.
(** updateGN (optimization_internal.py:278-299): None if it raises, Some None if the step has NaN
    or infinite elements. eliminate_zeros does not change the matrix; for no parameters
    self.g.ravel()[0] raises. *)
Definition update_gn (l : library) (solve : nat → mat → vec → answer) (sparse : bool) (n : nat) (A : mat) (g : vec) : option (option vec) :=
  if sparse then
    if 1 <? n then
      match solve n A g with
      | Finite y => Some (Some y)
      | NotFinite => match sp_lsqr l n A g with Finite y => Some (Some y) | NotFinite => Some None | Raises => None end
      | Raises => None
      end
    else if n =? 0 then None
    else Some (if Req_EM_T (A 0 0) 0 then None else Some (λ _, (g 0%nat / A 0%nat 0%nat)%R))
  else
    match np_solve l n A g with
    | Some y => Some (Some y)
    | None => Some <$> np_lstsq l n A g
    end.
(** The same as the solver of the machine in DogExact.v, which has no place for steps that are
    not finite; None stands for these, too. *)
Definition gn_solver (l : library) (solve : nat → mat → vec → answer) (sparse : bool) (n : nat) (A : mat) (g : vec) : option vec :=
  match update_gn l solve sparse n A g with Some (Some y) => Some y | _ => None end.
