(** The reorderings as classes of the array library.  The memoised Jacobians dr_lookup
    and _dr_cached are left out: see C27. *)
From Coq Require Import Reals.
From stdpp Require Import gmap strings list list_numbers.
From Verif Require Import EngineModel ArrModel ElemModel ReorderModel NpModel.

(** reordering.py:67-163 *)
Inductive rcls := Ctranspose | Crollaxis | Cswapaxes | Croll | Crot90 | Ctile | Crepeat | Cdiag | Cdiagflat.
Definition rterms (c : rcls) : list name :=
  match c with
  | Ctranspose => ["axes"%string]
  | Crollaxis => ["axis"%string; "start"%string]
  | Cswapaxes => ["axis1"%string; "axis2"%string]
  | Croll => ["shift"%string; "axis"%string]
  | Crot90 | Cdiag | Cdiagflat => ["k"%string]
  | Ctile => ["reps"%string]
  | Crepeat => ["repeats"%string; "axis"%string]
  end.
(** An attribute that is None or not there is a missing value here. *)
Definition rdecode (c : rcls) (tms : list (option nval)) : option rop :=
  match c, tms with
  | Ctranspose, [None] => Some (Transpose None)
  | Ctranspose, [Some (NZs l)] => Some (Transpose (Some l))
  | Crollaxis, [Some (NZs [k]); None] => Some (Rollaxis k 0)
  | Crollaxis, [Some (NZs [k]); Some (NZs [st])] => Some (Rollaxis k st)
  | Cswapaxes, [Some (NZs [k1]); Some (NZs [k2])] => Some (Swapaxes k1 k2)
  | Croll, [Some (NZs [h]); None] => Some (Roll h None)
  | Croll, [Some (NZs [h]); Some (NZs [k])] => Some (Roll h (Some k))
  | Crot90, [Some (NZs [k])] => Some (Rot90 k)
  | Ctile, [Some (NInts l)] => Some (Tile l)
  | Crepeat, [Some (NInts [m]); None] => Some (Repeat m None)
  | Crepeat, [Some (NInts [m]); Some (NZs [k])] => Some (Repeat m (Some k))
  | Cdiag, [Some (NZs [k])] => Some (Diag k)
  | Cdiagflat, [Some (NZs [k])] => Some (DiagFlat k)
  | _, _ => None
  end.
Definition op_reorder (c : rcls) : npop := {|
  np_dt := ["a"%string]; np_tm := rterms c; np_perm := true;
  np_r tms vs := r ← rdecode c tms; match vs with [a] => reorder 0%R r a | _ => None end;
  np_jac tms vs _ := r ← rdecode c tms; match vs with [a] => Some <$> reorder_jac r a | _ => None end
|}.
(** reordering.py:165-176 *)
Definition op_reshape : npop := {|
  np_dt := ["a"%string]; np_tm := ["newshape"%string]; np_perm := true;
  np_r tms vs := match tms, vs with [Some (NZs ns)], [a] => reshaped ns a | _, _ => None end;
  np_jac _ vs _ := match vs with [a] => Some (Some (reshape_jac a)) | _ => None end
|}.
(** reordering.py:276-301 *)
Definition op_select : npop := {|
  np_dt := ["a"%string]; np_tm := ["idxs"%string; "preferred_shape"%string]; np_perm := true;
  np_r tms vs := match tms, vs with
    | [Some (NInts idxs); None], [a] => select idxs None a
    | [Some (NInts idxs); Some (NInts s)], [a] => select idxs (Some s) a
    | _, _ => None end;
  np_jac tms vs _ := match tms, vs with
    | [Some (NInts idxs); _], [a] => Some (Some (select_jac idxs (asize a)))
    | _, _ => None end
|}.

Notation graph := (gmap oid (core nplib)).
(** isinstance(a, Reshape): the class with the term newshape *)
Definition is_reshape (c : core nplib) : bool :=
  match c_cls nplib c with NBase => false | NOp p => bool_decide (np_tm p = ["newshape"%string]) end.
(** reshape (reordering.py:182-185): the object the new Reshape refers to, found by
    following at most [n] Reshapes *)
Fixpoint innermost (n : nat) (g : graph) (x : oid) : oid :=
  match n with
  | O => x
  | S n' =>
    match g !! x with
    | Some c => if is_reshape c then match c_attr nplib c !! "a"%string with Some (ARef q) => innermost n' g q | _ => x end else x
    | None => x
    end
  end.
