(** Model of the Jacobian the dogleg optimizer asks for: ChInputsStacked.dr_wrt and J
    (optimization_internal.py:34-70, 100-108), hstack (18-20) and updateJ (301-318), over
    the stored Jacobians of RepModel.  None: an exception. *)
From Coq Require Import Reals.
From stdpp Require Import gmap list list_numbers.
From Verif Require Import ArrModel RepModel.

(** A free variable: an object, or a Select of the elements [ix] of an object. *)
Inductive fvar := Whole (v : nat) | Pick (v : nat) (ix : list nat).

(** new_jac\[:, idxs\] (optimization_internal.py:43-47): numpy arrays and sparse matrices
    (after tocsc) take a list of columns; LinearOperators have neither. *)
Definition columns (ix : list nat) (r : rep) : option rep :=
  match r, shape2 r with
  | Lin _ _ _, _ => None
  | _, None => None
  | Arr _, Some (n, m) =>
    if decide (Forall (λ k, k < m) ix)
    then Some (Arr (arr2 n (length ix) (λ i j, ent r i (nth j ix 0)))) else None
  | _, Some (n, m) =>
    if decide (Forall (λ k, k < m) ix)
    then Some (Spr n (length ix) (λ i j, ent r i (nth j ix 0))) else None
  end.

(** a.dot(np.eye(a.shape\[1\])) for a LinearOperator (optimization_internal.py:16, 19). *)
Definition unit_vec (m j : nat) : list R := (λ i, if decide (i = j) then 1%R else 0%R) <$> seq 0 m.
Definition dense_op (r : rep) : option rep :=
  match r with
  | Lin n m _ =>
    cols ← mapM (λ j, apply1 r (unit_vec m j)) (seq 0 m);
    Some (Arr (arr2 n m (λ i j, nth i (nth j cols []) 0%R)))
  | _ => Some r
  end.

(** The block [j] falls into and its place there. *)
Fixpoint locate (l : list (nat * (nat → nat → R))) (i j : nat) : R :=
  match l with
  | [] => 0%R
  | (m, f) :: l' => if decide (j < m) then f i j else locate l' i (j - m)
  end.
(** hstack (optimization_internal.py:18-20): sp.hstack if some block is sparse, otherwise
    np.hstack; both check that the blocks have as many rows. *)
Definition hstack_reps (l : list rep) : option rep :=
  l' ← mapM dense_op l;
  ss ← mapM shape2 l';
  match ss with
  | [] => None
  | (n, _) :: _ =>
    if decide (Forall (λ s, s.1 = n) ss) then
      let bs := zip (snd <$> ss) (ent <$> l') in
      let m := sum_list (snd <$> ss) in
      if existsb (λ r, match r with Spr _ _ _ => true | _ => false end) l'
      then Some (Spr n m (locate bs)) else Some (Arr (arr2 n m (locate bs)))
    else None
  end.

(** _make_dense, _make_sparse (optimization_internal.py:53-56): todense and csc_matrix;
    csc_matrix of a LinearOperator or None raises. *)
Definition convert (mk_dense mk_sparse : bool) (r : rep) : option rep :=
  let r1 := match r with
            | Spr n m f => if mk_dense then Arr (arr2 n m f) else r
            | _ => r
            end in
  match r1 with
  | Arr a => if mk_sparse then to_sparse a else Some r1
  | Lin _ _ _ => if mk_sparse then None else Some r1
  | _ => Some r1
  end.

(** One turn of the loop (optimization_internal.py:39-63); None\[:, idxs\] and None.tocsc()
    raise too. *)
Definition block (n : nat) (g : rgraph) (obj : nat) (mk_dense mk_sparse : bool) (x : fvar) : option rep :=
  match x with
  | Whole v => d ← rdr n g obj v; r ← d; convert mk_dense mk_sparse r
  | Pick v ix => d ← rdr n g obj v; r ← d; r' ← columns ix r; convert mk_dense mk_sparse r'
  end.
Definition stacked_dr (n : nat) (g : rgraph) (obj : nat) (mk_dense mk_sparse : bool) (fvs : list fvar) : option rep :=
  jacs ← mapM (block n g obj mk_dense mk_sparse) fvs; hstack_reps jacs.

(** updateJ (optimization_internal.py:301-318): a sparse J without stored entries fails the
    assertion; the number of columns is compared with the size of the vector.
    Simplified: zeros are never stored. *)
Definition no_entries (r : rep) : Prop :=
  match r with Spr n m f => ∀ i j, i < n → j < m → f i j = 0%R | _ => False end.
Definition update_J (size_p : nat) (J : option rep) (J' : option rep) : Prop :=
  match J with
  | None => J' = None
  | Some r => (no_entries r ∧ J' = None) ∨
              (¬ no_entries r ∧ ∃ n m, shape2 r = Some (n, m) ∧ (m = size_p ∧ J' = Some r ∨ m ≠ size_p ∧ J' = None))
  end.
