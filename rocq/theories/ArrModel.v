(** numpy arrays and scipy sparse matrices as used by chumpy's operations.  An array
    is a shape and its elements in C order; elements beyond the size are not looked
    at.  numpy's own functions are given their documented meaning. *)
From Coq Require Import Reals.
From stdpp Require Import list list_numbers numbers.

Notation shp := (list nat).
(** np.prod(shape) *)
Definition size (s : shp) : nat := foldr Nat.mul 1 s.

Record arr (T : Type) := Arr_ { sh : shp; dat : nat → T }.
Global Arguments Arr_ {T}. Global Arguments sh {T}. Global Arguments dat {T}.
Definition asize {T} (a : arr T) : nat := size (sh a).

(** C-order: multi-index of a flat index and back. *)
Fixpoint unravel (s : shp) (i : nat) : list nat :=
  match s with
  | [] => []
  | _ :: s' => i / size s' :: unravel s' (i mod size s')
  end.
Fixpoint ravel (s : shp) (ix : list nat) : nat :=
  match s, ix with
  | _ :: s', i :: ix' => i * size s' + ravel s' ix'
  | _, _ => 0
  end.
(** a multi-index within a shape *)
Definition inside (s : shp) (ix : list nat) : Prop := Forall2 lt ix s.

(** np.arange(n), np.ones, reshape, elements as a list, a\[multi-index\] *)
Definition arange (s : shp) : arr nat := Arr_ s (λ i, i).
Definition full {T} (s : shp) (x : T) : arr T := Arr_ s (λ _, x).
Definition elems {T} (a : arr T) : list T := dat a <$> seq 0 (asize a).
Definition at_ {T} (a : arr T) (ix : list nat) : T := dat a (ravel (sh a) ix).
Definition amap {T U} (f : T → U) (a : arr T) : arr U := Arr_ (sh a) (λ i, f (dat a i)).
Definition of_list {T} (d : T) (s : shp) (l : list T) : arr T := Arr_ s (λ i, nth i l d).

(** np.atleast_1d *)
Definition atleast_1d {T} (a : arr T) : arr T := match sh a with [] => Arr_ [1] (dat a) | _ => a end.

(** Equality of arrays. *)
Definition aeq {T} (a b : arr T) : Prop := sh a = sh b ∧ ∀ i, i < asize a → dat a i = dat b i.

(* ------------------------------------------------------------------ *)
(** Sparse matrices in coordinate form: duplicates add up (scipy.sparse). *)
Record spm := Spm { nrow : nat; ncol : nat; trip : list (nat * nat * R) }.

Definition rsum (l : list R) : R := foldr Rplus 0%R l.
(** matrix times vector *)
Definition mact (m : spm) (v : nat → R) (i : nat) : R :=
  rsum ((λ e, (e.2 * v e.1.2)%R) <$> filter (λ e, e.1.1 = i) (trip m)).
Definition entry (m : spm) (i j : nat) : R :=
  rsum (snd <$> filter (λ e, e.1.1 = i ∧ e.1.2 = j) (trip m)).
Definition madd (a b : spm) : spm := Spm (nrow a) (ncol a) (trip a ++ trip b).
Definition mmul (a b : spm) : spm :=
  Spm (nrow a) (ncol b) (e ← trip a; f ← filter (λ f, f.1.1 = e.1.2) (trip b); [(e.1.1, f.1.2, (e.2 * f.2)%R)]).
Definition mT (a : spm) : spm := Spm (ncol a) (nrow a) ((λ e, (e.1.2, e.1.1, e.2)) <$> trip a).
(** all entries lie in the matrix (scipy checks this) *)
Definition in_range (m : spm) : Prop := Forall (λ e, e.1.1 < nrow m ∧ e.1.2 < ncol m) (trip m).

(** sp.csc_matrix((data, (IS, JS)), shape=(r, c)) *)
Definition coo (r c : nat) (data : list R) (IS JS : list nat) : spm := Spm r c (zip (zip IS JS) data).
(** sp.diags(\[d\], \[0\]) *)
Definition diags (d : list R) : spm :=
  coo (length d) (length d) d (seq 0 (length d)) (seq 0 (length d)).

(** A dense two-dimensional array as a matrix. *)
Definition dense (r c : nat) (f : nat → nat → R) : spm :=
  Spm r c (i ← seq 0 r; j ← seq 0 c; [(i, j, f i j)]).

(* ------------------------------------------------------------------ *)
(** Curves of real arrays and their velocities. *)
Definition elem (a : arr R) (i : nat) : R := if decide (i < asize a) then dat a i else 0%R.
