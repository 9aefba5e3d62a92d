(** Model of Det, Inv and LogAbsDet (chumpy/linalg.py:114-175). *)
From Coq Require Import Reals.
From stdpp Require Import list list_numbers numbers gmap.
From Verif Require Import ArrModel ElemModel ReorderModel DotModel.

(** np.linalg.det in exact arithmetic, by expansion along the first row; numpy uses an
    LU factorisation. *)
Definition skip (j k : nat) : nat := if decide (k < j) then k else S k.
Fixpoint detn (n : nat) (A : nat → nat → R) : R :=
  match n with
  | 0 => 1%R
  | S n' => rsum ((λ j, ((-1) ^ j * A 0%nat j * detn n' (λ i k, A (S i) (skip j k)))%R) <$> seq 0 (S n'))
  end.
(** [A] with another row [i]; unit vectors *)
Definition upd (A : nat → nat → R) (i : nat) (v : nat → R) : nat → nat → R := λ r, if decide (r = i) then v else A r.
Definition delta (i j : nat) : R := if decide (i = j) then 1%R else 0%R.
(** np.linalg.inv of one matrix in exact arithmetic, by Cramer's rule; it raises
    LinAlgError for a singular matrix. *)
Definition invn (n : nat) (A : nat → nat → R) : option (nat → nat → R) :=
  if Req_EM_T (detn n A) 0 then None else Some (λ j i, (detn n (upd A i (delta j)) / detn n A)%R).

(** The [t]-th n x n matrix of an array of them *)
Definition blk (a : arr R) (n t i j : nat) : R := dat a (t * (n * n) + i * n + j).
(** the shape of a stack of square matrices: (stack, n) *)
Definition squares (s : shp) : option (shp * nat) :=
  match reverse s with
  | n :: m :: pre => if decide (n = m) then Some (reverse pre, n) else None
  | _ => None
  end.
(** np.linalg.det of one matrix; Det.compute_r (linalg.py:146-147) *)
Definition np_det (a : arr R) : option (arr R) :=
  match sh a with
  | [n; m] => if decide (n = m) then Some (full [] (detn n (blk a n 0))) else None
  | _ => None
  end.
(** np.linalg.inv of a stack of matrices; Inv.compute_r (linalg.py:157-158) *)
Definition np_inv (a : arr R) : option (arr R) :=
  '(pre, n) ← squares (sh a);
  X ← mapM (λ t, invn n (blk a n t)) (seq 0 (size pre));
  Some (Arr_ (sh a) (λ o, nth (o / (n * n)) X (λ _ _, 0%R) (o mod (n * n) / n) (o mod (n * n) mod n))).
(** np.linalg.slogdet of one matrix: the logarithm; minus infinity, for a singular
    matrix, is None here.  LogAbsDet.on_changed and
    compute_r (linalg.py:122-126) *)
Definition np_logdet (a : arr R) : option (arr R) :=
  match sh a with
  | [n; m] => if decide (n = m) then
      if Req_EM_T (detn n (blk a n 0)) 0 then None else Some (full [] (ln (Rabs (detn n (blk a n 0)))))
    else None
  | _ => None
  end.

(** np.rollaxis(Ainv, -1, -2), and x.T of one matrix: the transposed blocks *)
Definition mat_of (n : nat) (X : nat → nat → R) : spm := dense n n X.
Definition neg (m : spm) : spm := Spm (nrow m) (ncol m) ((λ e, (e.1, (- e.2)%R)) <$> trip m).
(** sp.block_diag of k matrices of r x c *)
Definition block_diag (r c : nat) (l : list spm) : spm :=
  Spm (length l * r) (length l * c)
    (p ← zip (seq 0 (length l)) l; (λ e, (p.1 * r + e.1.1, p.1 * c + e.1.2, e.2)) <$> trip p.2).
(** Inv.compute_dr_wrt (linalg.py:160-175).  For more than two dimensions each block is
    transposed, stacked by dstack and transposed back: the same matrix. *)
Definition inv_jac (a : arr R) : option spm :=
  y ← np_inv a; '(pre, n) ← squares (sh y);
  let K t := neg (kron (mat_of n (blk y n t)) (mat_of n (λ i j, blk y n t j i))) in
  if decide (length (sh y) ≤ 2) then Some (K 0)
  else if decide (n = 0 ∨ size pre = 0) then None
  else Some (block_diag (n * n) (n * n) (K <$> seq 0 (size pre))).
(** Det.compute_dr_wrt (linalg.py:149-151), LogAbsDet.compute_dr_wrt (linalg.py:128-130) *)
Definition row_of (n : nat) (f : nat → nat → R) : spm := dense 1 (n * n) (λ _ q, f (q / n) (q mod n)).
Definition det_jac (a : arr R) : option spm :=
  d ← np_det a; X ← np_inv a; n ← head (sh a);
  Some (row_of n (λ i j, (dat d 0%nat * blk X n 0 j i)%R)).
Definition logdet_jac (a : arr R) : option spm :=
  X ← np_inv a; n ← head (sh a); Some (row_of n (λ i j, blk X n 0 j i)).
(** SignLogAbsDet.compute_r (linalg.py:135-137): the sign of np.linalg.slogdet; its
    compute_dr_wrt (linalg.py:139-140) is None, no derivative. *)
Definition np_detsign (a : arr R) : option (arr R) :=
  match sh a with
  | [n; m] => if decide (n = m) then
      let d := detn n (blk a n 0) in Some (full [] (if Rlt_dec 0 d then 1%R else if Rlt_dec d 0 then (-1)%R else 0%R))
    else None
  | _ => None
  end.
