(** What numpy's functions of the same names give, on multi-indices. *)
From Coq Require Import Reals Sorted.
From stdpp Require Import list list_numbers numbers.
From Verif Require Import ArrModel ReorderModel ReorderSpec ConcModel ConcSpec.

(** [b] is [a] with [front] axes of length 1 before its own and [back] after them. *)
Definition lifted (front back : nat) (a b : arr R) : Prop :=
  sh b = replicate front 1 ++ sh a ++ replicate back 1 ∧
  ∀ ix, inside (sh a) ix → at_ b (replicate front 0 ++ ix ++ replicate back 0) = at_ a ix.
(** np.atleast_1d, np.atleast_2d and np.atleast_3d *)
Definition is_nd (nd : nat) (a b : arr R) : Prop :=
  let n := length (sh a) in
  match nd with
  | 1 => lifted (1 - n) 0 a b
  | 2 => lifted (2 - n) 0 a b
  | _ => lifted (2 - n) (if decide (n < 3) then 1 else 0) a b
  end.
(** np.squeeze: for all axes of length 1, or one axis, which must have length 1 *)
Definition is_squeeze (ax : option Z) (a b : arr R) : Prop :=
  match ax with
  | None => ∃ keep, sh b = (λ k, nth k (sh a) 0) <$> keep ∧ StronglySorted lt keep ∧
      (∀ k, k ∈ keep ↔ ∃ d, sh a !! k = Some d ∧ d ≠ 1) ∧
      ∀ ix, inside (sh a) ix → at_ b ((λ k, nth k ix 0) <$> keep) = at_ a ix
  | Some k => ∃ i, axis_is (length (sh a)) k i ∧ sh a !! i = Some 1 ∧ sh b = delete i (sh a) ∧
      ∀ ix, inside (sh a) ix → at_ b (delete i ix) = at_ a ix
  end.
(** np.expand_dims *)
Definition is_expand (k : Z) (a b : arr R) : Prop :=
  ∃ i, axis_is (S (length (sh a))) k i ∧ sh b !! i = Some 1 ∧ delete i (sh b) = sh a ∧
    ∀ ix, inside (sh b) ix → at_ b ix = at_ a (delete i ix).
(** np.fliplr and np.flipud *)
Definition is_fliplr (a b : arr R) : Prop := ∃ m n s, sh a = m :: n :: s ∧ sh b = sh a ∧
  ∀ i j k jx, i < m → j + k + 1 = n → inside s jx → at_ b (i :: j :: jx) = at_ a (i :: k :: jx).
Definition is_flipud (a b : arr R) : Prop := ∃ m s, sh a = m :: s ∧ sh b = sh a ∧
  ∀ i k jx, i + k + 1 = m → inside s jx → at_ b (i :: jx) = at_ a (k :: jx).
(** np.vstack, np.hstack and np.dstack *)
Definition is_vstack (vs : list (arr R)) (y : arr R) : Prop := ∃ us, Forall2 (is_nd 2) vs us ∧ is_concat 0 us y.
Definition is_dstack (vs : list (arr R)) (y : arr R) : Prop := ∃ us, Forall2 (is_nd 3) vs us ∧ is_concat 2 us y.
Definition is_hstack (vs : list (arr R)) (y : arr R) : Prop := ∃ us, Forall2 (is_nd 1) vs us ∧
  (if decide (Forall (λ u, length (sh u) = 1) us) then is_concat 0 us y else is_concat 1 us y).
