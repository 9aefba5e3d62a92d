(** Singular value decompositions. *)
From Coq Require Import Reals.
From stdpp Require Import list list_numbers numbers.
From Verif Require Import ArrModel Curve.

Definition unit_ (i j : nat) : R := if decide (i = j) then 1%R else 0%R.
(** x is the m x n matrix u diag(s) v^T; k columns in u and v, which are orthonormal; no
    singular value is negative. *)
Definition is_svd (m n k : nat) (x u s v : arr R) : Prop :=
  sh x = [m; n] ∧ sh u = [m; k] ∧ sh s = [k] ∧ sh v = [n; k] ∧
  (∀ i j, i < m → j < n → at_ x [i; j] = rsum ((λ l, at_ u [i; l] * at_ s [l] * at_ v [j; l])%R <$> seq 0 k)) ∧
  (∀ p q, p < k → q < k → rsum ((λ i, at_ u [i; p] * at_ u [i; q])%R <$> seq 0 m) = unit_ p q) ∧
  (∀ p q, p < k → q < k → rsum ((λ j, at_ v [j; p] * at_ v [j; q])%R <$> seq 0 n) = unit_ p q) ∧
  (∀ l, l < k → (0 <= at_ s [l])%R).
(** w is the transpose of v. *)
Definition is_transpose (v w : arr R) : Prop :=
  ∃ n k, sh v = [n; k] ∧ sh w = [k; n] ∧ ∀ i j, i < n → j < k → at_ w [j; i] = at_ v [i; j].

(** A curve of arrays that is continuous at time 0. *)
Definition acont (y : R → arr R) : Prop := ∀ i, continuity_pt (λ t, elem (y t) i) 0%R.
