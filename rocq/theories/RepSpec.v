(** What a stored Jacobian stands for, and the chain rule as an equation on matrices. *)
From Coq Require Import Reals.
From stdpp Require Import gmap list list_numbers.
From Verif Require Import ArrModel RepModel.

Definition mat : Type := nat → nat → R.
Definition meq (n m : nat) (A B : mat) : Prop := ∀ i j, i < n → j < m → A i j = B i j.
Definition mmult (k : nat) (A B : mat) : mat := λ i j, rsum ((λ l, A i l * B l j)%R <$> seq 0 k).
Definition mplus (A B : mat) : mat := λ i j, (A i j + B i j)%R.
Definition mzero : mat := λ _ _, 0%R.
(** c times the identity *)
Definition mscal (c : R) : mat := λ i j, if decide (i = j) then c else 0%R.
Definition mvec (n m : nat) (A : mat) (v : list R) : list R :=
  (λ i, rsum ((λ l, A i l * nth l v 0)%R <$> seq 0 m)) <$> seq 0 n.

(** [r] is an n x m matrix with entries [A]. *)
Definition is_mat (r : rep) (n m : nat) (A : mat) : Prop :=
  match r with
  | Num _ => False
  | Arr a => sh a = [n; m] ∧ ∀ i j, i < n → j < m → dat a (i * m + j) = A i j
  | Spr n' m' f => n' = n ∧ m' = m ∧ meq n m f A
  | Lin n' m' _ => n' = n ∧ m' = m ∧ ∀ v, length v = m → apply1 r v = Some (mvec n m A v)
  end.

(** [r] is the number [c] or an array with [c] as single element. *)
Definition is_num (r : rep) (c : R) : Prop :=
  match r with
  | Num x => x = c
  | Arr a => asize a = 1 ∧ length (sh a) ≤ 2 ∧ dat a 0 = c
  | _ => False
  end.

(** What classes return: a matrix; for a single element of a single element also a
    number or an array with one element. *)
Definition stores (r : rep) (n m : nat) (A : mat) : Prop :=
  is_mat r n m A ∨ n = 1 ∧ m = 1 ∧ is_num r (A 0 0).

(** A number stands for a multiple of the identity as well. *)
Definition means (r : rep) (n m : nat) (A : mat) : Prop :=
  stores r n m A ∨ n = m ∧ ∃ c, is_num r c ∧ meq n m A (mscal c).

(** The matrix that a result of dr_wrt stands for, None being zero. *)
Definition result_is (res : option rep) (n m : nat) (A : mat) : Prop :=
  match res with
  | None => meq n m A mzero
  | Some r => is_mat r n m A
  end.

Definition returns (g : rgraph) (o w : nat) (res : option rep) : Prop := ∃ n, rdr n g o w = Some res.
Definition returns_rev (g : rgraph) (o w : nat) (res : option rep) : Prop := ∃ n, rdr_rev n g o w = Some res.
Definition returns_lop (g : rgraph) (lhs : rep) (o w : nat) (res : option rep) : Prop :=
  ∃ n, rlop n g lhs o w = Some res.
(** Every call raises, however deep recursion may go. *)
Definition raises (f : nat → option (option rep)) : Prop := ∀ n, f n = None.

Section chain.
Context (g : rgraph) (size : nat → nat) (w : nat) (J : nat → nat → mat).

(** The operands are objects of the graph, once each, and there are no cycles. *)
Definition sound_graph : Prop :=
  (∀ o nd, g !! o = Some nd → NoDup (ops nd) ∧ ∀ p, p ∈ ops nd → is_Some (g !! p)) ∧
  ∃ rank : nat → nat, ∀ o nd p, g !! o = Some nd → p ∈ ops nd → rank p < rank o.

(** Total derivatives with respect to [w] obey the chain rule. *)
Definition chain_rule (T : nat → mat) : Prop :=
  meq (size w) (size w) (T w) (mscal 1) ∧
  ∀ o nd, g !! o = Some nd → o ≠ w →
    ∀ i j, i < size o → j < size w →
      T o i j = rsum ((λ p, mmult (size p) (J o p) (T p) i j) <$> ops nd).

(** The class of [o] returns its local Jacobians in some format that is a matrix (or a
    single number for a single element of a single element), and None for what is no
    operand or does not matter. *)
Definition proper (ok : rep → bool) (o : nat) : Prop :=
  ∀ nd, g !! o = Some nd →
    (∀ p, p ∉ ops nd → jac nd p = None) ∧
    ∀ p, p ∈ ops nd →
      match jac nd p with
      | Some r => stores r (size o) (size p) (J o p) ∧ ok r = true
      | None => meq (size o) (size p) (J o p) mzero
      end.

(** Classes like ChHandle and ChLambda that hand on one operand: the Jacobian is a nonzero
    number, standing for a multiple of the identity.  The value does not depend on other
    operands, if there are any. *)
Definition handle (o : nat) : Prop :=
  ∃ nd p r c, g !! o = Some nd ∧ p ∈ ops nd ∧ jac nd p = Some r ∧ (∀ q, q ≠ p → jac nd q = None) ∧
    (∀ q, q ∈ ops nd → q ≠ p → meq (size o) (size q) (J o q) mzero) ∧
    is_num r c ∧ c ≠ 0%R ∧ size o = size p ∧ meq (size o) (size p) (J o p) (mscal c).

(** [o] is [w] or handed on from [w] by handles only. *)
Inductive alias : nat → Prop :=
| alias_w : alias w
| alias_step o p nd : o ≠ w → handle o → g !! o = Some nd → p ∈ ops nd → is_Some (jac nd p) → alias p → alias o.
End chain.

(** LinearOperators excluded. *)
Definition no_lin (r : rep) : bool := match r with Lin _ _ _ => false | _ => true end.
(** Sparse matrices only. *)
Definition sparse_only (r : rep) : bool := match r with Spr _ _ _ => true | _ => false end.
