(** numpy's methods T, transpose, reshape and ravel, as relations between the array and
    the result. *)
From Coq Require Import Reals.
From stdpp Require Import list list_numbers numbers.
From Verif Require Import ArrModel ReorderModel ReorderSpec MethModel.

(** The result of a transposition, with the axes in reversed order or in the order given.
    The axes given must be all the axes, each once. *)
Definition is_transposed (ax : option (list Z)) (a b : arr R) : Prop :=
  (∀ l, ax = Some l → ∃ ks, Forall2 (axis_is (length (sh a))) l ks ∧ NoDup ks ∧ length ks = length (sh a)) ∧
  shape_rule (Transpose ax) (sh a) (sh b) ∧
  ∀ ix jx, inside (sh b) ix → inside (sh a) jx → comes_from (Transpose ax) (sh a) ix jx → at_ b ix = at_ a jx.
(** The result of a reshape: the same elements in the same order, in the shape asked for.
    A length -1 stands for the one that makes the sizes equal, which must be determined. *)
Definition is_reshaped (ns : list Z) (a b : arr R) : Prop :=
  Forall2 (λ d e, d = Z.of_nat e ∨ d = (-1)%Z) ns (sh b) ∧ asize b = asize a ∧
  (∀ i j, ns !! i = Some (-1)%Z → ns !! j = Some (-1)%Z → i = j) ∧
  ((-1)%Z ∈ ns → 0%Z ∉ ns) ∧
  ∀ i, i < asize a → dat b i = dat a i.

(** Separate numbers. *)
Definition numbers_ (args : list arg) (l : list Z) : Prop := args = ANum <$> l.
(** What numpy's method gives for [a].  No argument and None mean the reversed axes;
    reshape needs an argument and gives the array itself for None. *)
Inductive numpy_gives : mcall → arr R → arr R → Prop :=
  | gives_T a b : is_transposed None a b → numpy_gives CT a b
  | gives_transpose a b : is_transposed None a b → numpy_gives (CTranspose []) a b
  | gives_transpose_none a b : is_transposed None a b → numpy_gives (CTranspose [ANone]) a b
  | gives_transpose_tuple l a b : is_transposed (Some l) a b → numpy_gives (CTranspose [ATuple l]) a b
  | gives_transpose_numbers args l a b : numbers_ args l → l ≠ [] → is_transposed (Some l) a b → numpy_gives (CTranspose args) a b
  | gives_reshape_none a b : aeq a b → numpy_gives (CReshape [ANone]) a b
  | gives_reshape_tuple l a b : is_reshaped l a b → numpy_gives (CReshape [ATuple l]) a b
  | gives_reshape_numbers args l a b : numbers_ args l → l ≠ [] → is_reshaped l a b → numpy_gives (CReshape args) a b
  | gives_ravel a b : sh b = [asize a] → (∀ i, i < asize a → dat b i = dat a i) → numpy_gives CRavel a b.
(** The methods called one after the other. *)
Inductive numpy_chain : list mcall → arr R → arr R → Prop :=
  | chain_nil a b : aeq a b → numpy_chain [] a b
  | chain_cons c l a b d : numpy_gives c a b → numpy_chain l b d → numpy_chain (c :: l) a d.

(** Calls in a form that works: axes as one argument, a shape with at least one axis (a Ch
    always has one), … *)
Definition fine_call (c : mcall) : Prop :=
  match c with
  | CTranspose args => length args ≤ 1
  | CReshape args => args ≠ [ATuple []]
  | _ => True
  end.
(** … None as a shape only for objects that are not reshapes. *)
Definition is_reshape (o : mobj) : Prop := match o with Reshape_ _ _ => True | _ => False end.
Definition fine_for (o : mobj) (c : mcall) : Prop := fine_call c ∧ (is_reshape o → c ≠ CReshape [ANone]).
Definition reshapes (c : mcall) : bool := match c with CReshape _ | CRavel => true | _ => false end.
Fixpoint fine_chain (after_reshape : bool) (l : list mcall) : Prop :=
  match l with
  | [] => True
  | c :: l => fine_call c ∧ (after_reshape = true → c ≠ CReshape [ANone]) ∧ fine_chain (reshapes c) l
  end.
(** For the derivative: axes not as a number. *)
Definition tuples_only (c : mcall) : Prop := ∀ k, c ≠ CTranspose [ANum k].

(** [col] permutes the numbers below [n]. *)
Definition permutes (n : nat) (col : nat → nat) : Prop :=
  (∀ i, i < n → col i < n) ∧ (∀ i j, i < n → j < n → col i = col j → i = j) ∧ ∀ j, j < n → ∃ i, i < n ∧ col i = j.
