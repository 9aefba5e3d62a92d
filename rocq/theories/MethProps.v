(** Property C78: chains of transpositions and reshapes, called as in numpy. *)
From Coq Require Import Reals.
From stdpp Require Import list list_numbers numbers.
From Verif Require Import ArrModel Curve ReorderModel ReorderSpec MethModel MethSpec MethThms.

(** C78, one call.  For an object whose value is [a], the object that the method returns
    has the value [b] exactly if numpy's method gives [b] for [a].  Missing: separate axes,
    the shape (), and None as a shape for a reshape (all refuted below). *)
Theorem C78_call_partial o x a c b : mval o x = Some a → fine_for o c →
  ((∃ o' b', mcall_ c o = Some o' ∧ mval o' x = Some b' ∧ aeq b' b) ↔ numpy_gives c a b).
Proof. exact (step_right o x a c b). Qed.
Print Assumptions C78_call_partial.
(** Where numpy refuses, the value cannot be computed. *)
Theorem C78_refuses_partial o x a c : mval o x = Some a → fine_for o c → (∀ b, ¬ numpy_gives c a b) →
  ∀ o', mcall_ c o = Some o' → mval o' x = None.
Proof. exact (step_refuses o x a c). Qed.
Print Assumptions C78_refuses_partial.
Example C78_call_case : mval Leaf six = Some six ∧ fine_for Leaf (CReshape [ATuple [2; -1]%Z]) ∧ numpy_gives (CReshape [ATuple [2; -1]%Z]) six two_three ∧
  mval Leaf two_three = Some two_three ∧ fine_for Leaf (CTranspose [ATuple [1; 0]%Z]) ∧
  mcall_ (CReshape [ATuple [4; -1]%Z]) Leaf = Some (Reshape_ Leaf (Some [4; -1]%Z)) ∧ mval (Reshape_ Leaf (Some [4; -1]%Z)) six = None.
Proof. split_and!; try done; try (split; [simpl; (done || lia)|by intros []]). constructor. by apply reshaped_is. Qed.
(** C78, chains of calls: if numpy's methods give [b], the object has the value [b], for
    every value of x (the object does not depend on it). *)
Theorem C78_chain_partial l x b : fine_chain false l → numpy_chain l (atleast_1d x) b →
  ∃ o b', mcalls l Leaf = Some o ∧ mval o x = Some b' ∧ aeq b' b.
Proof. exact (chain_right l x b). Qed.
Print Assumptions C78_chain_partial.
Example C78_chain_case : fine_chain false four_calls ∧ Forall tuples_only four_calls ∧
  (∃ b, numpy_chain four_calls (atleast_1d six) b) ∧ ∃ o b, mcalls four_calls Leaf = Some o ∧ mval o six = Some b ∧ sh b = [3; 2] ∧
    elems b = INR <$> [0; 4; 3; 2; 1; 5].
Proof. exact four_case. Qed.
(** C78, derivatives: whatever the chain, the Jacobian is the derivative, and the matrix of
    the permutation that takes the elements of x to those of the result.  Missing: an axis
    given as a number (refuted below). *)
Theorem C78_jacobian_partial l o x b : mcalls l Leaf = Some o → Forall tuples_only l → mval o x = Some b → ∃ J col, mjac o x = Some J ∧
  fits J (asize b) (asize x) ∧ permutes (asize x) col ∧ asize b = asize x ∧ diff1 (λ y, default y (mval o y)) J x ∧
  (∀ i j, i < asize x → j < asize x → entry J i j = if decide (j = col i) then 1%R else 0%R) ∧
  ∀ y c, sh y = sh x → mval o y = Some c → sh c = sh b ∧ ∀ i, i < asize x → dat c i = dat y (col i).
Proof. exact (chain_jacobian l o x b). Qed.
Print Assumptions C78_jacobian_partial.

(** What numpy gives is determined. *)
Theorem C78_determined c a b b' : numpy_gives c a b → numpy_gives c a b' → aeq b b'.
Proof. exact (gives_det c a b b'). Qed.
Print Assumptions C78_determined.

(** x.transpose(1, 0) raises, as every call with separate axes. *)
Theorem C78_axes_refuted : (∃ b, numpy_gives (CTranspose [ANum 1; ANum 0]) two_three b) ∧ mcall_ (CTranspose [ANum 1; ANum 0]) Leaf = None.
Proof. exact separate_wrong. Qed.
Print Assumptions C78_axes_refuted.
Theorem C78_axes_always o a1 a2 args : mcall_ (CTranspose (a1 :: a2 :: args)) o = None.
Proof. exact (separate_axes o a1 a2 args). Qed.
Print Assumptions C78_axes_always.
(** x.transpose(0) of a vector has the right value, but asking for its derivative raises;
    so it does for every object. *)
Theorem C78_number_refuted : ∃ b, numpy_gives (CTranspose [ANum 0]) six b ∧ ∃ o b', mcall_ (CTranspose [ANum 0]) Leaf = Some o ∧
  mval o six = Some b' ∧ aeq b' b ∧ mjac o six = None.
Proof. exact number_wrong. Qed.
Print Assumptions C78_number_refuted.
Theorem C78_number_always k o o' x : mcall_ (CTranspose [ANum k]) o = Some o' → mjac o' x = None.
Proof. exact (number_axis k o o' x). Qed.
Print Assumptions C78_number_always.
Example C78_number_case : mcall_ (CTranspose [ANum 0]) (Reshape_ Leaf (Some [6%Z])) = Some (Transpose_ (Reshape_ Leaf (Some [6%Z])) (Axis 0)).
Proof. done. Qed.
(** x.reshape(2, 3).reshape(None) has the shape of x. *)
Theorem C78_none_refuted : ∃ l b, numpy_chain l six b ∧ sh b = [2; 3] ∧ ∃ o b', mcalls l Leaf = Some o ∧ mval o six = Some b' ∧ sh b' = [6].
Proof. exact none_wrong. Qed.
Print Assumptions C78_none_refuted.
(** x.reshape(5).reshape(6) of six elements has a value, though numpy refuses the first. *)
Theorem C78_impossible_refuted : ∃ l, (∀ b, ¬ numpy_chain l six b) ∧ ∃ o b', mcalls l Leaf = Some o ∧ mval o six = Some b'.
Proof. exact impossible_wrong. Qed.
Print Assumptions C78_impossible_refuted.
(** x.reshape(()) has one axis. *)
Theorem C78_zero_axes_refuted : ∃ x b, numpy_gives (CReshape [ATuple []]) x b ∧ sh x ≠ [] ∧
  ∃ o b', mcall_ (CReshape [ATuple []]) Leaf = Some o ∧ mval o x = Some b' ∧ sh b' ≠ sh b.
Proof. exact zero_axes_wrong. Qed.
Print Assumptions C78_zero_axes_refuted.
