(** Property C79: reductions over several axes, and with keywords. *)
From Coq Require Import Reals Lra.
From stdpp Require Import strings list list_numbers numbers gmap.
From Verif Require Import ArrModel Curve ArrThms ReorderModel ReorderSpec RedModel RedSpec
  SeveralModel SeveralSpec SeveralThms SeveralSteps SeveralFine SeveralExt.

(** The cube 0, 1, ..., 7 of shape (2, 2, 2). *)
Definition cube : arr R := Arr_ [2; 2; 2] INR.
Lemma cube_axes : axes_are (length (sh cube)) [2; -3]%Z [2; 0].
Proof.
  split; [|apply NoDup_cons; split; [set_solver|apply NoDup_singleton]].
  constructor; [split; [simpl; lia|left; done]|]. constructor; [split; [simpl; lia|right; done]|constructor].
Qed.
Lemma cube_falls : falling [2; 0].
Proof. constructor; [intros j ->%elem_of_list_singleton; lia|]. constructor; [intros j Hj; by apply elem_of_nil in Hj|constructor]. Qed.

(** With a tuple as axis the axes that stay are those not named, in order, and every
    element is the sum (mean, largest, smallest) of the elements that agree with it on the
    axes that stay.  As function and as method. *)
Theorem C79_value f o t a x y : make f o (AxTuple t) [] = Some x → value x a = Some y → ∃ l, axes_are (length (sh a)) t l ∧ leaves l (sh a) (sh y) ∧
  ∀ i, i < asize y → ∃ ps, agreeing l (sh a) (sh y) i ps ∧ reduces o a ps (dat y i).
Proof. exact (tuple_value f o t a x y). Qed.
Print Assumptions C79_value.
Example C79_value_case : ∃ x y, make Method Osum (AxTuple [2; -3]%Z) [] = Some x ∧ value x cube = Some y ∧ sh y = [2] ∧
  parts [2; 0] [2; 2; 2] 1 = [2; 3; 6; 7].
Proof. eexists _, _. split_and!; [done|done|done|vm_compute; done]. Qed.

(** It raises exactly for axes that do not exist or are named twice. *)
Theorem C79_raises f o t a x : make f o (AxTuple t) [] = Some x → smooth o ∨ 0 < size (sh a) →
  value x a = None ↔ ¬ ∃ l, axes_are (length (sh a)) t l.
Proof. exact (tuple_raises f o t a x). Qed.
Print Assumptions C79_raises.
Example C79_raises_case : ∃ x, make Function Omean (AxTuple [0; -3]%Z) [] = Some x ∧ smooth Omean ∧ value x cube = None.
Proof. eexists. split_and!; done. Qed.

(** The order of the tuple and the sign of the numbers do not matter. *)
Theorem C79_order f g o t t' l l' a x x' : axes_are (length (sh a)) t l → axes_are (length (sh a)) t' l' → l ≡ₚ l' →
  make f o (AxTuple t) [] = Some x → make g o (AxTuple t') [] = Some x' → agree (value x a) (value x' a).
Proof. exact (tuple_order f g o t t' l l' a x x'). Qed.
Print Assumptions C79_order.
Example C79_order_case : axes_are (length (sh cube)) [2; -3]%Z [2; 0] ∧ axes_are (length (sh cube)) [0; 2]%Z [0; 2] ∧ [2; 0] ≡ₚ [0; 2].
Proof.
  split_and!; [exact cube_axes| |apply Permutation_swap]. split; [|apply NoDup_cons; split; [set_solver|apply NoDup_singleton]].
  constructor; [split; [simpl; lia|left; done]|]. constructor; [split; [simpl; lia|left; done]|constructor].
Qed.

(** Reducing along one axis after the other, from the last to the first, gives what
    reducing over the tuple gives: sums of sums, means of means, extremes of extremes.
    Missing: arrays without elements. *)
Theorem C79_steps_partial f g o t l ks a x : axes_are (length (sh a)) t l → falling ks → ks ≡ₚ l → 0 < size (sh a) →
  make g o (AxTuple t) [] = Some x → steps f o ks a ≠ None ∧ agree (steps f o ks a) (value x a).
Proof. exact (tuple_steps f g o t l ks a x). Qed.
Print Assumptions C79_steps_partial.
Example C79_steps_case : axes_are (length (sh cube)) [2; -3]%Z [2; 0] ∧ falling [2; 0] ∧ [2; 0] ≡ₚ [2; 0] ∧ 0 < size (sh cube).
Proof. split_and!; [exact cube_axes|exact cube_falls|done|simpl; lia]. Qed.

(** For sums and means the derivative of the steps is the derivative of the reduction over
    the tuple, and has the share of each element as entry.
    Missing: that the object with the tuple gives this derivative, which is false, see
    below. *)
Theorem C79_steps_jacobian_partial f o t l ks a : smooth o → axes_are (length (sh a)) t l → falling ks → ks ≡ₚ l → 0 < size (sh a) → ∃ J y,
  steps_jac f o ks a = Some J ∧ np_axes o t a = Some y ∧ fits J (asize y) (asize a) ∧
  (∀ i p ps, i < asize y → p < asize a → agreeing l (sh a) (sh y) i ps → entry J i p = if decide (p ∈ ps) then share o (length ps) else 0%R) ∧
  diff1 (λ x, default x (np_axes o t x)) J a.
Proof. exact (tuple_jacobian f o t l ks a). Qed.
Print Assumptions C79_steps_jacobian_partial.
Example C79_steps_jacobian_case : smooth Omean ∧ axes_are (length (sh cube)) [2; -3]%Z [2; 0] ∧ falling [2; 0] ∧ 0 < size (sh cube) ∧
  agreeing [2; 0] (sh cube) [2] 1 [2; 3; 6; 7].
Proof. split_and!; [done|exact cube_axes|exact cube_falls|simpl; lia|exact (parts_agreeing [2; 0] [2; 2; 2] 1)]. Qed.

(** For max and min the derivative of the steps has its 1 at an extreme element of the
    part, and is the derivative of the reduction over the tuple where no other element of
    a part is equal to the extreme one.  Missing: as above. *)
Theorem C79_steps_extremes_partial f mx t l ks a : axes_are (length (sh a)) t l → falling ks → ks ≡ₚ l → 0 < size (sh a) → ∃ J y,
  steps_jac f (Oext mx) ks a = Some J ∧ np_axes (Oext mx) t a = Some y ∧ fits J (asize y) (asize a) ∧
  (∀ i ps, i < asize y → agreeing l (sh a) (sh y) i ps → ∃ p, p ∈ ps ∧ (∀ q, q ∈ ps → attains mx (dat a p) (dat a q)) ∧
    ∀ q, entry J i q = if decide (q = p) then 1%R else 0%R) ∧
  (alone mx l a (sh y) → diff1 (λ x, default x (np_axes (Oext mx) t x)) J a).
Proof. exact (ext_tuple_jacobian f mx t l ks a). Qed.
Print Assumptions C79_steps_extremes_partial.
Example C79_steps_extremes_case : axes_are (length (sh cube)) [2; -3]%Z [2; 0] ∧ falling [2; 0] ∧ 0 < size (sh cube) ∧ alone true [2; 0] cube [2].
Proof.
  split_and!; [exact cube_axes|exact cube_falls|simpl; lia|]. intros i ps p q _ _ _ _ Hne _. simpl. intros E. apply Hne. by apply INR_eq.
Qed.

(** With a tuple the value is there and has a derivative, but asking for it raises: for
    every sum or mean, array with elements and tuple of existing axes. *)
Theorem C79_tuple_always f o t l a : smooth o → axes_are (length (sh a)) t l → 0 < size (sh a) → ∃ x,
  make f o (AxTuple t) [] = Some x ∧ value x a ≠ None ∧ (∃ J, diff1 (λ z, default z (value x z)) J a) ∧ jacobian x a = None.
Proof. exact (tuple_raises_always f o t l a). Qed.
Print Assumptions C79_tuple_always.
Theorem C79_tuple_refuted : ∃ x y, make Function Osum (AxTuple [0; 1]%Z) [] = Some x ∧
  value x cube = Some y ∧ sh y = [2] ∧ jacobian x cube = None.
Proof. eexists _, _. split_and!; done. Qed.
Print Assumptions C79_tuple_refuted.

(** keepdims=True given to the functions is ignored whatever is reduced: axes are missing
    in the answer. *)
Theorem C79_keepdims_always o ax kws a x y l : make Function o ax kws = Some x → value x a = Some y → reduced_axes (length (sh a)) ax l → l ≠ [] →
  ¬ ones_at l (sh a) (sh y).
Proof. exact (keepdims_ignored o ax kws a x y l). Qed.
Print Assumptions C79_keepdims_always.
Theorem C79_keepdims_refuted : ∃ x y l, make Function Osum (AxOne 1) [Keepdims true] = Some x ∧ value x cube = Some y ∧
  reduced_axes (length (sh cube)) (AxOne 1) l ∧ l ≠ [] ∧ ¬ ones_at l (sh cube) (sh y).
Proof.
  exists (Robj Osum (AxOne 1) [Keepdims true]), (fold_axis (f_red Fsum) 1 cube), [1].
  assert (H : reduced_axes (length (sh cube)) (AxOne 1) [1]) by (exists 1; split; [split; [simpl; lia|left; done]|done]).
  split_and!; [done|done|exact H|done|].
  exact (keepdims_ignored Osum (AxOne 1) [Keepdims true] cube _ _ [1] eq_refl eq_refl H ltac:(done)).
Qed.
Print Assumptions C79_keepdims_refuted.

(** A misspelt keyword is ignored by the functions: ch.sum(x, axes=0) is the sum over
    everything. *)
Theorem C79_misspelt_refuted name : ∃ x, make Function Osum AxNone [Unknown name] = Some x ∧
  ∀ a, ∃ y, value x a = Some y ∧ sh y = [] ∧ dat y 0 = rsum (elems a).
Proof. eexists. split; [done|]. intros a. eexists. split_and!; done. Qed.
Print Assumptions C79_misspelt_refuted.
(** The methods raise for keepdims, whatever its value. *)
Theorem C79_methods_refuted o ax b : make Method o ax [Keepdims b] = None ∧ make Function o ax [Keepdims b] ≠ None.
Proof. done. Qed.
Print Assumptions C79_methods_refuted.
