(** C42: the callbacks given to scipy's minimizers. *)
From Flocq Require Import IEEE754.BinarySingleNaN.
From stdpp Require Import prelude.
From Verif Require Import Dog64 BridgeModel BridgeSpec BridgeThms BridgeDemo.
Notation at_time f g h w qs := (serves f g (fresh_bridge h w) qs).

(** For a minimizer that leaves alone the arrays it got and those where it asked for a
    gradient: values and gradients are those at the vector it asks about. *)
Theorem C42_value_partial f g h w qs1 l qs2 : w ≠ [] → proper w → polite w h [] (qs1 ++ Fun l :: qs2) →
  ∃ xs, vector_of w xs (heap (at_time f g h w qs1) l) ∧ (serve f g (at_time f g h w qs1) (Fun l)).2 = Value (f xs).
Proof. exact (served_value f g h w qs1 l qs2). Qed.
Print Assumptions C42_value_partial.
Theorem C42_gradient_partial f g h w qs1 l qs2 : w ≠ [] → proper w → polite w h [] (qs1 ++ Jac l :: qs2) →
  (∃ x, x ∈ heap (at_time f g h w qs1) l ∧ ¬ numeq x huge) ∨
  (∃ qa l' qb j d, qs1 = qa ++ Jac l' :: qb ∧ (serve f g (at_time f g h w qa) (Jac l')).2 = Gradient j d) →
  ∃ j xs, vector_of w xs (heap (at_time f g h w qs1) l) ∧ (serve f g (at_time f g h w qs1) (Jac l)).2 = Gradient j (g xs).
Proof. exact (served_gradient f g h w qs1 l qs2). Qed.
Print Assumptions C42_gradient_partial.
Theorem C42_answer_partial f g h w qs1 l qs2 : w ≠ [] → proper w → polite w h [] (qs1 ++ Answer l :: qs2) →
  vector_of w (values (serve f g (at_time f g h w qs1) (Answer l)).1) (heap (at_time f g h w qs1) l).
Proof. exact (served_answer f g h w qs1 l qs2). Qed.
Print Assumptions C42_answer_partial.
Example C42_example : proper w2 ∧ polite w2 h2 [] polite2 ∧ ∃ x, x ∈ h2 (Theirs 0) ∧ ¬ numeq x huge.
Proof. split; [exact w2_proper|split; [exact polite2_ok|]]. exists (num 1). split; [by left|]. apply differ_spec. vm_compute. reflexivity. Qed.

(** Without these conditions the statement is false: a minimizer that reuses its vector, *)
Theorem C42_reused_refuted : ∃ f g h w l a, proper w ∧ fitting w (h l) ∧ fitting w a ∧
  let s := at_time f g h w [Jac l; Write l a] in
  heap s l = a ∧ ∃ j d, (serve f g s (Jac l)).2 = Gradient j d ∧ ∀ xs, vector_of w xs a → d ≠ g xs.
Proof.
  exists obj0, grad0, (h1 [num 1]), w1, (Theirs 0), [num 2].
  split; [exact w1_proper|split; [apply fit1; vm_compute; reflexivity|split; [apply fit1; vm_compute; reflexivity|]]].
  split; [|exact (wrong_check _ _ _ reused_wrong)]. cbn [serves]. rewrite <- (put_eq (heap (serve obj0 grad0 (fresh_bridge (h1 [num 1]) w1) (Jac (Theirs 0))).1) (Theirs 0) [num 2]) at 2. reflexivity.
Qed.
Print Assumptions C42_reused_refuted.
(** or writes into the gradient it got; *)
Theorem C42_scribbled_refuted : ∃ f g h w l j a, proper w ∧ fitting w (h l) ∧ (∃ d, (serve f g (fresh_bridge h w) (Jac l)).2 = Gradient j d) ∧
  let s := at_time f g h w [Jac l; Write j a] in
  ∃ j d, (serve f g s (Jac l)).2 = Gradient j d ∧ ∀ xs, vector_of w xs (h l) → d ≠ g xs.
Proof.
  exists obj0, grad0, (h1 [num 1]), w1, (Theirs 0), (Ours 1), [num 7].
  split; [exact w1_proper|split; [apply fit1; vm_compute; reflexivity|split; [|exact (wrong_check _ _ _ scribbled_wrong)]]].
  apply first_gradient. vm_compute. reflexivity.
Qed.
Print Assumptions C42_scribbled_refuted.
(** the first gradient at 1e16, a NaN, a variable without elements, a view, *)
Theorem C42_huge_refuted : ∃ f g h w l, proper w ∧ fitting w (h l) ∧ (serve f g (fresh_bridge h w) (Jac l)).2 = Raised.
Proof.
  exists obj0, grad0, (h1 [huge]), w1, (Theirs 0). split; [exact w1_proper|split; [apply fit1; vm_compute; reflexivity|]]. exact (raised_check _ huge_raises).
Qed.
Print Assumptions C42_huge_refuted.
Theorem C42_nan_refuted : ∃ h w l x, h l = [x] ∧ is_nan x = true ∧ proper w ∧ ∀ f g, (serve f g (fresh_bridge h w) (Fun l)).2 = Value (f [[num 0]]).
Proof. exists (h1 [B754_nan]), w1, (Theirs 0), B754_nan. split_and!; [done|done|exact w1_proper|exact nan_ignored]. Qed.
Print Assumptions C42_nan_refuted.
Theorem C42_empty_raises f g h w : (serve f g (fresh_bridge h (Var Own [] :: w)) (Fun (Theirs 0))).2 = Raised.
Proof. exact (empty_raises f g h w). Qed.
Print Assumptions C42_empty_raises.
Theorem C42_view_refuted : ∃ f g h w l, (∀ v, v ∈ w → v_kind v = View ∧ finite (v_val v)) ∧ fitting w (h l) ∧
  ¬ vector_of w (values (serve f g (fresh_bridge h w) (Answer l)).1) (h l).
Proof.
  exists obj0, grad0, (h1 [num 1]), wv, (Theirs 0). split; [|split; [split; [done|]; apply finite_check; vm_compute; reflexivity|exact (off_check _ _ _ view_off)]].
  intros v ->%elem_of_list_singleton. split; [done|]. apply finite_check. vm_compute. reflexivity.
Qed.
Print Assumptions C42_view_refuted.
(** and the Hessian callbacks, which never return. *)
Theorem C42_hessian_raises f g h w qs1 l qs2 : w ≠ [] → proper w → polite w h [] (qs1 ++ Hess l :: qs2) → (serve f g (at_time f g h w qs1) (Hess l)).2 = Raised.
Proof. exact (served_hessian f g h w qs1 l qs2). Qed.
Print Assumptions C42_hessian_raises.
