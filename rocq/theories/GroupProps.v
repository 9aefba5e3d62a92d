(** C58: groups, and the derivatives of lambda objects.  Statements only; proofs are in
    GroupThms.v and GroupDemo.v.  [g] is everything below the group, [r] the grouped
    expression, [l] the arguments, [T v o] the derivative of object o with respect to v
    (any matrices obeying the chain rule).  Full C58: dr_wrt of the group is T w r for
    every w, and its value that of r at all times. *)
From Coq Require Import Reals Lra.
From stdpp Require Import gmap list list_numbers relations strings.
From Verif Require Import EngineModel EngineSpec LamModel LamSpec LamDemo.
From Verif Require Import ArrModel RepModel RepSpec RepThms RepGraph GroupModel GroupSpec GroupThms GroupDemo.

(** Right with respect to a variable that no other argument depends on: the arguments
    themselves, if independent, and what reaches the expression in another way only. *)
Theorem C58_derivative_partial : ∀ g size J T l r w, sound_graph g →
  (∀ o, proper g size J no_lin o ∨ handle g size J o) →
  (∀ v, v ∈ w :: l → chain_rule g size v J (T v)) →
  r ∉ w :: l → (∀ v, v ∈ w :: l → ¬ alias g size v J r) →
  ∀ n res, (∀ p, p ∈ l → is_Some (g !! p)) → (∀ p, p ∈ l → p ≠ w → ¬ rtc (feeds g) p w) →
  group_dr n g l r w = Some res → result_is res (size r) (size w) (T w r).
Proof. exact group_right. Qed.
Print Assumptions C58_derivative_partial.
Example C58_derivative_case : ∀ w, w ∈ [1; 4] → sound_graph g_grp ∧
  (∀ o, proper g_grp two J_grp no_lin o ∨ handle g_grp two J_grp o) ∧
  (∀ v, v ∈ w :: [1] → chain_rule g_grp two v J_grp (T_grp v)) ∧
  3 ∉ w :: [1] ∧ (∀ v, v ∈ w :: [1] → ¬ alias g_grp two v J_grp 3) ∧
  (∀ p, p ∈ [1] → is_Some (g_grp !! p)) ∧ (∀ p, p ∈ [1] → p ≠ w → ¬ rtc (feeds g_grp) p w) ∧
  ∃ n res, group_dr n g_grp [1] 3 w = Some res.
Proof.
  intros w Hw. assert (Hw' : w ∈ [0; 1; 4]) by set_solver.
  split; [exact grp_sound|]. split; [exact grp_fine|].
  split; [intros v Hv; apply grp_chain; by eapply grp_sub|]. split; [set_solver|].
  split; [intros v Hv; apply grp_alias; by eapply grp_sub|].
  split; [intros p Hp; apply grp_there; by right|]. split; [|exact (grp_returns w Hw')].
  intros p ->%elem_of_list_singleton Hne Hr. destruct (reach_grp _ _ Hr eq_refl) as [->| ->]; [done|set_solver].
Qed.

(** What is returned in every case: the derivative of the expression, and the chain terms
    through the arguments once more. *)
Theorem C58_chain : ∀ g size J T l r w, sound_graph g →
  (∀ o, proper g size J no_lin o ∨ handle g size J o) →
  (∀ v, v ∈ w :: l → chain_rule g size v J (T v)) →
  r ∉ w :: l → (∀ v, v ∈ w :: l → ¬ alias g size v J r) →
  ∀ n res, group_dr n g l r w = Some res →
  result_is res (size r) (size w) (with_chain size l w (T w r) (λ p, T p r) (T w)).
Proof. exact group_formula. Qed.
Print Assumptions C58_chain.

(** Something is returned, except possibly for single elements. *)
Theorem C58_returns : ∀ g size J T l r w, sound_graph g →
  (∀ o, proper g size J no_lin o ∨ handle g size J o) →
  (∀ v, v ∈ w :: l → chain_rule g size v J (T v)) →
  r ∉ w :: l → (∀ v, v ∈ w :: l → ¬ alias g size v J r) →
  (∀ p, p ∈ r :: l → is_Some (g !! p)) →
  (∀ o nd v, g !! o = Some nd → v ∈ w :: l → size o * size v ≠ 1 ∨ length (ops nd) ≤ 1) →
  size r * size w ≠ 1 → ∃ n res, group_dr n g l r w = Some res.
Proof. exact group_returns. Qed.
Print Assumptions C58_returns.

(** Wrong below the arguments: if every path to the variable runs through the arguments
    and these are independent of each other, what is returned is twice the derivative,
    hence wrong unless the derivative is zero. *)
Theorem C58_twice : ∀ g size J T l r w, sound_graph g →
  (∀ o, proper g size J no_lin o ∨ handle g size J o) →
  (∀ v, v ∈ w :: l → chain_rule g size v J (T v)) →
  r ∉ w :: l → (∀ v, v ∈ w :: l → ¬ alias g size v J r) →
  ∀ n res, NoDup l → w ∉ l → (∀ p, p ∈ r :: l → is_Some (g !! p)) →
  (∀ p p', p ∈ l → p' ∈ l → p ≠ p' → ¬ rtc (feeds g) p p') → ¬ around g l w r →
  group_dr n g l r w = Some res → result_is res (size r) (size w) (mtwice (T w r)).
Proof. exact group_twice. Qed.
Print Assumptions C58_twice.
Theorem C58_twice_wrong : ∀ res n k A, (∃ i j, i < n ∧ j < k ∧ A i j ≠ 0%R) →
  result_is res n k (mtwice A) → ¬ result_is res n k A.
Proof. exact twice_wrong. Qed.
Print Assumptions C58_twice_wrong.

(** The full statement is false: r = 2 * p + y grouped with the argument p = 3 * x. *)
Theorem C58_derivative_refuted : ∃ g size J T l r w n res, sound_graph g ∧
  (∀ o, proper g size J no_lin o ∨ handle g size J o) ∧
  (∀ v, v ∈ w :: l → chain_rule g size v J (T v)) ∧
  r ∉ w :: l ∧ (∀ v, v ∈ w :: l → ¬ alias g size v J r) ∧
  group_dr n g l r w = Some res ∧ ¬ result_is res (size r) (size w) (T w r).
Proof.
  destruct (grp_returns 0 ltac:(by left)) as (n & res & Hres).
  exists g_grp, two, J_grp, T_grp, [1], 3, 0, n, res.
  assert (H1 : ∀ v, v ∈ 0 :: [1] → chain_rule g_grp two v J_grp (T_grp v))
    by (intros v Hv; apply grp_chain; exact (grp_sub v 0 ltac:(by left) Hv)).
  assert (H2 : ∀ v, v ∈ 0 :: [1] → ¬ alias g_grp two v J_grp 3)
    by (intros v Hv; apply grp_alias; exact (grp_sub v 0 ltac:(by left) Hv)).
  split; [exact grp_sound|]. split; [exact grp_fine|]. split; [exact H1|]. split; [set_solver|]. split; [exact H2|].
  split; [exact Hres|]. apply (C58_twice_wrong res 2 2 (T_grp 0 3)).
  - exists 0, 0. split_and!; [lia|lia|]. unfold T_grp, mscal. simpl. lra.
  - apply (C58_twice g_grp two J_grp T_grp [1] 3 0 grp_sound grp_fine H1 ltac:(set_solver) H2 n res); [|set_solver|exact grp_there| |exact grp_around|exact Hres].
    + repeat constructor. set_solver.
    + intros p p' ->%elem_of_list_singleton ->%elem_of_list_singleton Hne. done.
Qed.
Print Assumptions C58_derivative_refuted.

(** Values are not kept up to date with what is no argument: for some expression, group
    and assignment, after a read of the group the assignment changes the value of the
    expression but not the one the group returns. *)
Theorem C58_value_refuted : ∃ (L : lib) is_lam is_handle l c f args r ls n o k v o' u u',
  lib_ok L ∧ lam_lib_ok L is_lam is_handle ∧ lvalid L is_lam is_handle l ∧
  make_group L c f args r (lafter L is_lam l) = Some ls ∧
  let ls' := lexec L is_lam [LRead L n f; LSet L o k v o'] ls in
  reads_l L ls' f u ∧ reads_l L ls' r u' ∧ u ≠ u'.
Proof.
  pose proof grp_values as H. destruct grp_made as [ls|] eqn:E; [|destruct H]. destruct H as (_ & _ & _ & H1 & H2).
  exists klib, k_lam, k_handle, l_grp, KLam, 5, [("a"%string, 2)], 3, ls, 20, 1, "x"%string, (@AVal klib 10%Z), 100, 7%Z, 13%Z.
  split; [exact klib_ok|]. split; [exact klam_ok|]. split; [exact l_grp_valid|]. split; [exact E|].
  split; [exists 20; exact H1|]. split; [exists 20; exact H2|]. discriminate.
Qed.
Print Assumptions C58_value_refuted.
(** The same group does follow an assignment to its argument, and another argument. *)
Example C58_value_case : match grp_made with
  | Some ls => kread 5 ls = Some 7%Z ∧ kread 5 (grp_arg ls) = Some 14%Z ∧ kread 5 (grp_other ls) = Some 24%Z
  | None => False
  end.
Proof. pose proof grp_values as H. destruct grp_made as [ls|]; [|exact H]. split_and!; apply H. Qed.

(** Lambda objects: dr_wrt is right in graphs containing them, for the lambda objects and
    what is built on them. *)
Theorem C58_lambda : ∀ (g : rgraph) size w J T, sound_graph g → chain_rule g size w J T →
  (∀ o, proper g size J no_lin o ∨ handle g size J o ∨ lambda_obj lambda_node g size J o) →
  ∀ o, o ≠ w → ¬ alias g size w J o → ∀ res, returns g o w res → result_is res (size o) (size w) (T o).
Proof. exact lambda_right. Qed.
Print Assumptions C58_lambda.
Example C58_lambda_case : sound_graph g_lmb ∧ chain_rule g_lmb two 0 J_lmb T_lmb ∧
  (∀ o, proper g_lmb two J_lmb no_lin o ∨ handle g_lmb two J_lmb o ∨ lambda_obj lambda_node g_lmb two J_lmb o) ∧
  (∀ o, o ∈ [3; 4] → ¬ alias g_lmb two 0 J_lmb o ∧ ∃ res, returns g_lmb o 0 res) ∧ T_lmb 4 1 1 = 6%R.
Proof.
  split; [exact lmb_sound|]. split; [exact lmb_chain|]. split; [exact lmb_fine|].
  split; [intros o Ho; split; [exact (lmb_alias o Ho)|exact (lmb_returns o Ho)]|]. unfold T_lmb, mscal. by rewrite decide_True.
Qed.
