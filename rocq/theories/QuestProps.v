(** Property C77: questions about values. *)
From Coq Require Import Reals Lra Lia.
From stdpp Require Import prelude list_numbers.
From Verif Require Import ArrModel Curve ArrThms ElemModel ReorderModel ReorderSpec RedModel RedSpec RedThms NanModel NanSpec NanThms StepModel MixModel ProtoModel QuestModel QuestSpec QuestThms QuestPos.

(** isfinite, isinf, isnan, isneginf, isposinf, logical_not *)
Theorem C77_each f a : ∃ y, logic_r (Each f) a = Some y ∧ sh y = match sh a with [] => [1] | _ => sh a end ∧ ∀ i, answers (dat y i) (asks f (dat a i)).
Proof. exact (each_value f a). Qed.
Print Assumptions C77_each.
(** any and all: each part of the array is asked *)
Theorem C77_any_all f ax keep a y : logic_r (Over f ax keep) a = Some y →
  asked_shape ax keep (sh a) (sh y) ∧ (∀ o, reduced ax (sh a) o → asize y = size o) ∧
  ∀ i l, i < asize y → gathers ax (sh a) i l → answers (dat y i) (asks_of f a l).
Proof. exact (over_value f ax keep a y). Qed.
Print Assumptions C77_any_all.
Theorem C77_raises f ax keep a : logic_r (Over f ax keep) a = None ↔ ∃ k, ax = Some k ∧ ∀ c, ¬ axis_is (length (sh a)) k c.
Proof. exact (over_raises f ax keep a). Qed.
Print Assumptions C77_raises.
(** There is no derivative, and where the answer changes differentiably it does not change. *)
Theorem C77_flat q u y w : (∀ t, logic_r q (u t) = Some (y t)) → amoves y w → (∀ t, logic_jac q (u t) = None) ∧ ∀ i, w i = 0%R.
Proof. intros H1 H2. exact (conj (λ t, eq_refl) (logic_flat q u y w H1 H2)). Qed.
Print Assumptions C77_flat.
(** That is: unless elements are at zero, for any, all and logical_not, the answer stays when
    the array moves a little, NaN and infinities staying what they are. *)
Theorem C77_constant q u v y : logic_r q (u 0%R) = Some y → emoves u v → (∀ i, i < asize (u 0%R) → ¬ at_edge q (dat (u 0%R) i)) →
  near (λ t, ∃ z, logic_r q (u t) = Some z ∧ aeq z y).
Proof. exact (logic_constant q u v y). Qed.
Print Assumptions C77_constant.

(** argmax and argmin: the first extreme element of each part, or the first NaN *)
Theorem C77_arg mx ax a ix : ask_arg false mx ax a = Some ix → reduced ax (sh a) (sh ix) ∧
  ∀ i l, i < asize ix → gathers ax (sh a) i l → ∃ p, along ax (sh a) p (dat ix i) ∧
  ((∃ q, q ∈ l ∧ dat a q = NaN) → first_nan a l p) ∧ ((∀ q, q ∈ l → dat a q ≠ NaN) → extreme_known mx a l p).
Proof. exact (arg_right mx ax a ix). Qed.
Print Assumptions C77_arg.
(** nanargmax and nanargmin: the first extreme of the elements that are not NaN, if it is not
    -inf for nanargmax and inf for nanargmin, which numpy takes NaN for. *)
Theorem C77_nanarg mx ax a ix : ask_arg true mx ax a = Some ix → reduced ax (sh a) (sh ix) ∧
  ∀ i l, i < asize ix → gathers ax (sh a) i l → ∃ q, extreme_known mx a l q ∧ (¬ hopeless mx (dat a q) → along ax (sh a) q (dat ix i)).
Proof. exact (nanarg_right mx ax a ix). Qed.
Print Assumptions C77_nanarg.
(** They answer unless the axis is wrong, there is nothing to choose from, or only NaN. *)
Theorem C77_arg_answers nan mx ax a n : fold_count ax (sh a) = Some n → n ≠ 0 → (nan = true → ∀ o, reduced ax (sh a) o → some_known ax a (size o)) →
  ∃ ix, ask_arg nan mx ax a = Some ix.
Proof. exact (arg_answers nan mx ax a n). Qed.
Print Assumptions C77_arg_answers.
Theorem C77_arg_refuses nan mx ax a ix : ask_arg nan mx ax a = Some ix → ∃ n, fold_count ax (sh a) = Some n ∧ n ≠ 0.
Proof. exact (arg_refuses nan mx ax a ix). Qed.
Print Assumptions C77_arg_refuses.
(** flatnonzero: the positions of the elements that are not zero, in order; nonzero: their
    indices, axis by axis; argwhere: their indices, one by one *)
Theorem C77_flatnonzero a : (∀ p, p ∈ flatnonzero a ↔ p < asize a ∧ dat a p ≠ Num 0) ∧
  ∀ j j' p p', flatnonzero a !! j = Some p → flatnonzero a !! j' = Some p' → j < j' → p < p'.
Proof. exact (flat_right a). Qed.
Print Assumptions C77_flatnonzero.
Theorem C77_nonzero a k : k < length (sh a) → ∃ l, nonzero a !! k = Some l ∧ length l = length (flatnonzero a) ∧
  ∀ j p, flatnonzero a !! j = Some p → l !! j = unravel (sh a) p !! k.
Proof. exact (nonzero_right a k). Qed.
Print Assumptions C77_nonzero.
Theorem C77_argwhere a j : argwhere a !! j = unravel (sh a) <$> (flatnonzero a !! j).
Proof. exact (argwhere_right a j). Qed.
Print Assumptions C77_argwhere.
(** x\[nonzero(c)\] *)
Theorem C77_select c (x : arr R) : sh c = sh x → sh x ≠ [] → ∃ y, any_getitem (np_mixed (nonzero_key c)) x = Some y ∧ sh y = [length (flatnonzero c)] ∧
  ∀ j p, flatnonzero c !! j = Some p → dat y j = dat x p.
Proof. exact (select_right c x). Qed.
Print Assumptions C77_select.

(** A Ch is refused as a key unless it is empty, *)
Theorem C77_mask (c x : arr R) : asize c ≠ 0 → by_ch c x = None.
Proof. exact (mask_refused c x). Qed.
Print Assumptions C77_mask.
(** so x\[x > 0\] raises where numpy picks elements. *)
Theorem C77_mask_refuted : ∃ (x : arr R) (m : arr bool) b, sh m = sh x ∧ (∀ i, dat m i = true ↔ (0 < dat x i)%R) ∧ np_mixed [MMask m] R x = Some b ∧ asize b ≠ 0 ∧
  by_ch (cmp_r Cgreater x (Arr_ [1] (λ _, 0%R))) x = None.
Proof. exact mask_wrong. Qed.
Print Assumptions C77_mask_refuted.
(** any(isnan(x)) has the right value, but as a condition it always holds, *)
Theorem C77_nested a : sh a ≠ [] → ∃ y z, logic_r (Each Enan) a = Some y ∧ logic_r (Over Qany None false) (amap Num y) = Some z ∧ sh z = [1] ∧
  answers (dat z 0) (∃ p, p < asize a ∧ dat a p = NaN) ∧ py_truth z = Some true.
Proof. exact (nested_right a). Qed.
Print Assumptions C77_nested.
Theorem C77_if_always f keep a y : sh a ≠ [] → logic_r (Over f None keep) a = Some y → py_truth y = Some true.
Proof. exact (if_always f keep a y). Qed.
Print Assumptions C77_if_always.
(** also if there is no NaN. *)
Theorem C77_if_refuted : ∃ a y z, logic_r (Each Enan) a = Some y ∧ logic_r (Over Qany None false) (amap Num y) = Some z ∧ py_truth z = Some true ∧ ¬ ∃ p, p < asize a ∧ dat a p = NaN.
Proof. exact if_wrong. Qed.
Print Assumptions C77_if_refuted.

(** An array with a zero, a NaN and an infinity *)
Definition odd23 : arr ev := of_list NaN [2; 3] [Num 0; NaN; Num 2; NInf; Num 0; Num 5].
Example C77_each_case : asks Enot (dat odd23 0) ∧ ¬ asks Enot (dat odd23 1) ∧ asks Eneginf (dat odd23 3).
Proof. by split_and!. Qed.
Example C77_any_all_case : ∃ y, logic_r (Over Qall (Some (-1)%Z) true) odd23 = Some y ∧ sh y = [2; 1].
Proof. by eexists. Qed.
Example C77_raises_case : logic_r (Over Qany (Some 2%Z) false) odd23 = None.
Proof. reflexivity. Qed.
(** 2 + t, NaN and t - 1 *)
Definition moving (t : R) : arr ev := Arr_ [3] (λ i, match i with 0 => Num (2 + t) | 1 => NaN | _ => Num (t - 1) end).
Example C77_constant_case : ∃ y, logic_r (Over Qall None false) (moving 0%R) = Some y ∧ emoves moving (λ i, match i with 1 => 7%R | _ => 1%R end) ∧
  ∀ i, i < asize (moving 0%R) → ¬ at_edge (Over Qall None false) (dat (moving 0%R) i).
Proof.
  eexists. split; [done|]. split.
  - split.
    + apply near_always. intros t. split; [done|]. intros [|[|i]] _; done.
    + intros [|[|[|i]]] x Hi E; try done; simpl in *.
      * apply (deriv_ext (λ t, (2 + t)%R)); [done|]. replace 1%R with (0 + 1)%R by lra. apply (derivable_pt_lim_plus (fct_cte 2%R) Ranalysis1.id); [apply derivable_pt_lim_const|apply derivable_pt_lim_id].
      * assert (D : derivable_pt_lim (λ t, (t - 1)%R) 0%R (1 - 0)%R) by (apply (derivable_pt_lim_minus Ranalysis1.id (fct_cte 1%R)); [apply derivable_pt_lim_id|apply derivable_pt_lim_const]). by rewrite Rminus_0_r in D.
      * unfold asize in Hi. simpl in Hi. lia.
  - intros [|[|i]] _; simpl; try done; intros [= E]; lra.
Qed.
Example C77_flat_case : (∀ t, logic_r (Each Enan) (moving t) = Some (Arr_ [3] (λ i, bit (e_f Enan (dat (moving t) i))))) ∧ amoves (λ t, Arr_ [3] (λ i, bit (e_f Enan (dat (moving t) i)))) (λ _, 0%R).
Proof.
  split; [done|]. split; [by apply near_always|]. intros i. unfold elem, asize. cbn [sh dat]. destruct (decide (i < size [3])); [|apply derivable_pt_lim_const].
  destruct i as [|[|i]]; simpl; apply derivable_pt_lim_const.
Qed.
Example C77_arg_case : (∃ ix, ask_arg false true (Some 1%Z) odd23 = Some ix ∧ asize ix = 2) ∧ ∃ n, fold_count (Some 1%Z) (sh odd23) = Some n ∧ n ≠ 0.
Proof. split; [by eexists|]. by exists 3. Qed.
Example C77_nanarg_case : ∃ ix, ask_arg true true (Some 0%Z) odd23 = Some ix.
Proof. by eexists. Qed.
Example C77_flatnonzero_case : length (sh odd23) = 2 ∧ 1 ∈ flatnonzero odd23 ∧ ¬ 4 ∈ flatnonzero odd23.
Proof. split; [done|]. split; [apply flat_right; split; [vm_compute; lia|done]|]. intros H%flat_right. by destruct H as [_ H]. Qed.
Example C77_select_case : sh odd23 = sh (Arr_ [2; 3] (λ i, INR i)) ∧ sh (Arr_ [2; 3] (λ i, INR i)) ≠ [].
Proof. done. Qed.
Example C77_mask_case : asize (cmp_r Cgreater (Arr_ [2] (λ i, INR i)) (Arr_ [1] (λ _, 0%R))) = 2.
Proof. reflexivity. Qed.
Example C77_if_case : ∃ y, logic_r (Over Qall None true) odd23 = Some y ∧ sh y = [1; 1].
Proof. by eexists. Qed.
