(** C72: reports. *)
From Coq Require Import Reals String Sorted Lia Lra.
From stdpp Require Import list gmap.
From Verif Require Import ReportModel ReportSpec ReportThms ReportDemo.

(** C72. print_labeled_residuals writes one figure per path to a labelled object, an object
    before its operands and operands from left to right, and then the total. *)
Theorem C72_figures (g : graph) (rank : nat → nat) (d i fuel : nat) : well_founded_by g rank → rank i < fuel →
  ∃ ps ls, print_labeled_residuals fuel g true d i = Some (ls ++ [Total d (sumsq (o_r (g i)))]) ∧ StronglySorted before (ps.*1) ∧
    (∀ p j, (p, j) ∈ ps ↔ leads g i p j ∧ is_Some (o_label (g j))) ∧ Forall2 (figure g d) ps ls.
Proof. exact (print_lines g rank d i fuel). Qed.
Print Assumptions C72_figures.
Example C72_figures_case : well_founded_by joined (λ i, i) ∧ ∃ v w t, print_labeled_residuals 3 joined true 2 2 = Some [Part "x" 2 v; Part "y" 2 w; Total 2 t].
Proof. split; [apply joined_rank|]. by eexists _, _, _. Qed.

(** C72. One figure per labelled object, if no labelled object is reached by two paths. *)
Theorem C72_once_partial (g : graph) (rank : nat → nat) (d i fuel : nat) : well_founded_by g rank → rank i < fuel →
  (∀ p q j, leads g i p j → leads g i q j → is_Some (o_label (g j)) → p = q) →
  ∃ js ls, print_labeled_residuals fuel g true d i = Some (ls ++ [Total d (sumsq (o_r (g i)))]) ∧ NoDup js ∧
    (∀ j, j ∈ js ↔ (∃ p, leads g i p j) ∧ is_Some (o_label (g j))) ∧
    Forall2 (λ j c, ∃ l d', o_label (g j) = Some l ∧ c = Part l d' (sumsq (o_r (g j)))) js ls.
Proof. exact (print_once g rank d i fuel). Qed.
Print Assumptions C72_once_partial.
Example C72_once_case : well_founded_by joined (λ i, i) ∧ ∀ p q j, leads joined 2 p j → leads joined 2 q j → is_Some (o_label (joined j)) → p = q.
Proof.
  split; [apply joined_rank|]. assert (H : ∀ p j, leads joined 2 p j → (p = [] ∧ j = 2) ∨ (p = [0] ∧ j = 0) ∨ (p = [1] ∧ j = 1)).
  { intros p j Hp. inversion Hp as [|? n k q ? Hn Hq]; subst; [by left|]. right.
    destruct n as [|[|n]]; cbn in Hn; [injection Hn as <-; left|injection Hn as <-; right|done]; (inversion Hq as [|? n' ? ? ? Hn' ?]; subst; [done|destruct n'; done]). }
  intros p q j Hp Hq _. apply H in Hp, Hq. destruct Hp as [[-> ->]|[[-> ->]|[-> ->]]], Hq as [[-> ?]|[[-> ?]|[-> ?]]]; done.
Qed.

(** C72. The figures of the labelled parts of a concatenation add up to the total. *)
Theorem C72_adds (g : graph) (rank : nat → nat) (i d fuel : nat) : well_founded_by g rank → rank i < fuel → o_label (g i) = None →
  o_r (g i) = concat (map (λ k, o_r (g k)) (o_terms (g i))) →
  (∀ k, k ∈ o_terms (g i) → is_Some (o_label (g k)) ∧ ∀ n p j, leads g k (n :: p) j → o_label (g j) = None) →
  ∃ ls, print_labeled_residuals fuel g true d i = Some (ls ++ [Total d (sumsq (o_r (g i)))]) ∧
    Forall2 (λ k c, ∃ l, o_label (g k) = Some l ∧ c = Part l 2 (sumsq (o_r (g k)))) (o_terms (g i)) ls ∧ shares ls = sumsq (o_r (g i)).
Proof. exact (print_adds g rank i d fuel). Qed.
Print Assumptions C72_adds.
Example C72_adds_case : well_founded_by joined (λ i, i) ∧ o_r (joined 2) = concat (map (λ k, o_r (joined k)) (o_terms (joined 2))) ∧
  ∀ k, k ∈ o_terms (joined 2) → is_Some (o_label (joined k)) ∧ ∀ n p j, leads joined k (n :: p) j → o_label (joined j) = None.
Proof.
  split_and!; [apply joined_rank|done|]. intros k Hk. cbn in Hk. apply elem_of_cons in Hk as [->|Hk]; [|apply elem_of_list_singleton in Hk as ->]; (split; [done|]; intros n p j Hp; inversion Hp as [|? ? ? ? ? Hn ?]; subst; destruct n; done).
Qed.

(** C72 is false for shared parts: one labelled object is printed 2^n times when n sums of an
    object with itself are put on top of each other. *)
Theorem C72_shared_refuted : ∃ g rank, well_founded_by g rank ∧ (∀ j, is_Some (o_label (g j)) → j = 0) ∧
  ∀ n d, 0 < n → ∃ v t, ∀ fuel, n < fuel → print_labeled_residuals fuel g true d n = Some (repeat (Part "x" 2 v) (2 ^ n) ++ [Total d t]).
Proof. exact shared_often. Qed.
Print Assumptions C72_shared_refuted.

(** C72 is false of the decimals asked for: the parts always have 2. *)
Theorem C72_decimals_refuted : ∃ g, ∀ d fuel, 2 < fuel → ∃ v w t, print_labeled_residuals fuel g true d 2 = Some [Part "x" 2 v; Part "y" 2 w; Total d t].
Proof. exact two_decimals. Qed.
Print Assumptions C72_decimals_refuted.

(** C72. The first profiler's tree: every object of the expression in full exactly once with
    its operands in order, and every brief mention is of one of them; circles included. *)
Theorem C72_tree_partial (g : graph) (N fuel i : nat) (M : gset nat) : objects_below g N → i < N → N < fuel → (∀ p k, leads g i p k → k ∉ M) →
  ∃ e M', dump_tree fuel g i M = Some (e, M') ∧ NoDup (described e) ∧ (∀ j, j ∈ described e ↔ ∃ p, leads g i p j) ∧
    (∀ j cs, within e (Full j cs) → map about cs = o_terms (g j)) ∧ (∀ j, within e (Indirect j) → j ∈ described e).
Proof. exact (dump_whole g N fuel i M). Qed.
Print Assumptions C72_tree_partial.
Example C72_tree_case : objects_below looped 2 ∧ ∃ M', dump_tree 3 looped 0 ∅ = Some (Full 0 [Full 1 [Indirect 0]; Indirect 1], M').
Proof. split; [apply looped_below|]. by eexists. Qed.

(** C72. Two expressions with the same tree have the same objects and operands. *)
Theorem C72_rebuilt (g g' : graph) (N N' fuel i : nat) (e : entry) (M1 M2 : gset nat) : objects_below g N → objects_below g' N' → i < N → i < N' → N < fuel → N' < fuel →
  dump_tree fuel g i ∅ = Some (e, M1) → dump_tree fuel g' i ∅ = Some (e, M2) → ∀ p j, leads g i p j → leads g' i p j ∧ o_terms (g j) = o_terms (g' j).
Proof. exact (dump_rebuild g g' N N' fuel i e M1 M2). Qed.
Print Assumptions C72_rebuilt.
Example C72_rebuilt_case : objects_below looped 2 ∧ ∃ M', dump_tree 3 looped 1 ∅ = Some (Full 1 [Full 0 [Indirect 1; Indirect 1]], M').
Proof. split; [apply looped_below|]. by eexists. Qed.

(** C72. A later profiler describes exactly what can be reached past the marks left by earlier
    ones. *)
Theorem C72_later (g : graph) (N fuel i : nat) (M : gset nat) : objects_below g N → i < N → N < fuel → i ∉ M →
  ∃ e M', dump_tree fuel g i M = Some (e, M') ∧ NoDup (described e) ∧ (∀ j, j ∈ described e ↔ clear g M i j) ∧
    (∀ j cs, within e (Full j cs) → map about cs = o_terms (g j)) ∧ (∀ j, within e (Indirect j) → j ∈ M ∨ j ∈ described e) ∧ (∀ j, j ∈ M' ↔ j ∈ M ∨ clear g M i j).
Proof. exact (dump_describes g N fuel i M). Qed.
Print Assumptions C72_later.
Example C72_later_case : objects_below looped 2 ∧ ∃ M', dump_tree 3 looped 0 {[1]} = Some (Full 0 [Indirect 1; Indirect 1], M').
Proof. split; [apply looped_below|]. by eexists. Qed.

(** C72 is false of second profilers: whatever the expression, the second profiler of it writes
    a tree without any description. *)
Theorem C72_again_refuted (g : graph) (i fuel fuel' : nat) (M M' : gset nat) (e : entry) : dump_tree fuel g i M = Some (e, M') → 0 < fuel' →
  ∃ e' M'', dump_tree fuel' g i M' = Some (e', M'') ∧ described e' = [].
Proof. exact (λ E Hf, ex_intro _ _ (ex_intro _ _ (conj (second_dump g i fuel M e M' fuel' E Hf) eq_refl))). Qed.
Print Assumptions C72_again_refuted.
Example C72_again_case : ∃ e M', dump_tree 3 looped 0 ∅ = Some (e, M') ∧ described e = [0; 1].
Proof. by eexists _, _. Qed.
