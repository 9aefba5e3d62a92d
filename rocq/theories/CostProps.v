(** Property C64: work grows with the expression, not with its paths. *)
From stdpp Require Import gmap list list_numbers.
From Verif Require Import ArrModel RepModel FmtModel CostModel CostSpec CostThms CostDemo.

(** C64. dr_wrt forms the derivative of each object at most once, of objects below the one
    asked only and of none that has a cached one, whatever is cached before, if no object
    has an operand twice (see C64_squares_refuted). *)
Theorem C64_once_partial ops par rank w : ranked ops rank → parents_are ops par → operands_once ops →
  ∀ c o n, rank o < n → ∃ c' l, work n ops par w c o = Some (c', l) ∧ NoDup l ∧ ∀ x, x ∈ l → below ops o x ∧ x ∉ c.
Proof.
  intros Hr Hp Ho c o n Hn. destruct (work_total ops par w rank Hr n c o Hn) as [[c' l] E].
  exists c', l. split; [exact E|]. exact (work_once ops par w rank Hr n c o c' l Hp Ho E).
Qed.
Print Assumptions C64_once_partial.
(** Butterflies of any depth, in which the number of ways doubles with every layer. *)
Example C64_once_case : ranked fly_ops (λ k, k) ∧ parents_are fly_ops (λ _, 2) ∧ operands_once fly_ops.
Proof. exact (conj fly_ranked (conj fly_parents fly_once)). Qed.

(** C64. Asking again takes no work, unless the object has exactly one parent. *)
Theorem C64_again_partial ops par rank w n c o c' l m : ranked ops rank → par o ≠ 1 → work n ops par w c o = Some (c', l) →
  work (S m) ops par w c' o = Some (c', []).
Proof. intros Hr. exact (work_again ops par w rank Hr n c o c' l m). Qed.
Print Assumptions C64_again_partial.
Example C64_again_case : ∃ c' l, work 3 fly_ops (λ _, 2) 0 ∅ 3 = Some (c', l) ∧ l ≠ [].
Proof. eexists _, _. split; [reflexivity|discriminate]. Qed.

(** C64. The work is that of the dr_wrt of C63. *)
Theorem C64_adequate blank n g par w c o c' res : fdr blank n g par w c o = (c', Some res) →
  ∃ l, work n (ops_of g) par w (dom c) o = Some (dom c', l).
Proof. exact (fdr_works blank n g par w c o c' res). Qed.
Print Assumptions C64_adequate.

(** C64. lop, is_dr_wrt and loop_children_do call themselves at most once on each object if
    every object is an operand of at most one other, once (see C64_paths_refuted). *)
Theorem C64_tree_partial ops rank link w n o l use : use = lop_use ops link w ∨ use = isdr_use ops w ∨ use = loop_use ops →
  ranked ops rank → tree ops → operands_once ops → walk n use o = Some l → NoDup l ∧ ∀ x, x ∈ l → below ops o x.
Proof. exact (tree_once ops rank link w n o l use). Qed.
Print Assumptions C64_tree_partial.
(** (x1 + x2) * x3 *)
Example C64_tree_case : let ops k := match k with 4 => [1; 2] | 5 => [4; 3] | _ => [] end in
  ranked ops (λ k, k) ∧ tree ops ∧ operands_once ops ∧ walk 3 (isdr_use ops 1) 5 = Some [5; 4; 3].
Proof.
  intros ops. split_and!; [| | |reflexivity].
  - intros o p. destruct o as [|[|[|[|[|[|o]]]]]]; cbn; rewrite ?elem_of_cons, ?elem_of_nil; lia.
  - intros o p q. destruct p as [|[|[|[|[|[|p]]]]]], q as [|[|[|[|[|[|q]]]]]]; cbn; rewrite ?elem_of_cons, ?elem_of_nil; lia.
  - intros o. destruct o as [|[|[|[|[|[|o]]]]]]; repeat constructor; rewrite ?elem_of_cons, ?elem_of_nil; lia.
Qed.

(* ------------------------------------------------------------------ *)
(** C64 is false for repeated operands: x1 = x*x, x2 = x1*x1, …, xn.  The numbers of parents
    are right, but each object asks its operand once per dterm, and an operand with one
    parent keeps nothing: x1's derivative is formed 2^(n-1) times. *)
Theorem C64_squares_refuted n : 1 ≤ n → ∃ ops par, ranked ops (λ k, k) ∧ parents_are ops par ∧
  (∀ k, ops k = [] ∨ ops k = [k - 1; k - 1] ∧ 1 ≤ k ≤ n) ∧
  ∃ c' l, work n ops par 0 ∅ n = Some (c', l) ∧ count_occ Nat.eq_dec l 1 = 2 ^ (n - 1).
Proof.
  intros Hn. exists (sq_ops n), (sq_par n). split; [exact (sq_ranked n)|]. split; [exact (sq_parents n)|]. split; [exact (sq_shape n)|].
  destruct (sq_work n n n (conj Hn (le_n n)) (le_n n)) as (l & E & C). eexists _, l. exact (conj E C).
Qed.
Print Assumptions C64_squares_refuted.

(** C64 is false of lop (and with it of the gradients given to scipy), is_dr_wrt and
    loop_children_do: in a butterfly of n layers each reaches the object 1 2^(n-1) times. *)
Theorem C64_paths_refuted : ∃ ops, ranked ops (λ k, k) ∧ operands_once ops ∧
  ∀ use, use = lop_use ops (λ _ _, true) 0 ∨ use = isdr_use ops 0 ∨ use = loop_use ops →
  ∀ n, ∃ l, walk (n + 2) use (2 * n + 1) = Some l ∧ count_occ Nat.eq_dec l 1 = 2 ^ (n - 1).
Proof.
  exists fly_ops. split; [exact fly_ranked|]. split; [exact fly_once|].
  intros use [->|[->| ->]]; [exact fly_lop|exact fly_isdr|exact fly_loop].
Qed.
Print Assumptions C64_paths_refuted.
