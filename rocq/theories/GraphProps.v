(** Properties C13-C15: walking and rewriting the object graph.  Each theorem is
    followed by its assumptions and by a concrete case that meets its hypotheses. *)
From stdpp Require Import gmap strings list relations.
From Verif Require Import EngineModel EngineSpec EngineDemo GraphModel GraphSpec GraphThms GraphDemo.

Notation after L l := (exec L l (init L)).
Notation attrs L l := (gexec L l ∅).

(* ------------------------------------------------------------------ *)
(** C13. After any history, in a graph without cycles, is_dr_wrt answers (within a
    stack of one frame per object), and says yes exactly when w is reached through
    one or more differentiable terms, or when both are the same basic object.
    Answers given with any other stack agree. *)
Theorem C13_is_dr_wrt_exact (L : lib) l o w : lib_ok L → valid L l →
  (acyclic (points L (attrs L l)) → o ∈ dom (attrs L l) →
     ∃ b, is_dr_wrt L (size (attrs L l)) (attrs L l) o w = Some b) ∧
  (∀ n b, is_dr_wrt L n (attrs L l) o w = Some b →
     (b = true ↔ (∃ c, attrs L l !! o = Some c ∧ is_base L (c_cls L c) = true ∧ o = w) ∨
                 tc (points L (attrs L l)) o w)).
Proof. exact (hist_is_dr_wrt L l o w). Qed.
Print Assumptions C13_is_dr_wrt_exact.
Example C13_case : valid demo (build ++ use) ∧ acyclic (points demo (attrs demo (build ++ use))) ∧
  4 ∈ dom (attrs demo (build ++ use)) ∧
  is_dr_wrt demo 5 (attrs demo (build ++ use)) 4 2 = Some true ∧
  is_dr_wrt demo 5 (attrs demo (build ++ use)) 5 1 = Some false.
Proof.
  split_and!; [exact demo_valid|apply down_b_ok; vm_compute; reflexivity| |vm_compute; reflexivity..].
  apply elem_of_dom, some_b_ok. vm_compute. reflexivity.
Qed.

(* ------------------------------------------------------------------ *)
(** C14. After any history, cycles included, tree_iterator ends and yields the
    object and everything it reaches through differentiable terms, once each; so
    dfs_do_func_on_graph calls its function once on each. *)
Theorem C14_tree_visits_each_once (L : lib) l o : lib_ok L → valid L l → o ∈ dom (attrs L l) →
  ∃ xs, tree_iterator L (attrs L l) o = Some xs ∧ NoDup xs ∧
    (∀ x, x ∈ xs ↔ rtc (points L (attrs L l)) o x) ∧
    (∀ A (f : oid → A), dfs_do_func L f (attrs L l) o = Some (f <$> xs)).
Proof. exact (hist_tree L l o). Qed.
Print Assumptions C14_tree_visits_each_once.
Example C14_case : valid demo (build ++ use) ∧ 4 ∈ dom (attrs demo (build ++ use)) ∧
  tree_iterator demo (attrs demo (build ++ use)) 4 = Some [4; 3; 1; 2] ∧
  (* a cycle: s.a := t *)
  valid demo (build ++ [OSet demo 3 "a" (ref 4) 200]) ∧
  tree_iterator demo (attrs demo (build ++ [OSet demo 3 "a" (ref 4) 200])) 4 = Some [4; 3; 2; 1].
Proof.
  split_and!; [exact demo_valid| |vm_compute; reflexivity|apply valid_b_ok; vm_compute; reflexivity|vm_compute; reflexivity].
  apply elem_of_dom, some_b_ok. vm_compute. reflexivity.
Qed.

(* ------------------------------------------------------------------ *)
(** C15. When new does not contain old and there are no cycles, o.replace(old, new)
    ends; it amounts to attribute assignments after which every object below o has
    new wherever it had old, everything else is untouched, and values are read from
    the substituted graph.
    Missing from the full property: the case where new contains old, which fails
    (next theorem). *)
Theorem C15_replace_substitutes_partial (L : lib) l o old new w : lib_ok L → valid L l →
  acyclic (holds L (attrs L l)) → o ∈ dom (attrs L l) → new ∈ dom (attrs L l) →
  ¬ rtc (holds L (attrs L l)) new old → w ∉ dom (attrs L l) →
  ∃ g' sets, replace L (size (attrs L l)) w o old new (attrs L l) = Some (g', sets) ∧
    let l' := l ++ ((λ s, OSet L s.1.1.1 s.1.1.2 s.1.2 s.2) <$> sets) in
    valid L l' ∧ attrs L l' = g' ∧
    (∀ x, rtc (holds L (attrs L l)) o x → g' !! x = subst_core L old new <$> attrs L l !! x) ∧
    (∀ x, ¬ rtc (holds L (attrs L l)) o x ∨ ¬ rtc (holds L (attrs L l)) x old → g' !! x = attrs L l !! x) ∧
    (∀ x q v, reads L (after L l') x q v ↔ denotes L g' x q v).
Proof. exact (hist_replace_reads L l o old new w). Qed.
Print Assumptions C15_replace_substitutes_partial.
Example C15_case : valid demo (build ++ use) ∧ acyclic (holds demo (attrs demo (build ++ use))) ∧
  4 ∈ dom (attrs demo (build ++ use)) ∧ 5 ∈ dom (attrs demo (build ++ use)) ∧
  ¬ rtc (holds demo (attrs demo (build ++ use))) 5 1 ∧ 200 ∉ dom (attrs demo (build ++ use)) ∧
  (read demo 9 4 QR (after demo (build ++ use))).2 = Some [4; 6]%Z ∧
  (* t = (x + y) * x with u = y * y for x *)
  (read demo 9 4 QR (after demo ((build ++ use) ++
     [OSet demo 3 "a" (ref 5) 200; OSet demo 4 "b" (ref 5) 200]))).2 = Some [0; 2]%Z ∧
  match replace demo 5 200 4 1 5 (attrs demo (build ++ use)) with
  | Some (_, sets) => (map (λ s, (s.1.1.1, s.1.1.2)) sets) = [(3, "a"%string); (4, "b"%string)]
  | None => False
  end.
Proof.
  split_and!.
  - exact demo_valid.
  - apply down_b_ok; vm_compute; reflexivity.
  - apply elem_of_dom, some_b_ok. vm_compute. reflexivity.
  - apply elem_of_dom, some_b_ok. vm_compute. reflexivity.
  - apply (closed_all_b_ok _ {[5; 2]}); [vm_compute; reflexivity|set_solver|set_solver].
  - apply not_elem_of_dom. vm_compute. reflexivity.
  - vm_compute; reflexivity.
  - vm_compute; reflexivity.
  - vm_compute; reflexivity.
Qed.

(** When new contains old, replace can make new its own operand: an object that had
    a value has none afterwards, at any stack depth. *)
Theorem C15_replace_with_container_refuted :
  ∃ (L : lib) l o old new w g' sets v, lib_ok L ∧ valid L l ∧
  acyclic (holds L (attrs L l)) ∧ o ∈ dom (attrs L l) ∧ new ∈ dom (attrs L l) ∧ w ∉ dom (attrs L l) ∧
  denotes L (attrs L l) o QR v ∧
  replace L (S (size (attrs L l))) w o old new (attrs L l) = Some (g', sets) ∧
  points L g' new new ∧ ∀ u, ¬ denotes L g' o QR u.
Proof. exact replace_knot. Qed.
Print Assumptions C15_replace_with_container_refuted.
