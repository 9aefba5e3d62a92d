(** C17: redundancy removal.  Statements only; proofs are in RedunThms.v, RedunTerm.v,
    RedunDr.v and RedunDemo.v.  [final l] is the state after the calls [l], [gexec L l ∅]
    the attributes then. *)
From stdpp Require Import gmap strings list relations.
From Verif Require Import EngineModel EngineSpec EngineDemo GraphSpec RevSpec RedunModel RedunSpec RedunTerm RedunDr RedunDemo.

Notation final L l := (exec L l (init L)).

(** Without cycles, with every dterm set and no term holding an object, and when the
    value can be computed, remove_redundancy returns (with enough stack). *)
Theorem C17_terminates : ∀ (L : lib) `{EqDecision (Cls L), EqDecision (Val L)} l D o v,
  lib_ok L → valid L l → acyclic (points L (gexec L l ∅)) →
  closed_under L (gexec L l ∅) D → all_set L (gexec L l ∅) D → o ∈ D → reads L (final L l) o QR v →
  ∃ r n, (remove_redundancy L r n o (final L l)).2 = Some tt.
Proof. exact removed_total. Qed.
Print Assumptions C17_terminates.
Example C17_terminates_case : let g := gexec demo twice ∅ in
  lib_ok demo ∧ valid demo twice ∧ acyclic (points demo g) ∧ closed_under demo g (dom g) ∧ all_set demo g (dom g) ∧
  6 ∈ dom g ∧ reads demo (final demo twice) 6 QR [243; 768]%Z ∧
  operand (st_h demo (final demo twice)) 5 "a" = Some 3 ∧
  operand (st_h demo (remove_redundancy demo 3 9 6 (final demo twice)).1) 5 "a" = Some 2 ∧
  (remove_redundancy demo 3 9 6 (final demo twice)).2 = Some tt.
Proof.
  intros g. split; [exact demo_lib_ok|]. split; [exact twice_valid|]. split; [exact (typed_acyclic g twice_typed)|].
  split; [exact twice_closed|]. split; [by apply (typed_all_set g twice_typed)|].
  split; [exact twice_in|]. split; [exists 9; vm_compute; reflexivity|].
  split; [exact twice_before|]. split; [exact twice_after|]. exact twice_done.
Qed.

(** When it returns, objects below [o] that hold operands standing for the same
    expression hold the same object. *)
Theorem C17_removes : ∀ (L : lib) `{EqDecision (Cls L), EqDecision (Val L)} l r n o,
  lib_ok L → valid L l → acyclic (points L (gexec L l ∅)) →
  all_set L (gexec L l ∅) (dom (gexec L l ∅)) → o ∈ dom (gexec L l ∅) →
  (remove_redundancy L r n o (final L l)).2 = Some tt →
  shared_all L (cores L (st_h L (remove_redundancy L r n o (final L l)).1)) o.
Proof. exact removed_shared. Qed.
Print Assumptions C17_removes.

(** All values, of all objects, are what they were; also when it raises. *)
Theorem C17_values : ∀ (L : lib) `{EqDecision (Cls L), EqDecision (Val L)} l r n o,
  lib_ok L → valid L l → uniform L (gexec L l ∅) →
  ∀ x q v, reads L (remove_redundancy L r n o (final L l)).1 x q v ↔ reads L (final L l) x q v.
Proof. exact removed_values. Qed.
Print Assumptions C17_values.
Example C17_values_case : uniform demo (gexec demo twice ∅) ∧
  (read demo 9 6 QR (remove_redundancy demo 3 9 6 (final demo twice)).1).2 = Some [243; 768]%Z.
Proof. split; [exact (typed_uniform _ twice_typed)|exact twice_value]. Qed.

(** Full C17 asks the same of derivatives.  That is so when no object has twins under
    two of its dterms, with respect to objects that have no twins; it is false in
    general (C17_derivatives_refuted). *)
Theorem C17_derivatives_partial : ∀ (L : lib) `{EqDecision (Cls L), EqDecision (Val L)} l r n o w,
  lib_ok L → valid L l → uniform L (gexec L l ∅) →
  acyclic (points L (gexec L l ∅)) → all_set L (gexec L l ∅) (dom (gexec L l ∅)) →
  same_terms L (gexec L l ∅) → no_twin_operands L (gexec L l ∅) → answers_operands L (gexec L l ∅) →
  not_view L (gexec L l ∅) w → (∀ q, twins L (gexec L l ∅) q w → q = w) →
  ∀ x j, reads_dr L (remove_redundancy L r n o (final L l)).1 x w j ↔ reads_dr L (final L l) x w j.
Proof. exact removed_derivatives. Qed.
Print Assumptions C17_derivatives_partial.
Example C17_derivatives_case : let g := gexec demo twice ∅ in
  same_terms demo g ∧ no_twin_operands demo g ∧ answers_operands demo g ∧ not_view demo g 1 ∧
  (∀ q, twins demo g q 1 → q = 1) ∧ twins demo g 2 3 ∧
  (read_dr demo 9 6 1 (remove_redundancy demo 3 9 6 (final demo twice)).1).2 = (read_dr demo 9 6 1 (final demo twice)).2.
Proof.
  intros g. split; [exact (typed_same_terms g twice_typed)|]. split; [exact twice_no_twins|].
  split; [exact (typed_answers g twice_typed)|]. split; [apply not_view_b_ok; vm_compute; reflexivity|].
  split; [exact twice_alone|]. split; [exact twice_twins|exact twice_dr].
Qed.

(** p1 + p2, where p1 and p2 stand for the same expression, has another derivative
    after redundancy removal; all other conditions of the theorem above hold. *)
Theorem C17_derivatives_refuted : ∃ (L : lib) (_ : EqDecision (Cls L)) (_ : EqDecision (Val L)) l r n o w j j',
  lib_ok L ∧ valid L l ∧ uniform L (gexec L l ∅) ∧ acyclic (points L (gexec L l ∅)) ∧
  all_set L (gexec L l ∅) (dom (gexec L l ∅)) ∧ same_terms L (gexec L l ∅) ∧
  answers_operands L (gexec L l ∅) ∧ not_view L (gexec L l ∅) w ∧ (∀ q, twins L (gexec L l ∅) q w → q = w) ∧
  (remove_redundancy L r n o (final L l)).2 = Some tt ∧
  reads_dr L (final L l) o w j ∧
  reads_dr L (remove_redundancy L r n o (final L l)).1 o w j' ∧ j ≠ j'.
Proof. exact doubled. Qed.
Print Assumptions C17_derivatives_refuted.

(** After redundancy removal and the collection of an object nothing refers to any
    more, assigning a variable leaves the old value of its parents in place. *)
Theorem C17_later_refuted : ∃ (L : lib) (_ : EqDecision (Cls L)) (_ : EqDecision (Val L)) l r n o x X t o' v v',
  lib_ok L ∧ valid L l ∧ uniform L (gexec L l ∅) ∧ acyclic (points L (gexec L l ∅)) ∧
  no_twin_operands L (gexec L l ∅) ∧ (∀ q, twins L (gexec L l ∅) q x → q = x) ∧
  valid L (l ++ [OSet L x "x" (AVal t) o']) ∧
  let st := (remove_redundancy L r n o (final L l)).1 in
  (remove_redundancy L r n o (final L l)).2 = Some tt ∧ unreferenced L (cores L (st_h L st)) X ∧
  reads L (final L (l ++ [OSet L x "x" (AVal t) o'])) o QR v ∧
  reads L (exec L [OCollect L X; OSet L x "x" (AVal t) o'] st) o QR v' ∧ v ≠ v'.
Proof. exact lost_link. Qed.
Print Assumptions C17_later_refuted.

(** Two variables made of one array are merged: assigning the second one no longer
    changes their product. *)
Theorem C17_variables_refuted : ∃ (L : lib) (_ : EqDecision (Cls L)) (_ : EqDecision (Val L)) l r n o x t o' v v',
  lib_ok L ∧ valid L l ∧ uniform L (gexec L l ∅) ∧ acyclic (points L (gexec L l ∅)) ∧
  valid L (l ++ [OSet L x "x" (AVal t) o']) ∧
  let st := (remove_redundancy L r n o (final L l)).1 in
  (remove_redundancy L r n o (final L l)).2 = Some tt ∧
  reads L (final L (l ++ [OSet L x "x" (AVal t) o'])) o QR v ∧
  reads L (exec L [OSet L x "x" (AVal t) o'] st) o QR v' ∧ v ≠ v'.
Proof. exact lost_variable. Qed.
Print Assumptions C17_variables_refuted.
