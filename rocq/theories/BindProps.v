(** C45: construction and operators. *)
From stdpp Require Import strings gmap list prelude.
From Verif Require Import BindModel BindSpec BindThms BindDemo.
Local Open Scope string_scope.

(** Whatever was constructed before, arguments bind as declared, if the order of a class is
    not different from the one of an ancestor that declares none. *)
Theorem C45_binds_partial classes reserved : single_inheritance classes → ∀ h c args kw,
  (∀ b, c_name (classes b) = c_name (classes c) → c_parms (classes b) = []) →
  existsb reserved (names (declared classes a_terms c) ++ names (declared classes a_dterms c)) = false →
  (∀ b, above_order classes c b → declared_order classes b = declared_order classes c) →
  NoDup (declared_order classes c) → length args ≤ length (declared_order classes c) →
  ∃ b, (construct classes reserved (after classes reserved (at_first classes) h) c args kw).2 = inl b ∧ bound classes c args (options kw) b.
Proof. exact (construct_binds classes reserved). Qed.
Print Assumptions C45_binds_partial.
Theorem C45_too_many classes reserved : single_inheritance classes → ∀ h c args kw,
  (∀ b, c_name (classes b) = c_name (classes c) → c_parms (classes b) = []) →
  existsb reserved (names (declared classes a_terms c) ++ names (declared classes a_dterms c)) = false →
  (∀ b, above_order classes c b → declared_order classes b = declared_order classes c) →
  NoDup (declared_order classes c) → length (declared_order classes c) < length args →
  (construct classes reserved (after classes reserved (at_first classes) h) c args kw).2 = inr IndexError.
Proof. exact (construct_rejects classes reserved). Qed.
Print Assumptions C45_too_many.
(** H(5, x, n=7) *)
Example C45_example : single_inheritance demo ∧
  (∀ b, c_name (demo b) = c_name (demo 10) → c_parms (demo b) = []) ∧
  existsb reserved0 (names (declared demo a_terms 10) ++ names (declared demo a_dterms 10)) = false ∧
  (∀ b, above_order demo 10 b → declared_order demo b = declared_order demo 10) ∧
  declared_order demo 10 = ["q"; "p"; "n"] ∧
  shown (construct demo reserved0 (after demo reserved0 (at_first demo) [(9, [Plain 1], ∅)]) 10 [Plain 5; ChObj 3] {["n" := Plain 7]}).2 =
    Some (10, [("p", Obj 3); ("n", Raw (Plain 7)); ("q", Fresh (Plain 5))]).
Proof.
  split; [exact demo_single|]. split; [intros b; do 11 (destruct b as [|b]; [done|]); done|]. split; [done|]. split; [|split; [done|vm_compute; reflexivity]].
  intros b (l1 & l2 & E & H). destruct l1 as [|x [|y []]]; simplify_eq/=; [done|]. specialize (H 10 ltac:(by left)). done.
Qed.
(** If an ancestor with other terms was constructed before, its order is used: B(5) after
    A(5) sets the attribute a. *)
Theorem C45_inherited_refuted : ∃ classes reserved c args h, single_inheritance classes ∧
  (∀ b, c_parms (classes b) = [] ∨ c_name (classes b) ≠ c_name (classes c)) ∧ declared_order classes c = ["b"] ∧ length args = 1 ∧
  (∃ b, (construct classes reserved (at_first classes) c args ∅).2 = inl b ∧ bound classes c args ∅ b) ∧
  (∃ b, (construct classes reserved (after classes reserved (at_first classes) h) c args ∅).2 = inl b ∧ ¬ bound classes c args ∅ b).
Proof.
  exists demo, reserved0, 6, [Plain 5], [(5, [Plain 5], ∅)]. split; [exact demo_single|]. split; [intros b; do 11 (destruct b as [|b]; [first [by left|by right]|]); by right|]. split; [done|]. split; [done|]. split.
  - destruct (shown_inl (construct demo reserved0 (at_first demo) 6 [Plain 5] ∅).2 6 [("b", Fresh (Plain 5))]) as (b & E & Hc & Ha); [vm_compute; reflexivity|].
    exists b. split; [done|]. split; [done|]. intros n. rewrite Ha. simpl. destruct (decide (n = "b")) as [->|Hn].
    + rewrite lookup_insert. constructor. apply holds_made; [by left|done].
    + rewrite lookup_insert_ne, lookup_empty by done. constructor.
  - destruct (shown_inl (construct demo reserved0 (after demo reserved0 (at_first demo) [(5, [Plain 5], ∅)]) 6 [Plain 5] ∅).2 6 [("a", Raw (Plain 5))]) as (b & E & Hc & Ha); [vm_compute; reflexivity|].
    exists b. split; [done|]. intros [_ H]. specialize (H "b"). rewrite Ha in H. simpl in H. inversion H.
Qed.
Print Assumptions C45_inherited_refuted.
(** A class with Term declarations is never constructed, *)
Theorem C45_terms_raise classes reserved : single_inheritance classes → ∀ h c args kw,
  (∀ b, c_name (classes b) = c_name (classes c) → c_parms (classes b) ≠ []) →
  (construct classes reserved (after classes reserved (at_first classes) h) c args kw).2 = inr AttributeError ∨
  (construct classes reserved (after classes reserved (at_first classes) h) c args kw).2 = inr AssertionError.
Proof. exact (terms_never classes reserved). Qed.
Print Assumptions C45_terms_raise.
Example C45_terms_example : ∀ b, c_name (demo b) = c_name (demo 11) → c_parms (demo b) ≠ [].
Proof. intros b. do 11 (destruct b as [|b]; [done|]). done. Qed.
(** unless a class of the same name without them was, and then they are ignored. *)
Theorem C45_namesake_refuted : ∃ classes reserved c h n, single_inheritance classes ∧ n ∈ (c_parms (classes c)).*1 ∧
  (construct classes reserved (after classes reserved (at_first classes) h) c [Plain 5] ∅).2 = inr IndexError ∧
  ∃ b, (construct classes reserved (after classes reserved (at_first classes) h) c [] {[n := Plain 5]}).2 = inl b ∧ o_attrs b !! n = Some (Raw (Plain 5)).
Proof. exists demo, reserved0, 7, [(8, [], ∅)], "u". split; [exact demo_single|]. split; [by left|]. split; [vm_compute; reflexivity|].
  destruct (shown_inl (construct demo reserved0 (after demo reserved0 (at_first demo) [(8, [], ∅)]) 7 [] {["u" := Plain 5]}).2 7 [("u", Raw (Plain 5))]) as (b & E & Hc & Ha); [vm_compute; reflexivity|]. exists b. by rewrite Ha.
Qed.
Print Assumptions C45_namesake_refuted.

(** l op r is the operation on the operands in this order, whichever is an object of this
    library, *)
Theorem C45_operators_partial classes reserved class_of : single_inheritance classes → operator_classes classes reserved class_of →
  ∀ (V : Type) (value : slot → V) (operation : op → V → V → V) v o h l r, is_ch l ∨ is_ch r → v = Py2 ∨ o ≠ Div ∨ is_ch l → ∃ b,
    (operate classes reserved class_of v o (after classes reserved (at_first classes) h) l r).2 = inl b ∧
    o_class b = class_of o ∧ compute_r value operation o b = Some (operation o (value (operand l)) (value (operand r))).
Proof. exact (λ Hs Ho V, @operate_builds classes reserved class_of Hs Ho V). Qed.
Print Assumptions C45_operators_partial.
Example C45_operators_example : single_inheritance demo ∧ operator_classes demo reserved0 demo_of ∧
  shown (operate demo reserved0 demo_of Py3 Sub (at_first demo) (Plain 10) (ChObj 3)).2 = Some (1, [("b", Obj 3); ("a", Fresh (Plain 10))]).
Proof. split; [exact demo_single|]. split; [exact demo_operators|]. vm_compute. reflexivity. Qed.
(** except for dividing anything else by one in Python 3. *)
Theorem C45_division_refuted : ∃ classes reserved class_of l r, single_inheritance classes ∧ operator_classes classes reserved class_of ∧ is_ch r ∧
  (operate classes reserved class_of Py3 Div (at_first classes) l r).2 = inr TypeError.
Proof. exists demo, reserved0, demo_of, (Plain 1), (ChObj 3). split; [exact demo_single|]. split; [exact demo_operators|]. split; [by exists 3|]. reflexivity. Qed.
Print Assumptions C45_division_refuted.
