(** Property C28: concatenation. *)
From Coq Require Import Reals Lra.
From stdpp Require Import gmap strings list list_numbers numbers.
From Verif Require Import EngineModel EngineSpec GraphSpec ArrModel Curve ArrThms ElemModel ReorderModel ReorderSpec NpModel NpSpec ConcModel ConcSpec ConcThms ConcJac ConcMemo.

(** C28. The value is defined exactly if the operands agree off the axis; it holds the
    operands one after the other along the axis, and nothing else: this determines it. *)
Theorem C28_value ax vs :
  (is_Some (concat ax vs) ↔ vs ≠ [] ∧ ∃ s k, axis_is (length s) ax k ∧ ∀ v, v ∈ vs → same_but k (sh v) s) ∧
  ∀ y, concat ax vs = Some y → ∃ k, axis_is (length (sh y)) ax k ∧ is_concat k vs y ∧
    (∀ ix, inside (sh y) ix → ∃ t v jx, vs !! t = Some v ∧ inside (sh v) jx ∧ stands k vs t jx ix) ∧
    ∀ z, is_concat k vs z → aeq y z.
Proof. exact (conc_value ax vs). Qed.
Print Assumptions C28_value.
Example C28_value_case : let a := of_list 0%R [2; 1] [1; 2]%R in let b := of_list 0%R [2; 2] [3; 4; 5; 6]%R in
  (elems <$> concat (-1) [a; b; a]) = Some [1; 3; 4; 1; 2; 5; 6; 2]%R ∧ concat 0 [a; b] = None.
Proof. split; [|done]. cbv. reflexivity. Qed.

(** Flattening nested concatenations along the axis keeps the value, and leaves none. *)
Theorem C28_flatten ax l vs y : cvals l = Some vs → concat ax vs = Some y →
  ∃ l' z, concatenate ax l = Some (Conc ax l') ∧ cval (Conc ax l') = Some z ∧ aeq y z ∧ Forall (no_conc ax) l'.
Proof. exact (concatenate_flat ax l vs y). Qed.
Print Assumptions C28_flatten.
Example C28_flatten_case : let a := of_list 0%R [1] [7]%R in let l := [Leaf a; Conc 0 [Leaf a; Conc 0 [Leaf a]; Conc (-1) [Leaf a; Leaf a]]] in
  (λ t, match t with Some (Conc _ l) => length l | _ => 0 end) (concatenate 0 l) = 4 ∧
  match cvals l with Some vs => sh <$> concat 0 vs | None => None end = Some [5].
Proof. by vm_compute. Qed.

(** The Jacobian with respect to [q], which may be several of the operands: the row of an
    element has a one in the column of the operand's element that stands there, if the
    operand is [q], and nothing else. *)
Theorem C28_jacobian ax vs y (ps : list oid) q : concat ax vs = Some y → agree ps vs → q ∈ ps → ∃ k J, axis_is (length (sh y)) ax k ∧
  conc_jac ax vs ((λ r, bool_decide (r = q)) <$> ps) = Some J ∧
  (∀ t v, ps !! t = Some q → vs !! t = Some v → fits J (asize y) (asize v)) ∧
  ∀ t p v jx ix, ps !! t = Some p → vs !! t = Some v → inside (sh v) jx → inside (sh y) ix → stands k vs t jx ix →
    ∀ j, entry J (ravel (sh y) ix) j = if decide (p = q ∧ j = ravel (sh v) jx) then 1%R else 0%R.
Proof. exact (conc_jacobian ax vs y ps q). Qed.
Print Assumptions C28_jacobian.
(** It is the derivative: when the operands move, the result moves as predicted. *)
Theorem C28_derivative ax n tms ps vs y : concat ax vs = Some y → agree ps vs → op_right (op_conc ax n) tms ps vs.
Proof. exact (conc_op_right ax n tms ps vs y). Qed.
Print Assumptions C28_derivative.
(** So C19_dr_wrt_is_jacobian_arrays applies to graphs with concatenations. *)
Theorem C19_concatenate_is_right (g : graph) x c ax n ps vs y : g !! x = Some c → c_cls nplib c = NOp (op_conc ax n) →
  c_dt nplib c = conc_names n → c_tm nplib c = [] →
  Forall2 (λ k q, c_attr nplib c !! k = Some (@ARef nplib q)) (conc_names n) ps →
  Forall2 (λ q v, denotes nplib g q QR v) ps vs → concat ax vs = Some y → fine_at g x.
Proof. exact (fine_conc g x c ax n ps vs y). Qed.
Print Assumptions C19_concatenate_is_right.
Example C28_jacobian_case : let a := of_list 0%R [2; 1] [1; 2]%R in let b := of_list 0%R [2; 2] [3; 4; 5; 6]%R in
  let vs := [a; b; a] in agree [5; 6; 5] vs ∧ 5 ∈ [5; 6; 5] ∧ stands 1 vs 1 [1; 0] [1; 1] ∧ stands 1 vs 2 [1; 0] [1; 3] ∧
  match conc_jac 1 vs ((λ r, bool_decide (r = 5)) <$> [5; 6; 5]) with Some J => fst <$> trip J | None => [] end = [(0, 0); (4, 1); (3, 0); (7, 1)].
Proof.
  split_and!; [|set_solver| | |by vm_compute].
  - split; [done|]. intros t t' q v v' H1 H2 H3 H4.
    destruct t as [|[|[|t]]]; simpl in *; [| | |done]; destruct t' as [|[|[|t']]]; simpl in *; try done; congruence.
  - exists 1, 0. split_and!; [|split; [done|]; intros [|[|b]]; try done|done|done]. apply (total_cons 1 _ [] 1 0); [done|constructor].
  - exists 3, 0. split_and!; [|split; [done|]; intros [|[|b]]; try done|done|done].
    apply (total_cons 1 _ _ 1 2); [done|]. apply (total_cons 1 _ [] 2 0); [done|constructor].
Qed.

(** What the object remembers makes no difference as long as, after the first question,
    no operand is replaced or changes its shape.  Missing: the other histories, for which
    it is false, see below. *)
Theorem C28_follows_partial ax ps env es1 es2 e : Forall before_ok es1 →
  let s1 := conc_run es1 (env, fresh_conc ax ps) in quiet es2 s1 →
  let s2 := conc_run es2 s1 in (conc_step e s2).1 = fresh_output e s2.1 ax (co_attr s1.2).
Proof. exact (memo_right ax ps env es1 es2 e). Qed.
Print Assumptions C28_follows_partial.
Example C28_follows_case : let es1 := [Assign 0 3; Put 3 (env0 9)] in let es2 := [AskR; AskDr 3 false; Put 3 (env0 4); AskDr 2 true] in
  Forall before_ok es1 ∧ quiet es2 (conc_run es1 (env0, fresh_conc 0 [1; 2])) ∧
  co_attr (conc_run es1 (env0, fresh_conc 0 [1; 2])).2 = [3; 2].
Proof. by split_and!; repeat constructor. Qed.
(** An operand replaced after the value was read: the old operand is used for ever. *)
Theorem C28_reassign_refuted : ∃ ax ps env es e, let s := conc_run es (env, fresh_conc ax ps) in
  (conc_step e s).1 ≠ fresh_output e s.1 ax (co_attr s.2) ∧ e = AskR ∧ ∀ e', e' ∈ es → e' = AskR ∨ e' = Assign 0 3.
Proof. exact reassign_wrong. Qed.
Print Assumptions C28_reassign_refuted.
(** An operand that changes its shape: the old Jacobian is answered, or, if it was not
    kept, the old indices make asking for it raise. *)
Theorem C28_reshape_refuted : ∃ ax ps env, (∃ es w, let s := conc_run es (env, fresh_conc ax ps) in
    cols_of (conc_step (AskDr w false) s).1 = 1 ∧ cols_of (fresh_output (AskDr w false) s.1 ax (co_attr s.2)) = 3 ∧
    ∀ e', e' ∈ es → ¬ ∃ i q, e' = Assign i q) ∧
  ∃ es w, let s := conc_run es (env, fresh_conc ax ps) in
    raises (conc_step (AskDr w true) s).1 = true ∧ cols_of (fresh_output (AskDr w true) s.1 ax (co_attr s.2)) = 1 ∧
    ∀ e', e' ∈ es → ¬ ∃ i q, e' = Assign i q.
Proof. exact reshape_wrong. Qed.
Print Assumptions C28_reshape_refuted.
