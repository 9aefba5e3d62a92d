(** Worked cases for indexing and reshaping. *)
From Coq Require Import Reals Lra.
From stdpp Require Import gmap strings list list_numbers numbers relations.
From Verif Require Import EngineModel EngineSpec EngineEval EngineThms GraphSpec ArrModel Curve ArrThms ElemModel ElemSpec ElemThms ReorderModel ReorderSpec
  ReorderThms IndexThms NpModel NpSpec NpThms ReorderOps ViewSpec ViewThms NpDemo.

(** x of shape 2 x 3, y = x.T, z = y\[\[5, 0\]\] *)
Definition picked (a : arr R) : list (op nplib) :=
  [nbase 1; nset 1 "x" (narr a) 101;
   nnew 2 (op_reorder Ctranspose); OSetKw nplib 2 [("a"%string, nref 1, 102)];
   nnew 3 op_select; OSetKw nplib 3 [("a"%string, nref 2, 103); ("idxs"%string, @AVal nplib (NInts [5; 0]), 104)]].
Lemma picked_valid a : valid nplib (picked a).
Proof. apply np_valid. vm_compute. reflexivity. Qed.
Lemma picked_1 a : attrs (picked a) !! 1 = Some (Core nplib NBase ["x"%string] [] {["x"%string := narr a]}).
Proof. vm_compute. reflexivity. Qed.
Lemma picked_2 a : attrs (picked a) !! 2 = Some (Core nplib (NOp (op_reorder Ctranspose)) ["a"%string] ["axes"%string] {["a"%string := nref 1]}).
Proof. vm_compute. reflexivity. Qed.
Lemma picked_3 a : attrs (picked a) !! 3 = Some (Core nplib (NOp op_select) ["a"%string] ["idxs"%string; "preferred_shape"%string]
  (<["idxs"%string := @AVal nplib (NInts [5; 0])]> {["a"%string := nref 2]})).
Proof. vm_compute. reflexivity. Qed.
Lemma picked_case a : sh a = [2; 3] → valid nplib (picked a) ∧ views (attrs (picked a)) 1 3 ∧
  ∃ b, reads nplib (after (picked a)) 3 QR b ∧ elems b = [dat a 5; dat a 0].
Proof.
  intros Hs. split; [apply picked_valid|].
  assert (H1 : denotes nplib (attrs (picked a)) 1 QR a) by (by eapply denotes_base_ne; [rewrite Hs|apply picked_1|..]).
  assert (Hr : ∃ b2, reorder 0%R (Transpose None) a = Some b2 ∧ sh b2 = [3; 2] ∧ dat b2 5 = dat a 5 ∧ dat b2 0 = dat a 0).
  { unfold reorder, plan_of. rewrite Hs. eexists. split; [reflexivity|]. split_and!; [done| |]; simpl; unfold at_; rewrite Hs; done. }
  destruct Hr as (b2 & Hb2 & Hs2 & Hd5 & Hd0).
  assert (H2 : denotes nplib (attrs (picked a)) 2 QR b2).
  { eapply (denotes_op_ne _ 2 _ (op_reorder Ctranspose) [1] [a]); [by rewrite Hs2|apply picked_2|done|by repeat constructor|by repeat constructor|]. exact Hb2. }
  assert (Hr : ∃ b, select [5; 0] None b2 = Some b ∧ sh b ≠ [] ∧ elems b = [dat a 5; dat a 0]).
  { unfold select, asize. rewrite Hs2. rewrite decide_True by (repeat constructor; simpl; lia). eexists. split; [reflexivity|]. split; [done|].
    cbn. by rewrite Hd5, Hd0. }
  destruct Hr as (b & Hb & Hbs & He).
  assert (H3 : denotes nplib (attrs (picked a)) 3 QR b).
  { eapply (denotes_op_ne _ 3 _ op_select [2] [b2]); [exact Hbs|apply picked_3|done|by repeat constructor|by repeat constructor|]. exact Hb. }
  split; [|exists b; split; [|done]; apply (hist_reads nplib); [apply np_lib_ok|apply picked_valid|done]].
  eapply (views_more _ _ 3 _ op_select 2 b2 b); [apply picked_3|done..|by right; left|done|].
  eapply (views_more _ _ 2 _ (op_reorder Ctranspose) 1 a b2); [apply picked_2|done..| |done|apply views_here].
  right; right. exists Ctranspose, (Transpose None). split_and!; [done|done|by intros []].
Qed.

(** y is a reshape of a reshape of x: a further reshape refers to x *)
Definition reshapes (a : arr R) : list (op nplib) :=
  [nbase 1; nset 1 "x" (narr a) 101;
   nnew 2 op_reshape; OSetKw nplib 2 [("a"%string, nref 1, 102); ("newshape"%string, @AVal nplib (NZs [-1]%Z), 103)];
   nnew 3 op_reshape; OSetKw nplib 3 [("a"%string, nref 2, 103); ("newshape"%string, @AVal nplib (NZs [2; 3]%Z), 104)]].
Lemma reshapes_1 a : attrs (reshapes a) !! 1 = Some (Core nplib NBase ["x"%string] [] {["x"%string := narr a]}).
Proof. vm_compute. reflexivity. Qed.
Lemma reshapes_2 a : attrs (reshapes a) !! 2 = Some (Core nplib (NOp op_reshape) ["a"%string] ["newshape"%string]
  (<["newshape"%string := @AVal nplib (NZs [-1]%Z)]> {["a"%string := nref 1]})).
Proof. vm_compute. reflexivity. Qed.
Lemma reshapes_3 a : attrs (reshapes a) !! 3 = Some (Core nplib (NOp op_reshape) ["a"%string] ["newshape"%string]
  (<["newshape"%string := @AVal nplib (NZs [2; 3]%Z)]> {["a"%string := nref 2]})).
Proof. vm_compute. reflexivity. Qed.
Lemma reshapes_dom a y c : attrs (reshapes a) !! y = Some c → y = 1 ∨ y = 2 ∨ y = 3.
Proof.
  intros H. assert (Hin : y ∈ (map_to_list (attrs (reshapes a))).*1).
  { apply elem_of_list_fmap. exists (y, c). split; [done|]. by apply elem_of_map_to_list. }
  assert (E : (map_to_list (attrs (reshapes a))).*1 ⊆ [1; 2; 3]).
  { intros z Hz. apply elem_of_list_In. apply elem_of_list_In in Hz. vm_compute in Hz. vm_compute. tauto. }
  apply E in Hin. apply elem_of_list_In in Hin. simpl in Hin. intuition congruence.
Qed.
Lemma reshapes_case a : asize a = 6 → (∃ b, denotes nplib (attrs (reshapes a)) 3 QR b ∧ sh b = [2; 3]) ∧
  innermost 9 (attrs (reshapes a)) 3 = 1 ∧
  ∀ y c p, attrs (reshapes a) !! y = Some c → c_cls nplib c = NOp p → is_reshape c = true → p = op_reshape.
Proof.
  intros Hs. split_and!.
  - assert (H1 : denotes nplib (attrs (reshapes a)) 1 QR (atleast_1d a)) by (by eapply denotes_base; [apply reshapes_1|..]).
    assert (H2 : denotes nplib (attrs (reshapes a)) 2 QR (Arr_ [6] (dat (atleast_1d a)))).
    { eapply (denotes_op_ne _ 2 _ op_reshape [1] [_]); [done|apply reshapes_2|done|by repeat constructor|by repeat constructor|].
      change (reshaped [-1]%Z (atleast_1d a) = Some (Arr_ [6] (dat (atleast_1d a)))). unfold reshaped. rewrite at1_size, Hs. done. }
    exists (Arr_ [2; 3] (dat (atleast_1d a))). split; [|done].
    eapply (denotes_op_ne _ 3 _ op_reshape [2] [Arr_ [6] (dat (atleast_1d a))]); [done|apply reshapes_3|done|by repeat constructor|by repeat constructor|]. done.
  - vm_compute. reflexivity.
  - intros y c p Hy Hc _. destruct (reshapes_dom a y c Hy) as [->|[->| ->]].
    + rewrite reshapes_1 in Hy. by injection Hy as <-.
    + rewrite reshapes_2 in Hy. injection Hy as <-. by injection Hc as <-.
    + rewrite reshapes_3 in Hy. injection Hy as <-. by injection Hc as <-.
Qed.
