(** Programs with nested concatenations and reshapes. *)
From Coq Require Import Reals.
From stdpp Require Import list list_numbers numbers.
From Verif Require Import ArrModel ReorderModel ConcModel NestModel NestSpec NestThms.

Definition ones (n : nat) : arr R := full [n] 1%R.
(** x, y; inner = concatenate((x, y)); s, an operation on x; outer = concatenate((inner, s));
    col = outer.reshape((-1, 1)); row = col.reshape((1, -1)); s gets y for x; x = ones(5) *)
Definition twice_as (vs : list (arr R)) : option (arr R) := v ← head vs; Some (amap (λ r, r + r)%R v).
Definition prog : list ncmd :=
  [CLeaf (ones 2); CLeaf (ones 3); CCat 0 [0; 1]; CFun twice_as [0]; CCat 0 [2; 3]; CResh [-1; 1]%Z 4; CResh [1; -1]%Z 5;
   CAssign 3 0 1; CSet 0 (ones 5)].
Lemma twice_arrays : of_arrays twice_as.
Proof.
  intros vs ws y HF. unfold twice_as. destruct HF as [|v w vs ws [Hs Hd] _]; [done|]. intros [= <-]. eexists. split; [done|]. split; [done|].
  intros i Hi. simpl. by rewrite Hd.
Qed.
Lemma prog_tidy : tidy [] prog ∧ backward 0 prog.
Proof.
  split.
  - repeat (split; [try exact I; try exact twice_arrays|]); [|done]. intros x [= <-] [].
  - repeat (split; [first [exact I|simpl; lia|intros t; rewrite !elem_of_cons, elem_of_nil; lia]|]). done.
Qed.
Lemma prog_values : ∃ h, nrun 9 [] prog = Some h ∧ h !! 4 = Some (NCat 0 [0; 1; 3]) ∧ h !! 6 = Some (NResh [1; -1]%Z 4) ∧
  sh <$> nval 9 (written [] prog) 6 = Some [1; 11] ∧ sh <$> nval 9 h 6 = Some [1; 11].
Proof. eexists. split; [reflexivity|]. split; [done|]. split; [done|]. split; vm_compute; done. Qed.

(** inner = concatenate((x, y)); outer = concatenate((inner, y)); inner.m0 = z *)
Definition cat_assign : list ncmd :=
  [CLeaf (ones 2); CLeaf (ones 3); CLeaf (ones 4); CCat 0 [0; 1]; CCat 0 [3; 1]; CAssign 3 0 2].
Lemma cat_assign_values : ∃ h, nrun 9 [] cat_assign = Some h ∧
  sh <$> nval 9 h 3 = Some [7] ∧ sh <$> nval 9 h 4 = Some [8] ∧ sh <$> nval 9 (written [] cat_assign) 4 = Some [10].
Proof. eexists. split; [reflexivity|]. split_and!; vm_compute; done. Qed.
(** a = x.reshape((2, 1)); b = a.ravel(); a.a = y *)
Definition resh_assign : list ncmd := [CLeaf (ones 2); CLeaf (ones 3); CResh [-1; 1]%Z 0; CResh [-1]%Z 2; CAssign 2 0 1].
Lemma resh_assign_values : ∃ h, nrun 9 [] resh_assign = Some h ∧
  sh <$> nval 9 h 2 = Some [3; 1] ∧ sh <$> nval 9 h 3 = Some [2] ∧ sh <$> nval 9 (written [] resh_assign) 3 = Some [3].
Proof. eexists. split; [reflexivity|]. split_and!; vm_compute; done. Qed.

(** Not below. *)
Lemma hangs_low h (P : nat → Prop) e : P e → (∀ o x p, P o → h !! o = Some x → p ∈ nops x → P p) → ∀ o, hangs h e o → P o.
Proof. intros He Hs o. induction 1; eauto. Qed.
Definition cat_only : list ncmd := [CLeaf (ones 2); CLeaf (ones 3); CCat 0 [0; 1]; CCat 0 [2; 1]].
Lemma cat_lost : tidy [] cat_only ∧ ∃ h, nrun 9 [] cat_only = Some h ∧ hangs (written [] cat_only) 3 2 ∧ ¬ hangs h 3 2.
Proof.
  split; [by repeat split|]. eexists. split; [reflexivity|]. split.
  - eapply hangs_on; [constructor|done|by left].
  - intros H. refine (hangs_low _ (λ o, o ≠ 2) 3 _ _ 2 H eq_refl); [done|]. intros o x p Ho Hx Hp.
    destruct o as [|[|[|[|o]]]]; simpl in Hx; [injection Hx as <-; by apply elem_of_nil in Hp..|done| |done].
    injection Hx as <-. simpl in Hp. rewrite !elem_of_cons, elem_of_nil in Hp. lia.
Qed.
Definition resh_only : list ncmd := [CLeaf (ones 2); CResh [-1; 1]%Z 0; CResh [-1]%Z 1].
Lemma resh_lost : tidy [] resh_only ∧ ∃ h, nrun 9 [] resh_only = Some h ∧ hangs (written [] resh_only) 2 1 ∧ ¬ hangs h 2 1.
Proof.
  split; [by repeat split|]. eexists. split; [reflexivity|]. split.
  - eapply hangs_on; [constructor|done|by left].
  - intros H. refine (hangs_low _ (λ o, o ≠ 1) 2 _ _ 1 H eq_refl); [done|]. intros o x p Ho Hx Hp.
    destruct o as [|[|[|o]]]; simpl in Hx; [injection Hx as <-; by apply elem_of_nil in Hp|done| |done].
    injection Hx as <-. simpl in Hp. rewrite !elem_of_cons, elem_of_nil in Hp. lia.
Qed.
