(** Concrete cases for step functions and NanDivide. *)
From Coq Require Import Reals Lra.
From stdpp Require Import list list_numbers numbers gmap.
From Verif Require Import ArrModel Curve ArrThms ElemModel ElemSpec ElemThms StepModel StepSpec StepThms.

Definition halves : arr R := of_list 0%R [2; 2] [1 / 2; -1 / 2; 3; -7 / 2]%R.
Lemma floor_val x k : (IZR k <= x < IZR k + 1)%R → s_f Sfloor x = IZR k.
Proof. intros H. simpl. by rewrite (int_part_is x k H). Qed.
Definition floor_case : Prop := elems (step_r Sfloor halves) = [0; -1; 3; -4]%R.
Lemma floor_case_ok : floor_case.
Proof.
  unfold floor_case, step_r. cbn -[IZR Int_part]. repeat f_equal; apply int_part_is; lra.
Qed.
Definition calm_case : Prop := ∀ i, i < asize (of_list 0%R [2] [1 / 2; -1 / 2]%R) → ¬ jumps Sfloor (dat (of_list 0%R [2] [1 / 2; -1 / 2]%R) i).
Lemma calm_case_ok : calm_case.
Proof.
  assert (HK : ∀ k x, (IZR k < x < IZR (k + 1))%R → ∀ j, x ≠ IZR j).
  { intros k x [H1 H2] j E. subst x. apply lt_IZR in H1, H2. lia. }
  intros [|[|i]] Hi; [| |unfold asize in Hi; simpl in Hi; lia]; intros [k E]; cbn -[IZR] in E.
  - apply (HK 0%Z (1 / 2)%R) in E; [done|]. rewrite plus_IZR; lra.
  - apply (HK (-1)%Z (-1 / 2)%R) in E; [done|]. rewrite plus_IZR; lra.
Qed.
(** A column compared with a row *)
Definition cmp_case : Prop := let a := of_list 0%R [2; 1] [1; 4]%R in let b := of_list 0%R [2] [2; 3]%R in
  bshape (sh a) (sh b) = Some [2; 2] ∧ elems (cmp_r Cless a b) = [1; 1; 0; 0]%R ∧ meeting (λ x y, x ≠ y) a b.
Lemma meeting_from (P : R → R → Prop) a b out : bshape (sh a) (sh b) = Some out → (∀ i, i < size out → P (dat a (bidx (sh a) out i)) (dat b (bidx (sh b) out i))) → meeting P a b.
Proof.
  intros Hb H out' ix jx kx Ho Hi Hj Hk. rewrite Hb in Ho. injection Ho as <-. specialize (H (ravel out ix) (ravel_lt _ _ Hi)).
  destruct (bidx_feeds (sh a) out (ravel out ix)) as (jx' & Hj' & _ & Ej & _); [by eapply bshape_l|by apply ravel_lt|].
  destruct (bidx_feeds (sh b) out (ravel out ix)) as (kx' & Hk' & _ & Ek & _); [by eapply bshape_r|by apply ravel_lt|].
  rewrite unravel_ravel in Hj', Hk' by done. rewrite (feeds_unique _ _ _ _ Hj Hj'), (feeds_unique _ _ _ _ Hk Hk'). unfold at_. by rewrite <- Ej, <- Ek.
Qed.
Lemma cmp_case_ok : cmp_case.
Proof.
  split_and!; [done| |].
  - cbv -[IZR Rlt_dec Rlt Rgt]. repeat (destruct (Rlt_dec _ _); try lra). done.
  - apply (meeting_from _ _ _ [2; 2]); [done|]. intros [|[|[|[|i]]]] Hi; [..|simpl in Hi; lia]; cbv -[IZR Rdiv Ropp]; intros E; lra.
Qed.
(** (1, 0, 3) divided by (2, 0, 0) *)
Definition nan_case : Prop := let a := of_list 0%R [3] [1; 0; 3]%R in let b := of_list 0%R [3] [2; 0; 0]%R in
  bshape (sh a) (sh b) = Some [3] ∧ elems (nandiv_r a b) = [1 / 2; 0; 0]%R.
Lemma nan_case_ok : nan_case.
Proof.
  split; [done|]. cbv -[IZR Rdiv Req_EM_T Rmult Rplus]. repeat (destruct (Req_EM_T _ _); try lra). done.
Qed.
Definition nan_calm_case : Prop := let a := of_list 0%R [2; 1] [1; 0]%R in let b := of_list 0%R [2] [2; -3]%R in
  bshape (sh a) (sh b) = Some [2; 2] ∧ meeting (λ _ y, y ≠ 0%R) a b ∧ ∀ i, i < asize b → dat b i ≠ 0%R.
Lemma nan_calm_case_ok : nan_calm_case.
Proof.
  split_and!; [done| |].
  - apply (meeting_from _ _ _ [2; 2]); [done|]. intros [|[|[|[|i]]]] Hi; [..|simpl in Hi; lia]; cbv -[IZR Rdiv Ropp]; intros E; lra.
  - intros [|[|i]] Hi; [| |unfold asize in Hi; simpl in Hi; lia]; cbv -[IZR Rdiv Ropp]; intros E; lra.
Qed.
