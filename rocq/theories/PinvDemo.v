(** Concrete cases for pinv, lstsq and norm. *)
From Coq Require Import Reals Lra.
From stdpp Require Import list list_numbers numbers gmap.
From Verif Require Import ArrModel Curve ArrThms ElemModel ReorderModel DotModel LinModel LinSpec SvdModel SvdThms SvdArr PinvModel PinvSpec PinvThms PinvArr PinvJac.

Lemma lstsq_residuals a b x m n : sh a = [m; n] → sh b = [m] ∨ (∃ k, sh b = [m; k]) → lstsq_x a b = Some x →
  ∃ r, lstsq_res a b = Some r ∧ sh r = drop 1 (sh b) ∧
    ∀ c, c < columns b → dat r c = misfit m n (matrix_at a []) (column b c) (column x c).
Proof.
  intros Ha Hb Hx. destruct (lstsq_res_some a b x m n Ha Hb Hx) as [r Hr]. exists r. split; [done|]. by apply lstsq_residual.
Qed.

(** The pseudo-inverse of the column (1, 2) is (1/5, 2/5). *)
Definition col12 : arr R := of_list 0%R [2; 1] [1; 2]%R.
Definition pinv_case : Prop := ∃ y, pinv_r col12 = Some y ∧ sh y = [1; 2] ∧ elems y = [1 / 5; 2 / 5]%R ∧ 0 < asize col12.
Lemma pinv_case_ok : pinv_case.
Proof.
  destruct (pinv_r col12) as [y|] eqn:Hy.
  - exists y. destruct (pinv_value _ _ Hy) as (m & n & Ha & Hs & _ & HU). injection Ha as <- <-.
    split_and!; [done|done| |vm_compute; lia]. unfold elems, asize. rewrite Hs. change (seq 0 (size [1; 2])) with [0; 1]. cbn [fmap list_fmap].
    set (Q := λ i j : nat, if decide (j = 0) then (1 / 5)%R else (2 / 5)%R).
    assert (HQ : moore_penrose 2 1 (matrix_at col12 []) Q).
    { subst Q. split_and!; intros [|[|i]] [|[|j]] Hi Hj; try lia; cbv -[Rplus Rmult Rdiv Rinv IZR]; field. }
    pose proof (HU Q HQ 0 0 ltac:(lia) ltac:(lia)) as H0. pose proof (HU Q HQ 0 1 ltac:(lia) ltac:(lia)) as H1.
    rewrite (matrix_e2 y 1 2) in H0, H1 by done. unfold e2 in H0, H1. simpl in H0, H1. rewrite <- H0, <- H1. done.
  - apply (pinv_raises col12 2 1) in Hy; [|done]. rewrite decide_False in Hy by lia. destruct Hy as (z & (j & Hj & Hz) & H).
    assert (j = 0) as -> by lia. specialize (H 0 ltac:(lia)). cbv -[Rplus Rmult IZR] in H. destruct Hz. lra.
Qed.
(** The matrix ((1, 1, 1), (2, 2, 2)) has none. *)
Definition pinv_none_case : Prop := let a := of_list 0%R [2; 3] [1; 1; 1; 2; 2; 2]%R in pinv_r a = None ∧ rows_dependent 2 3 (matrix_at a []).
Lemma pinv_none_ok : pinv_none_case.
Proof.
  assert (H : rows_dependent 2 3 (matrix_at (of_list 0%R [2; 3] [1; 1; 1; 2; 2; 2]%R) [])).
  { exists (λ i, if decide (i = 0) then 2%R else (-1)%R). split; [exists 0; split; [lia|]; case_decide; [|done]; intros E; lra|].
    intros [|[|[|i]]] Hi; try lia; cbv -[Rplus Rmult IZR]; lra. }
  split; [|done]. apply (pinv_raises _ 2 3); [done|]. by rewrite decide_True by lia.
Qed.
(** The multiple of (1, 2) closest to (3, 1) is 1; both columns of a matrix b. *)
Definition line_case : Prop := ∃ x, lstsq_x col12 (of_list 0%R [2; 2] [3; 5; 1; 0]%R) = Some x ∧ sh x = [1; 2] ∧ elems x = [1; 1]%R ∧
  is_Some (lstsq_jac true col12 (of_list 0%R [2] [3; 1]%R)).
Lemma line_case_ok : line_case.
Proof.
  destruct pinv_case_ok as (p & Hp & Hs & He & Hpos). unfold elems, asize in He. rewrite Hs in He. change (seq 0 (size [1; 2])) with [0; 1] in He.
  cbn [fmap list_fmap] in He. injection He as H0 H1.
  set (b := of_list 0%R [2; 2] [3; 5; 1; 0]%R). destruct (dot_is p b 1 2 2 Hs eq_refl) as (x & Hx & Hsx & HX).
  exists x. unfold lstsq_x. rewrite Hp. cbn [mbind option_bind]. split_and!; [done|done| |].
  - unfold elems, asize. rewrite Hsx. change (seq 0 (size [1; 2])) with [0; 1]. cbn [fmap list_fmap].
    pose proof (HX 0 0 ltac:(lia)) as K0. pose proof (HX 0 1 ltac:(lia)) as K1. unfold e2, mm in K0, K1. simpl in K0, K1. rewrite K0, K1, H0, H1.
    unfold rsum. simpl. f_equal; [lra|]. f_equal. lra.
  - set (c := of_list 0%R [2] [3; 1]%R). destruct (dot_is_v p c 1 2 Hs eq_refl) as (z & Hz & _).
    destruct (lstsq_jacobian col12 c z) as (Ja & _ & HJ & _); [unfold lstsq_x; by rewrite Hp|done|simpl; lia|]. by exists Ja.
Qed.
Definition norm_case : Prop := let a := of_list 0%R [2; 1] [3; 4]%R in
  (∃ y, norm_r a = Some y ∧ dat y 0 = 5%R) ∧ sh a ≠ [] ∧ ∃ x, x ∈ elems a ∧ x ≠ 0%R.
Lemma norm_case_ok : norm_case.
Proof.
  split_and!; [|done|exists 3%R; split; [left|intros E; lra]].
  destruct (norm_value (of_list 0%R [2; 1] [3; 4]%R)) as (y & Hy & _ & Hd); [done|]. exists y. split; [done|]. rewrite Hd.
  cbn. unfold rsum. simpl. replace (3 * 3 + (4 * 4 + 0))%R with (5 * 5)%R by lra. apply sqrt_square. lra.
Qed.
