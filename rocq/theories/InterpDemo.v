(** A volume of eight voxels. *)
From Coq Require Import Reals Lra.
From stdpp Require Import list list_numbers numbers gmap.
From Verif Require Import ArrModel Curve ArrThms SvdThms SvdArr InterpModel InterpSpec InterpThms.

(** 1 + 2 i + 3 j + 4 k *)
Definition vol : arr R := of_list 0%R [2; 2; 2] [1; 5; 4; 8; 3; 7; 6; 10]%R.
Definition here : arr R := of_list 0%R [1; 3] [1 / 2; 1 / 2; 1 / 4]%R.
Definition out_ : arr R := of_list 0%R [1; 3] [-1; 1 / 2; 1 / 4]%R.
Definition corner : arr R := of_list 0%R [2; 3] [1; 0; 1; 1 / 2; 1 / 2; 7]%R.
Lemma vol_affine : affine vol 1 2 3 4.
Proof.
  intros ix Hix. apply Forall2_length in Hix as Hl. simpl in Hl. destruct ix as [|i0 [|i1 [|i2 [|]]]]; try (simpl in Hl; lia).
  unfold inside in Hix. apply Forall2_cons in Hix as [H0 Hix]. apply Forall2_cons in Hix as [H1 Hix]. apply Forall2_cons in Hix as [H2 _].
  destruct i0 as [|[|]]; [..|lia]; (destruct i1 as [|[|]]; [..|lia]); (destruct i2 as [|[|]]; [..|lia]); cbn; lra.
Qed.
Lemma vol_dims loc n : sh loc = [n; 3] → 0 < n → interp_dims vol loc = Some n.
Proof. intros Hl Hn. apply interp_dims_is. split_and!; [|done|done]. exists 2, 2, 2. split_and!; [done|lia..]. Qed.
Lemma in_cell_0 x : (0 < x < 1)%R → in_cell 2 x.
Proof. intros H. exists 0. split; [lia|]. simpl. lra. Qed.
Lemma here_cells r c : inside (sh here) [r; c] → in_cell (nth c (sh vol) 0) (at_ here [r; c]).
Proof. intros [Hr Hc]%inside_rc. destruct r; [|lia]. destruct c as [|[|[|]]]; [..|lia]; apply in_cell_0; cbn; lra. Qed.
Lemma out_between : between_grid vol out_.
Proof.
  intros r c [Hr Hc]%inside_rc. destruct r; [|lia]. destruct c as [|[|[|]]]; [..|lia].
  - right. left. cbn. lra.
  - left. apply in_cell_0. cbn. lra.
  - left. apply in_cell_0. cbn. lra.
Qed.
Definition here_case : Prop := ∃ y, interp_r vol here = Some y ∧ at_ y [0] = (9 / 2)%R ∧
  (∀ r c, inside (sh here) [r; c] → in_cell (nth c (sh vol) 0) (at_ here [r; c])) ∧
  (∀ c, c < 3 → within (nth c (sh vol) 0) (at_ here [0; c])) ∧ affine vol 1 2 3 4.
Lemma here_case_ok : here_case.
Proof.
  destruct (interp_r_is vol here 1 (vol_dims here 1 eq_refl ltac:(lia))) as (y & Hy & _). exists y.
  assert (HW : ∀ c, c < 3 → within (nth c (sh vol) 0) (at_ here [0; c])).
  { intros c Hc. apply in_cell_within, here_cells. apply inside_rc. split; [lia|done]. }
  split_and!; [done| |exact here_cells|exact HW|exact vol_affine].
  rewrite (interp_affine vol here y 1 0 1 2 3 4 Hy eq_refl ltac:(lia) vol_affine HW). cbn. lra.
Qed.
(** At the corner of the volume, in an array of two locations. *)
Definition corner_case : Prop := ∃ y, interp_r vol corner = Some y ∧ at_ y [0] = 7%R ∧ inside (sh vol) [1; 0; 1] ∧
  (∀ c, c < 3 → at_ corner [0; c] = INR (nth c [1; 0; 1] 0)).
Lemma corner_case_ok : corner_case.
Proof.
  destruct (interp_r_is vol corner 2 (vol_dims corner 2 eq_refl ltac:(lia))) as (y & Hy & _). exists y.
  assert (HI : inside (sh vol) [1; 0; 1]) by (repeat constructor; simpl; lia).
  assert (HC : ∀ c, c < 3 → at_ corner [0; c] = INR (nth c [1; 0; 1] 0)). { intros [|[|[|]]] Hc; [..|lia]; cbn; lra. }
  split_and!; [done| |done|done]. destruct (interp_grid vol corner y 2 0 [1; 0; 1] Hy eq_refl ltac:(lia) HI HC) as [_ ->]. cbn. lra.
Qed.
Definition out_case : Prop := ∃ y J, interp_r vol out_ = Some y ∧ interp_jac vol out_ = Some J ∧ between_grid vol out_ ∧
  beyond 2 (at_ out_ [0; 0]) ∧ entry J 0 (ravel (sh out_) [0; 0]) = 2%R.
Lemma out_case_ok : out_case.
Proof.
  pose proof (vol_dims out_ 1 eq_refl ltac:(lia)) as Hd. destruct (interp_r_is vol out_ 1 Hd) as (y & Hy & _).
  unfold out_case, interp_jac. rewrite Hd. exists y. eexists. split_and!; [done|reflexivity|exact out_between|left; cbn; lra|].
  change (ravel (sh out_) [0; 0]) with (0 * 3 + 0). rewrite interp_mat_entry by lia.
  rewrite (gradient_affine vol 1 2 3 4); [done|exists 2, 2, 2; split_and!; [done|lia..]|exact vol_affine|exact (cell_inside vol out_ 1 0 Hd)|lia].
Qed.
Lemma out_refuted : ∃ img loc y J, interp_r img loc = Some y ∧ interp_jac img loc = Some J ∧ between_grid img loc ∧
  ¬ diff1 (λ x, default x (interp_r img x)) J loc ∧ ∃ K, diff1 (λ x, default x (interp_r img x)) K loc.
Proof.
  destruct out_case_ok as (y & J & Hy & HJ & HB & Hb & He). exists vol, out_, y, J. split_and!; [done..| |].
  - apply (interp_outside vol out_ J 0 0); [done|done|apply inside_rc; lia|done|]. rewrite He. intros E. lra.
  - destruct (interp_outside vol out_ J 0 0) as [_ (K & _ & HK)]; [done|done|apply inside_rc; lia|done|rewrite He; intros E; lra|]. by exists K.
Qed.
Definition edge_ : arr R := of_list 0%R [1; 3] [0; 1 / 2; 1 / 4]%R.
Definition edge_case : Prop := is_Some (interp_r vol out_) ∧ sh edge_ = sh out_ ∧
  ∀ r c, inside (sh out_) [r; c] → closest (nth c (sh vol) 0) (at_ out_ [r; c]) (at_ edge_ [r; c]).
Lemma edge_case_ok : edge_case.
Proof.
  split_and!; [destruct out_case_ok as (y & _ & Hy & _); by exists y|done|].
  assert (HS : ∀ x, within 2 x → closest 2 x x). { intros x Hx. split; [done|]. intros z _. rewrite Rminus_diag_eq, Rabs_R0 by done. apply Rabs_pos. }
  intros r c [Hr Hc]%inside_rc. destruct r; [|lia]. destruct c as [|[|[|]]]; [..|lia].
  - split; [cbn; unfold within; simpl; lra|]. intros z [Hz _]. cbn. rewrite !Rabs_left1 by lra. lra.
  - apply HS. cbn. unfold within. simpl. lra.
  - apply HS. cbn. unfold within. simpl. lra.
Qed.
