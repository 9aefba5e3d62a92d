(** Objectives for BlockProps.v. *)
From Coq Require Import Reals Lra.
From stdpp Require Import gmap list list_numbers.
From Verif Require Import ArrModel ArrThms ElemModel RepModel RepSpec RepThms RepSum RepGraph RepDemo RepOpsSpec RepOps BlockModel BlockSpec BlockThms.

(** Two residuals of x (two elements), by way of t with an operator as Jacobian, and of y
    (three elements, sparse): objects x, y, t and the residuals. *)
Definition b_x : arr R := Arr_ [2; 2] (λ k, INR (S k)).
Definition b_y (i j : nat) : R := if decide (i = 0 ∧ j = 2) then 5%R else 0%R.
Definition b_m : mat := λ i j, INR (S (i * 2 + j)).
Definition g_blk : rgraph :=
  <[0 := RNode [] nojac]> (<[1 := RNode [] nojac]> (<[2 := RNode [0] (jac1 0 op_id)]>
  {[3 := RNode [2; 1] (jac2 2 (Arr b_x) 1 (Spr 2 3 b_y))]})).
Definition n_blk (o : nat) : nat := match o with 1 => 3 | _ => 2 end.
Definition J_blk (o p : nat) : mat :=
  match o, p with 2, 0 => mscal 1 | 3, 2 => b_m | 3, 1 => b_y | _, _ => mzero end.
Definition T_blk (v : nat) : mat := match v with 0 => b_m | 1 => b_y | _ => mzero end.
Definition Tv_blk (v o : nat) : mat :=
  match v, o with
  | 0, 0 => mscal 1 | 0, 2 => mscal 1 | 0, 3 => b_m
  | 1, 1 => mscal 1 | 1, 3 => b_y | _, _ => mzero
  end.

Lemma blk_sound : sound_graph g_blk.
Proof.
  split.
  - intros o nd H. graph_cases g_blk H; simpl.
    + split; [constructor|]. intros p Hp. by apply elem_of_nil in Hp.
    + split; [constructor|]. intros p Hp. by apply elem_of_nil in Hp.
    + split; [repeat constructor; set_solver|]. intros p Hp. apply elem_of_list_singleton in Hp as ->. by eexists.
    + split; [repeat constructor; set_solver|]. intros p Hp.
      apply elem_of_cons in Hp as [->|Hp]; [by eexists|]. apply elem_of_list_singleton in Hp as ->. by eexists.
  - exists (λ o, o). intros o nd p H Hp. graph_cases g_blk H; simpl in Hp; set_unfold; lia.
Qed.
Lemma blk_proper o : proper g_blk n_blk J_blk (λ _, true) o.
Proof.
  intros nd H. graph_cases g_blk H; cbn [ops jac].
  - split; [done|]. intros p Hp. by apply elem_of_nil in Hp.
  - split; [done|]. intros p Hp. by apply elem_of_nil in Hp.
  - split; [intros p Hp; unfold jac1; rewrite decide_False by set_solver; done|].
    intros p Hp. apply elem_of_list_singleton in Hp as ->. split; [left; apply id_is|done].
  - split.
    + intros p Hp. unfold jac2. rewrite !decide_False by set_solver. done.
    + intros p Hp. apply elem_of_cons in Hp as [->|Hp].
      * unfold jac2. simpl. split; [|done]. left. by split.
      * apply elem_of_list_singleton in Hp as ->. unfold jac2. simpl. split; [|done]. left. by split_and!.
Qed.
Lemma blk_right v : v < 2 → sums_right g_blk n_blk J_blk v.
Proof.
  intros Hv o. left. split; [apply blk_proper|]. intros nd H. graph_cases g_blk H; simpl; try (left; lia). right; left.
  split; [lia|]. destruct v as [|[|v]]; simpl; lia.
Qed.
Lemma mmult_one n k m A v i j : i < n → j < m → m = k → mmult k A (mscal v) i j = (v * A i j)%R.
Proof. intros Hi Hj ->. by apply (mmult_scal_r n k v). Qed.
Lemma mmult_one_l n k m A v i j : i < n → j < m → n = k → mmult k (mscal v) A i j = (v * A i j)%R.
Proof. intros Hi Hj ->. by apply (mmult_scal_l k m v). Qed.
Lemma blk_total v : v < 2 → total g_blk n_blk J_blk 3 T_blk v.
Proof.
  intros Hv. exists (Tv_blk v). assert (v = 0 ∨ v = 1) as [-> | ->] by lia.
  - split; [|done]. split; [by intros i j _ _|]. intros o nd H Hne i j Hi Hj. graph_cases g_blk H; [done|done|..].
    + cbn [ops fmap list_fmap Tv_blk J_blk]. rewrite rsum_cons. rewrite (mmult_one_l 2 2 2) by done. simpl. ring.
    + cbn [ops fmap list_fmap Tv_blk J_blk]. rewrite !rsum_cons. change (n_blk 2) with 2. change (n_blk 1) with 3.
      rewrite (mmult_one 2 2 2) by done. rewrite (mmult_zero_r 2 3 2) by (done || by intros ? ? ? ?). unfold mzero, rsum. simpl foldr. ring.
  - split; [|done]. split; [by intros i j _ _|]. intros o nd H Hne i j Hi Hj. graph_cases g_blk H; [done|done|..].
    + cbn [ops fmap list_fmap Tv_blk J_blk]. rewrite rsum_cons. rewrite (mmult_zero_r 2 2 3) by (done || by intros ? ? ? ?). unfold mzero, rsum. simpl foldr. ring.
    + cbn [ops fmap list_fmap Tv_blk J_blk]. rewrite !rsum_cons. change (n_blk 2) with 2. change (n_blk 1) with 3.
      rewrite (mmult_one 2 3 3) by done. rewrite (mmult_zero_r 2 2 3) by (done || by intros ? ? ? ?). unfold mzero, rsum. simpl foldr. ring.
Qed.
Lemma blk_apart v : v < 2 → apart g_blk n_blk J_blk 3 v.
Proof.
  intros Hv. split; [lia|]. intros H. inversion H as [|o p nd Hne Hh]; subst; [lia|].
  destruct Hh as (nd' & q & r & c & E & Hq & Ej & Hout & _). injection E as <-. simpl in Ej, Hout.
  destruct (decide (q = 2)) as [->|Hq0].
  - by specialize (Hout 1 ltac:(done)).
  - by specialize (Hout 2 ltac:(done)).
Qed.
(** The free variables y\[2\], y\[0\] and x. *)
Definition fv_blk : list fvar := [Pick 1 [2; 0]; Whole 0].
Lemma fv_fine : Forall (λ x, sums_right g_blk n_blk J_blk (base x) ∧ total g_blk n_blk J_blk 3 T_blk (base x) ∧
  apart g_blk n_blk J_blk 3 (base x) ∧ fits n_blk x) fv_blk.
Proof.
  constructor; [|constructor; [|constructor]]; cbn [base]; (split_and!; [apply blk_right; lia|apply blk_total; lia|apply blk_apart; lia|]).
  - repeat constructor; simpl; lia.
  - done.
Qed.
Lemma blk_returns : Forall (λ x, ∃ r, returns g_blk 3 (base x) (Some r) ∧ (no_lin r = true ∨ whole x ∧ false = false)) fv_blk.
Proof.
  constructor; [|constructor; [|constructor]]; simpl.
  - exists (Spr 2 3 b_y). split; [by exists 3|by left].
  - eexists. split; [by exists 3|by right].
Qed.

(** One variable with two elements and a given local Jacobian. *)
Definition g_one (r : rep) : rgraph := <[0 := RNode [] nojac]> {[1 := RNode [0] (jac1 0 r)]}.
Definition J_one (A : mat) (o p : nat) : mat := match o, p with 1, 0 => A | _, _ => mzero end.
Definition T_one (A : mat) (o : nat) : mat := match o with 0 => mscal 1 | 1 => A | _ => mzero end.
Lemma one_sound r : sound_graph (g_one r).
Proof.
  split.
  - intros o nd H. graph_cases g_one H; simpl.
    + split; [constructor|]. intros p Hp. by apply elem_of_nil in Hp.
    + split; [repeat constructor; set_solver|]. intros p Hp. apply elem_of_list_singleton in Hp as ->. by eexists.
  - exists (λ o, o). intros o nd p H Hp. graph_cases g_one H; simpl in Hp; set_unfold; lia.
Qed.
Lemma one_chain r A : chain_rule (g_one r) (λ _, 2) 0 (J_one A) (T_one A).
Proof.
  split; [done|]. intros o nd H Hne i j Hi Hj. graph_cases g_one H; [done|].
  cbn [ops]. simpl fmap. unfold rsum; simpl foldr. simpl T_one. rewrite (mmult_one 2 2 2) by done. lra.
Qed.
Lemma one_fine r A ok o : is_mat r 2 2 A → ok r = true → proper (g_one r) (λ _, 2) (J_one A) ok o.
Proof.
  intros Hr Hok nd H. graph_cases g_one H; cbn [ops jac].
  - split; [done|]. intros p Hp. by apply elem_of_nil in Hp.
  - split.
    + intros p Hp. unfold jac1. rewrite decide_False by set_solver. done.
    + intros p Hp. apply elem_of_list_singleton in Hp as ->. unfold jac1. simpl. split; [|done]. by left.
Qed.
Lemma one_alias r A : is_mat r 2 2 A → ¬ alias (g_one r) (λ _, 2) 0 (J_one A) 1.
Proof.
  intros Hr H. inversion H as [|o p nd Hne Hh]; subst.
  destruct Hh as (nd' & q & r' & c & E & Hq & Ej & Hout & _ & Hn & _). injection E as <-. simpl in Ej, Hq.
  apply elem_of_list_singleton in Hq as ->. injection Ej as <-.
  destruct r as [|a| |]; [done| |done|done]. destruct Hr as [Hs _]. destruct Hn as [Has _]. unfold asize in Has. by rewrite Hs in Has.
Qed.
Lemma blk_row : (λ j, partials T_blk (stacked_slots n_blk fv_blk) 0 j) <$> [0; 1; 2; 3] = [5; 0; 1; 2]%R.
Proof.
  change (stacked_slots n_blk fv_blk) with [(1, 2); (1, 0); (0, 0); (0, 1)]. simpl. unfold partials. simpl. unfold T_blk, b_m, b_y. simpl.
  repeat f_equal.
Qed.
