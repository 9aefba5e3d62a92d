(** Reducing in steps and at once. *)
From Coq Require Import Reals Lra.
From stdpp Require Import strings list list_numbers numbers gmap.
From Verif Require Import ArrModel Curve ArrThms ElemModel ReorderModel ReorderSpec ReorderThms ReorderCache RedModel RedSpec RedThms
  ExtThms RedFine SeveralModel SeveralSpec SeveralThms.

(* ------------------------------------------------------------------ *)
(** The functions applied to parts. *)
Lemma f_op_one o x : f_op o [x] = x.
Proof. destruct o as [| |mx]; simpl; [lra| |done]. unfold rsum. simpl. lra. Qed.
Lemma f_op_perm o l l' : l ≡ₚ l' → f_op o l = f_op o l'.
Proof.
  intros P. destruct o as [| |mx]; simpl; [by apply rsum_perm|by rewrite (rsum_perm _ _ P), P|].
  destruct (decide (l = [])) as [->|Hl]; [by apply Permutation_nil_l in P as ->|].
  destruct (argbest_spec mx l Hl) as (b & Hb & -> & H & _). symmetry. apply list_best_is.
  - rewrite <- P. by eapply elem_of_list_lookup_2.
  - intros y Hy. apply H. by rewrite P.
Qed.
Lemma rsum_join (ls : list (list R)) : rsum (mjoin ls) = rsum (rsum <$> ls).
Proof. induction ls as [|l ls IH]; [done|]. rewrite fmap_cons, rsum_cons, <- IH. apply rsum_app. Qed.
Lemma join_len (n : nat) (ls : list (list R)) : Forall (λ l, length l = n) ls → length (mjoin ls) = n * length ls.
Proof. induction 1 as [|l ls E _ IH]; simpl; [lia|]. rewrite app_length, IH, E. lia. Qed.
Lemma f_op_join o (n : nat) (ls : list (list R)) : 0 < n → ls ≠ [] → Forall (λ l, length l = n) ls → f_op o (f_op o <$> ls) = f_op o (mjoin ls).
Proof.
  intros Hn Hls H. destruct o as [| |mx].
  - symmetry. apply rsum_join.
  - simpl. rewrite (join_len n) by done. rewrite rsum_join, fmap_length, mult_INR.
    assert (E : rsum (f_op Omean <$> ls) = (/ INR n * rsum (rsum <$> ls))%R).
    { rewrite <- (rsum_scal (/ INR n) rsum ls). apply rsum_ext. intros l Hl. rewrite list.Forall_forall in H. simpl. rewrite (H l Hl). unfold Rdiv. ring. }
    rewrite E. assert (INR n ≠ 0%R) by (apply not_0_INR; lia).
    assert (INR (length ls) ≠ 0%R) by (apply not_0_INR; destruct ls; [done|simpl; lia]). field. done.
  - simpl. assert (Hne : f_op (Oext mx) <$> ls ≠ []) by (by destruct ls).
    destruct (argbest_spec mx _ Hne) as (b & Hb & E & Hbest & _). change (list_best mx (f_op (Oext mx) <$> ls) = list_best mx (mjoin ls)). rewrite E.
    assert (Hsub : ∀ l, l ∈ ls → ∃ c, c ∈ l ∧ list_best mx l = c ∧ ∀ y, y ∈ l → geq mx c y).
    { intros l Hl. destruct (argbest_spec mx l) as (c & Hc & Ec & Hc' & _).
      - rewrite list.Forall_forall in H. specialize (H l Hl). intros ->. simpl in H. lia.
      - exists c. split; [by eapply elem_of_list_lookup_2|done]. }
    symmetry. apply list_best_is.
    + apply elem_of_list_lookup_2, elem_of_list_fmap in Hb as (l & -> & Hl). destruct (Hsub l Hl) as (c & Hc & Ec & _). simpl. rewrite Ec.
      apply elem_of_list_join. eauto.
    + intros y Hy. apply elem_of_list_join in Hy as (l & Hy & Hl). destruct (Hsub l Hl) as (c & Hc & Ec & Hc'). eapply geq_trans; [|by apply Hc'].
      apply Hbest. rewrite <- Ec. apply elem_of_list_fmap. by exists l.
Qed.

(* ------------------------------------------------------------------ *)
(** One step. *)
Lemma value_step o k a : k < length (sh a) → 0 < size (sh a) →
  value (Robj o (AxOne (Z.of_nat k)) []) a = Some (fold_axis (f_op o) k a).
Proof.
  intros Hk Hs. assert (E : naxis (length (sh a)) (Z.of_nat k) = Some k) by (apply naxis_is; split; [done|by left]).
  unfold value. simpl. destruct o as [| |mx]; unfold red_r, ext_r; simpl; rewrite E; simpl; [done|done|].
  destruct (lookup_lt_is_Some_2 (sh a) k Hk) as [d Hd]. rewrite Hd. simpl. destruct (size_pos_delete k d _ Hd Hs) as [H _].
  rewrite decide_False by lia. done.
Qed.
Lemma make_one f o k : make f o (AxOne k) [] = Some (Robj o (AxOne k) []).
Proof. by destruct f. Qed.
Lemma same_trans a b c : same a b → same b c → same a c.
Proof. intros [H1 H2] [H3 H4]. split; [congruence|]. intros i Hi. rewrite H2 by done. apply H4. unfold asize. rewrite <- H1. done. Qed.
Lemma fold_axes_nil o a : same a (fold_axes (f_op o) [] a).
Proof.
  split; [simpl; by rewrite kept_nil|]. intros i Hi. simpl.
  rewrite (f_op_perm o _ (dat a <$> [i])) by (by rewrite (parts_nil (sh a) i Hi)). symmetry. apply f_op_one.
Qed.
Lemma fold_axes_step o k l a : (∀ j, j ∈ l → j < k) → falling l → k < length (sh a) → 0 < size (sh a) →
  same (fold_axes (f_op o) l (fold_axis (f_op o) k a)) (fold_axes (f_op o) (k :: l) a).
Proof.
  intros Hl Hf Hk Hs. destruct (lookup_lt_is_Some_2 (sh a) k Hk) as [d Hd]. destruct (size_pos_delete k d _ Hd Hs) as [Hd0 Hs'].
  pose proof (kept_delete k l (sh a) Hl Hk) as Es. split; [simpl; by rewrite Es|]. intros i Hi. unfold asize in Hi. simpl in Hi. simpl.
  assert (Hi' : i < size (kept (k :: l) (sh a))) by (by rewrite Es).
  rewrite (f_op_perm o (dat a <$> parts (k :: l) (sh a) i) (dat a <$> (parts l (delete k (sh a)) i ≫= slice k (sh a))))
    by (by rewrite (parts_step k d l (sh a) i Hd Hl Hi')).
  assert (Hne : parts l (delete k (sh a)) i ≠ []).
  { apply parts_ne; [done| |done|done]. intros j Hj. rewrite length_delete by done. specialize (Hl j Hj). lia. }
  set (ls := (λ q, dat a <$> slice k (sh a) q) <$> parts l (delete k (sh a)) i).
  assert (E : dat a <$> (parts l (delete k (sh a)) i ≫= slice k (sh a)) = mjoin ls).
  { unfold ls. generalize (parts l (delete k (sh a)) i). intros qs. induction qs as [|q qs IH]; [done|]. rewrite bind_cons, fmap_app, IH. done. }
  rewrite E, <- (f_op_join o d).
  - f_equal. unfold ls. rewrite <- list_fmap_compose. apply list_fmap_ext. intros _ q _. unfold compose. apply (fold_axis_dat (f_op o)).
  - done.
  - unfold ls. by destruct (parts l (delete k (sh a)) i).
  - unfold ls. apply list.Forall_forall. intros w Hw. apply elem_of_list_fmap in Hw as (q & -> & _). by rewrite fmap_length, slice_length, (nth_of _ _ _ Hd).
Qed.
(** All steps. *)
Lemma steps_right f o l a : falling l → (∀ k, k ∈ l → k < length (sh a)) → 0 < size (sh a) →
  ∃ y, steps f o l a = Some y ∧ same y (fold_axes (f_op o) l a).
Proof.
  intros Hf. revert a. induction Hf as [|k l Hk Hf IH]; intros a Hb Hs.
  - exists a. split; [done|]. apply fold_axes_nil.
  - assert (Hka : k < length (sh a)) by (apply Hb; left). simpl. rewrite make_one. simpl. rewrite (value_step o k a Hka Hs). simpl.
    destruct (lookup_lt_is_Some_2 (sh a) k Hka) as [d Hd]. destruct (size_pos_delete k d _ Hd Hs) as [_ Hs'].
    destruct (IH (fold_axis (f_op o) k a)) as (y & -> & Hy); [|done|].
    + intros j Hj. simpl. rewrite length_delete by done. specialize (Hk j Hj). lia.
    + exists y. split; [done|]. eapply same_trans; [exact Hy|]. by apply fold_axes_step.
Qed.

(* ------------------------------------------------------------------ *)
(** Their Jacobians. *)
Lemma mmul_fits K J m n p : fits K m n → fits J n p → fits (mmul K J) m p.
Proof.
  intros (H1 & H2 & H3) (H4 & H5 & H6). split_and!; [done|done|]. unfold in_range in *. rewrite list.Forall_forall in *. intros e He.
  unfold mmul in *. simpl in *. apply elem_of_list_bind in He as (u & He & Hu). apply elem_of_list_bind in He as (w & He & Hw).
  apply elem_of_list_singleton in He as ->. apply elem_of_list_filter in Hw as [_ Hw]. simpl. split; [apply (H3 u Hu)|apply (H6 w Hw)].
Qed.
Lemma step_jac o k a : smooth o → k < length (sh a) → 0 < size (sh a) → ∃ J, jacobian (Robj o (AxOne (Z.of_nat k)) []) a = Some J ∧
  fits J (size (delete k (sh a))) (asize a) ∧
  ∀ x, sh x = sh a → ∀ q, elem (fold_axis (f_op o) k x) q = mact J (elem x) q.
Proof.
  intros Ho Hk Hs. destruct (lookup_lt_is_Some_2 (sh a) k Hk) as [d Hd].
  assert (E : ∃ m, f_op o = f_red m ∧ jacobian (Robj o (AxOne (Z.of_nat k)) []) a = red_jac m (Some (Z.of_nat k)) a)
    by (destruct o; [exists Fsum|exists Fmean|done]; done).
  destruct E as (m & E1 & E2). rewrite E1, E2.
  assert (Hax : axis_is (length (sh a)) (Z.of_nat k) k) by (split; [done|by left]).
  assert (Er : ∀ x, sh x = sh a → red_r m (Some (Z.of_nat k)) x = Some (fold_axis (f_red m) k x)).
  { intros x Hx. unfold red_r, np_fold. rewrite Hx, (proj2 (naxis_is _ _ _) Hax). done. }
  destruct (red_right m (Some (Z.of_nat k)) a _ (Er a eq_refl) ltac:(done)) as (J & HJ & Hfit & _ & Hval). exists J. split; [done|]. split; [done|].
  intros x Hx q. destruct (Hval x Hx) as (z & Hz & Hsz & Hv). rewrite (Er x Hx) in Hz. injection Hz as <-.
  destruct (decide (q < size (delete k (sh a)))) as [Hq|Hq].
  - rewrite elem_in; [by apply Hv|]. unfold asize. simpl. by rewrite Hx.
  - unfold elem. rewrite decide_False by (unfold asize; simpl; by rewrite Hx). destruct Hfit as (F1 & _ & F3). symmetry. apply mact_out; [done|]. rewrite F1. unfold asize. simpl. lia.
Qed.
Lemma steps_jac_right f o l a : smooth o → falling l → (∀ k, k ∈ l → k < length (sh a)) → 0 < size (sh a) → ∃ J,
  steps_jac f o l a = Some J ∧ fits J (size (kept l (sh a))) (asize a) ∧
  ∀ x, sh x = sh a → ∀ i, i < size (kept l (sh a)) → dat (fold_axes (f_op o) l x) i = mact J (elem x) i.
Proof.
  intros Ho Hf. revert a. induction Hf as [|k l Hk Hf IH]; intros a Hb Hs.
  - eexists. split; [done|]. split.
    + split_and!; simpl; [by rewrite replicate_length, kept_nil|by rewrite replicate_length|apply diags_range].
    + intros x Hx i Hi. rewrite kept_nil in Hi. assert (Hix : i < asize x) by (unfold asize; by rewrite Hx).
      rewrite mact_diags, lookup_replicate_2 by done. rewrite elem_in by done. rewrite <- (proj2 (fold_axes_nil o x) i Hix). ring.
  - assert (Hka : k < length (sh a)) by (apply Hb; left). destruct (lookup_lt_is_Some_2 (sh a) k Hka) as [d Hd].
    destruct (size_pos_delete k d _ Hd Hs) as [_ Hs']. destruct (step_jac o k a Ho Hka Hs) as (J & HJ & Hfit & Hact).
    pose proof (kept_delete k l (sh a) Hk Hka) as Es.
    destruct (IH (fold_axis (f_op o) k a)) as (K & HK & HfitK & HactK).
    { intros j Hj. simpl. rewrite length_delete by done. specialize (Hk j Hj). lia. }
    { done. }
    exists (mmul K J). simpl. rewrite make_one. simpl. rewrite (value_step o k a Hka Hs). simpl. rewrite HJ. simpl. rewrite HK. split; [done|]. split.
    + rewrite Es. eapply mmul_fits; [exact HfitK|exact Hfit].
    + intros x Hx i Hi. rewrite Es in Hi. rewrite mact_mmul.
      assert (Hkx : k < length (sh x)) by (by rewrite Hx). assert (Hsx : 0 < size (sh x)) by (by rewrite Hx).
      destruct (fold_axes_step o k l x Hk Hf Hkx Hsx) as [_ E]. transitivity (dat (fold_axes (f_op o) l (fold_axis (f_op o) k x)) i); [symmetry; apply E; unfold asize; simpl; by rewrite Hx|].
      rewrite (HactK (fold_axis (f_op o) k x)) by (simpl; by rewrite ?Hx). apply mact_ext. intros q. by apply Hact.
Qed.
