(** Extremes over several axes: the Jacobians of the steps. *)
From Coq Require Import Reals Lra.
From stdpp Require Import strings list list_numbers numbers gmap.
From Verif Require Import ArrModel Curve ArrThms ElemModel ReorderModel ReorderSpec ReorderThms ReorderCache RedModel RedSpec RedThms
  ExtThms RedFine SeveralModel SeveralSpec SeveralThms SeveralSteps SeveralFine.

Lemma attains_geq mx x y : attains mx x y ↔ geq mx x y.
Proof. unfold attains, geq. by destruct mx. Qed.
Lemma ext_step_jac mx k a : k < length (sh a) → 0 < size (sh a) → ∃ J col, jacobian (Robj (Oext mx) (AxOne (Z.of_nat k)) []) a = Some J ∧
  fits J (size (delete k (sh a))) (asize a) ∧
  ∀ q, q < size (delete k (sh a)) → col q ∈ slice k (sh a) q ∧ dat (fold_axis (list_best mx) k a) q = dat a (col q) ∧ ∀ v, mact J v q = v (col q).
Proof.
  intros Hk Hs. pose proof (value_step (Oext mx) k a Hk Hs) as Hv. unfold value in Hv. simpl in Hv.
  destruct (ext_jac_rows mx _ a _ Hv) as (J & col & HJ & Hfit & Hact & _ & Hrow). exists J, col. split; [done|]. split; [exact Hfit|].
  intros q Hq. destruct (Hrow q Hq) as (l & Hl & Hc & Hd & _). split_and!; [|done|intros v; by apply Hact].
  destruct (lookup_lt_is_Some_2 (sh a) k Hk) as [d Hd']. assert (Hax : axis_is (length (sh a)) (Z.of_nat k) k) by (split; [done|by left]).
  rewrite <- (gathers_perm _ _ _ _ _ Hl (slice_gathers _ k d (sh a) q Hax Hd' Hq)). apply Hc.
Qed.
Lemma ext_steps_jac f mx l a : falling l → (∀ k, k ∈ l → k < length (sh a)) → 0 < size (sh a) → ∃ J pick,
  steps_jac f (Oext mx) l a = Some J ∧ fits J (size (kept l (sh a))) (asize a) ∧
  ∀ i, i < size (kept l (sh a)) → pick i ∈ parts l (sh a) i ∧ dat (fold_axes (list_best mx) l a) i = dat a (pick i) ∧ ∀ v, mact J v i = v (pick i).
Proof.
  intros Hf. revert a. induction Hf as [|k l Hk Hf IH]; intros a Hb Hs.
  - eexists _, (λ i, i). split; [done|]. split.
    + split_and!; simpl; [by rewrite replicate_length, kept_nil|by rewrite replicate_length|apply diags_range].
    + intros i Hi. rewrite kept_nil in Hi. split_and!.
      * rewrite (parts_nil (sh a) i Hi). left.
      * symmetry. apply (proj2 (fold_axes_nil (Oext mx) a)). done.
      * intros v. rewrite mact_diags, lookup_replicate_2 by done. ring.
  - assert (Hka : k < length (sh a)) by (apply Hb; left). destruct (lookup_lt_is_Some_2 (sh a) k Hka) as [d Hd].
    destruct (size_pos_delete k d _ Hd Hs) as [_ Hs']. destruct (ext_step_jac mx k a Hka Hs) as (J & col & HJ & Hfit & Hcol).
    pose proof (kept_delete k l (sh a) Hk Hka) as Es.
    destruct (IH (fold_axis (list_best mx) k a)) as (K & pick & HK & HfitK & HactK).
    { intros j Hj. simpl. rewrite length_delete by done. specialize (Hk j Hj). lia. }
    { done. }
    exists (mmul K J), (λ i, col (pick i)). simpl. rewrite make_one. cbn [mbind option_bind]. rewrite (value_step (Oext mx) k a Hka Hs).
    cbn [mbind option_bind]. rewrite HJ. cbn [mbind option_bind]. change (f_op (Oext mx)) with (list_best mx). rewrite HK. split; [done|]. split.
    + rewrite Es. eapply mmul_fits; [exact HfitK|exact Hfit].
    + intros i Hi. pose proof Hi as Hi'. rewrite Es in Hi'. destruct (HactK i Hi') as (Hp & Hv & Ha).
      assert (Hpk : pick i < size (delete k (sh a))) by (by apply parts_in in Hp as [_ ?]). destruct (Hcol (pick i) Hpk) as (Hc & Hcv & Hca). split_and!.
      * rewrite (parts_step k d l (sh a) i Hd Hk Hi). apply elem_of_list_bind. exists (pick i). done.
      * rewrite <- Hcv, <- Hv. symmetry. apply (proj2 (fold_axes_step (Oext mx) k l a Hk Hf Hka Hs) i). exact Hi'.
      * intros v. rewrite mact_mmul, Ha. apply Hca.
Qed.
Lemma ext_tuple_jacobian f mx t l ks a : axes_are (length (sh a)) t l → falling ks → ks ≡ₚ l → 0 < size (sh a) → ∃ J y,
  steps_jac f (Oext mx) ks a = Some J ∧ np_axes (Oext mx) t a = Some y ∧ fits J (asize y) (asize a) ∧
  (∀ i ps, i < asize y → agreeing l (sh a) (sh y) i ps → ∃ p, p ∈ ps ∧ (∀ q, q ∈ ps → attains mx (dat a p) (dat a q)) ∧
    ∀ q, entry J i q = if decide (q = p) then 1%R else 0%R) ∧
  (alone mx l a (sh y) → diff1 (λ x, default x (np_axes (Oext mx) t x)) J a).
Proof.
  intros Hl Hf P Hs. assert (E : ∀ b, b ∈ ks ↔ b ∈ l) by (intros b; by rewrite P).
  destruct (ext_steps_jac f mx ks a Hf) as (J & pick & HJ & Hfit & Hrow); [|done|].
  { intros k Hk. apply (axes_below _ _ _ Hl). by apply E. }
  pose proof (kept_ext ks l (sh a) E) as Es. rewrite Es in Hfit, Hrow.
  assert (Hpick : ∀ i, i < size (kept l (sh a)) → pick i ∈ parts l (sh a) i ∧ (∀ q, q ∈ parts l (sh a) i → attains mx (dat a (pick i)) (dat a q)) ∧ ∀ v, mact J v i = v (pick i)).
  { intros i Hi. destruct (Hrow i Hi) as (H1 & H2 & H3). simpl in H2. rewrite (parts_ext ks l _ _ E) in H1, H2. split_and!; [done| |done].
    intros q Hq. apply attains_geq. rewrite <- H2.
    destruct (argbest_spec mx (dat a <$> parts l (sh a) i)) as (b & _ & -> & Hb & _); [by destruct (parts l (sh a) i); [apply elem_of_nil in Hq|]|].
    apply Hb. apply elem_of_list_fmap. by exists q. }
  exists J, (fold_axes (list_best mx) l a). split; [done|]. split; [apply (np_axes_some (Oext mx)); [done|by right]|]. split; [exact Hfit|]. split.
  - intros i ps Hi Hps. destruct (Hpick i Hi) as (H1 & H2 & H3). exists (pick i).
    pose proof (agreeing_perm _ _ _ _ _ _ (parts_agreeing l (sh a) i) Hps) as Pp. split_and!.
    + by rewrite <- Pp.
    + intros q Hq. apply H2. by rewrite Pp.
    + intros q. rewrite <- mact_unit, H3. unfold unit_. destruct (decide (pick i = q)), (decide (q = pick i)); congruence.
  - intros Hal x v Hx Hm. apply (amoves_intro _ _ (kept l (sh a))).
    + eapply near_mono; [|exact (amoves_shape _ _ Hm)]. intros s Ht. rewrite Hx in Ht.
      rewrite (np_axes_some (Oext mx) t l (x s)) by (try right; by rewrite Ht). simpl. by rewrite Ht.
    + intros i Hi. destruct (Hpick i Hi) as (H1 & H2 & H3). rewrite H3.
      assert (Hin : ∀ q, q ∈ parts l (sh a) i → q < asize (x 0%R)) by (rewrite Hx; intros q Hq; by apply parts_in in Hq as [_ ?]).
      apply (deriv_near (λ s, dat (x s) (pick i))); [|apply amoves_dat; [done|by apply Hin]].
      assert (Hn : near (λ s, ∀ q, q ∈ parts l (sh a) i → geq mx (dat (x s) (pick i)) (dat (x s) q))).
      { apply near_list. intros q Hq. destruct (decide (q = pick i)) as [->|Hne].
        - apply near_always. intros s. apply geq_refl.
        - apply (near_geq mx _ _ (v (pick i)) (v q)); [apply amoves_dat; [done|by apply Hin]|by apply amoves_dat, Hin| |].
          + rewrite Hx. apply attains_geq. by apply H2.
          + rewrite Hx. apply not_eq_sym. by apply (Hal i (parts l (sh a) i) (pick i) q Hi (parts_agreeing l (sh a) i)). }
      eapply near_mono; [|exact (near_and _ _ (amoves_shape _ _ Hm) Hn)]. intros s [Ht Hg]. rewrite Hx in Ht.
      rewrite (np_axes_some (Oext mx) t l (x s)) by (try right; by rewrite Ht). simpl. rewrite Ht. symmetry. apply list_best_is.
      * apply elem_of_list_fmap. by exists (pick i).
      * intros w (q & -> & Hq)%elem_of_list_fmap. by apply Hg.
    + intros i Hi. destruct Hfit as (F1 & _ & F3). apply mact_out; [done|]. rewrite F1. exact Hi.
Qed.
