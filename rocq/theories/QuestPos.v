(** Positions: proofs. *)
From Coq Require Import Reals Lra FunctionalExtensionality.
From stdpp Require Import list list_numbers numbers gmap.
From Verif Require Import ArrModel Curve ArrThms ElemModel ElemSpec ElemThms ReorderModel ReorderSpec ReorderThms ReorderCache RedModel RedSpec RedThms ExtThms NanModel NanSpec NanThms StepThms InterpThms.
From Verif Require Import MixModel MixSpec MixThms MixRules ProtoModel QuestModel QuestSpec QuestThms.

(** The elements of a part in order. *)
Lemma np_fold_along {T U} (f : list T → U) ax (a : arr T) y : np_fold f ax a = Some y →
  reduced ax (sh a) (sh y) ∧ ∀ i, i < asize y → ∃ l, gathers ax (sh a) i l ∧ dat y i = f (dat a <$> l) ∧ (∀ n, fold_count ax (sh a) = Some n → length l = n) ∧
  (∀ j p, l !! j = Some p → along ax (sh a) p j) ∧ ∀ j j' p p', l !! j = Some p → l !! j' = Some p' → p ≤ p' → j ≤ j'.
Proof.
  destruct ax as [k|]; simpl.
  - intros (k' & Hk & [= <-])%bind_Some. apply naxis_is in Hk. split; [exists k'; done|]. intros i Hi.
    destruct (axis_dim _ _ _ Hk) as [d Hd]. exists (slice k' (sh a) i). split_and!; [by eapply slice_gathers|apply fold_axis_dat| | |].
    + intros n Hn. rewrite (proj2 (naxis_is _ _ _) Hk) in Hn. simpl in Hn. by rewrite slice_length, (nth_of _ _ _ Hn).
    + intros j p Hj. exists k'. split; [done|]. pose proof (lookup_lt_Some _ _ _ Hj) as L. rewrite slice_length, (nth_of _ _ _ Hd) in L. rewrite (slice_lookup _ d) in Hj by done. injection Hj as <-.
      rewrite unravel_ravel. 2:{ apply (insert_at_inside _ _ d); [done|done|]. by apply unravel_inside. }
      apply insert_at_lookup. rewrite unravel_length, length_delete by done. pose proof (lookup_lt_Some _ _ _ Hd). lia.
    + intros j j' p p' Hj Hj'. apply (slice_increasing _ d _ i _ _ _ _ Hd); try done. apply Nat.neq_0_lt_0. intros E0.
      pose proof (lookup_lt_Some _ _ _ Hj) as L. rewrite slice_length, (nth_of _ _ _ Hd) in L. rewrite (size_delete _ _ _ Hd) in E0. unfold asize in Hi. simpl in Hi. nia.
  - intros [= <-]. split; [done|]. intros i _. exists (seq 0 (size (sh a))). split_and!; [apply all_gathers|done| | |].
    + intros n [= <-]. apply seq_length.
    + intros j p Hj%lookup_seq. lia.
    + intros j j' p p' Hj%lookup_seq Hj'%lookup_seq. lia.
Qed.
Lemma argbest_extreme mx (g : ev → R) (a : arr ev) l : l ≠ [] → (∀ j j' p p', l !! j = Some p → l !! j' = Some p' → p ≤ p' → j ≤ j') →
  ∃ p, l !! argbest mx (g <$> (dat a <$> l)) = Some p ∧ extreme mx (amap g a) l p.
Proof.
  intros Hl Hord. destruct (argbest_spec mx (g <$> (dat a <$> l))) as (b & Hb & _ & Hge & Hfirst); [by destruct l|].
  set (j0 := argbest mx (g <$> (dat a <$> l))) in *. rewrite !list_lookup_fmap in Hb. destruct (l !! j0) as [p|] eqn:Ep; [|done]. injection Hb as <-. exists p. split; [done|].
  split; [by eapply elem_of_list_lookup_2|]. intros q (j & Hj)%elem_of_list_lookup. simpl. split.
  - apply (Hge (g (dat a q))). apply elem_of_list_fmap. exists (dat a q). split; [done|]. apply elem_of_list_fmap. exists q. split; [done|]. by eapply elem_of_list_lookup_2.
  - intros E. destruct (decide (j < j0)) as [Hlt|Hge'].
    { exfalso. apply (Hfirst j Hlt). rewrite !list_lookup_fmap, Hj. simpl. by rewrite E. }
    destruct (decide (p ≤ q)); [done|]. exfalso. pose proof (Hord j j0 q p Hj Ep ltac:(lia)) as H. assert (j = j0) as -> by lia. rewrite Hj in Ep. injection Ep as ->. lia.
Qed.
(** argmax and argmin *)
Theorem arg_right mx ax a ix : ask_arg false mx ax a = Some ix → reduced ax (sh a) (sh ix) ∧
  ∀ i l, i < asize ix → gathers ax (sh a) i l → ∃ p, along ax (sh a) p (dat ix i) ∧
  ((∃ q, q ∈ l ∧ dat a q = NaN) → first_nan a l p) ∧ ((∀ q, q ∈ l → dat a q ≠ NaN) → extreme_known mx a l p).
Proof.
  unfold ask_arg. intros (n & Hn & H)%bind_Some. destruct (decide (n = 0)); [done|]. simpl in H. destruct (np_fold_along _ _ _ _ H) as [Hred Hv]. split; [done|].
  intros i l Hi Hl. destruct (Hv i Hi) as (l' & Hl' & E & Hlen & Hal & Hord). pose proof (gathers_perm _ _ _ _ _ Hl' Hl) as HP. rewrite arg_code in E.
  destruct (argbest_extreme mx (code (top mx)) a l') as (p & Hp & Hin & Hex); [specialize (Hlen n Hn); by destruct l'|done|]. exists p. rewrite E. split; [by apply Hal|].
  assert (Hpl : p ∈ l) by by rewrite <- HP. simpl in Hex. split.
  - intros (q & Hq & Hqn). assert (Hpn : dat a p = NaN).
    { destruct (Hex q) as [H1 _]; [by rewrite HP|]. rewrite Hqn in H1. apply (code_top_eq mx). pose proof (code_top mx (dat a p)) as H2. change (code (top mx) NaN) with (top mx) in H1. destruct mx; simpl in *; lra. }
    split_and!; [done|done|]. intros r Hr Hrn. apply Hex; [by rewrite HP|]. by rewrite Hrn, Hpn.
  - intros Hno. split_and!; [done|by apply Hno|]. intros q Hq Hqn. destruct (Hex q) as [H1 H2]; [by rewrite HP|]. split.
    + apply (rel_code (top mx) mx); [done|by apply Hno|]. exact H1.
    + intros E'. apply H2. by rewrite E'.
Qed.
(** nanargmax and nanargmin *)
Theorem nanarg_right mx ax a ix : ask_arg true mx ax a = Some ix → reduced ax (sh a) (sh ix) ∧
  ∀ i l, i < asize ix → gathers ax (sh a) i l → ∃ q, extreme_known mx a l q ∧ (¬ hopeless mx (dat a q) → along ax (sh a) q (dat ix i)).
Proof.
  unfold ask_arg. intros (n & Hn & H)%bind_Some. destruct (decide (n = 0)); [done|]. simpl in H. apply bind_Some in H as (mask & Hm & H).
  destruct (existsb Datatypes.id (elems mask)) eqn:Em; [done|]. destruct (np_fold_along _ _ _ _ H) as [Hred Hv]. split; [done|].
  intros i l Hi Hl. destruct (Hv i Hi) as (l' & Hl' & E & Hlen & Hal & Hord). pose proof (gathers_perm _ _ _ _ _ Hl' Hl) as HP. rewrite arg_patch_code in E.
  assert (Hk : ∃ q, q ∈ l ∧ dat a q ≠ NaN).
  { destruct (np_fold_value _ _ _ _ Hm) as [Hmr Hmv]. assert (Hmi : i < asize mask) by (unfold asize in *; by rewrite (reduced_unique _ _ _ _ Hmr Hred)).
    destruct (Hmv i Hmi) as (l2 & Hl2 & E2). pose proof (gathers_perm _ _ _ _ _ Hl2 Hl) as HP2.
    destruct (forallb is_nan (dat a <$> l2)) eqn:Ef.
    - exfalso. rewrite <- not_true_iff_false in Em. apply Em. apply existsb_exists. exists (dat mask i). split; [|by rewrite E2]. apply elem_of_list_In. unfold elems. apply elem_of_list_fmap. exists i. split; [done|]. apply elem_of_seq. lia.
    - rewrite <- not_true_iff_false, forallb_forall in Ef. destruct (decide (Exists (λ q, is_nan (dat a q) = false) l2)) as [HE|HE].
      + apply Exists_exists in HE as (q & Hq & Hqn). exists q. split; [by rewrite <- HP2|]. by destruct (dat a q).
      + exfalso. apply Ef. intros e He. apply elem_of_list_In, elem_of_list_fmap in He as (q & -> & Hq). destruct (is_nan (dat a q)) eqn:Eq; [done|]. exfalso. apply HE. apply Exists_exists. eauto. }
  destruct Hk as (q0 & Hq0 & Hqn0). destruct (known_exists mx a l q0 Hq0 Hqn0) as (q & Hq). exists q. split; [done|]. intros Hh.
  destruct (argbest_extreme mx (code (bot mx)) a l') as (p & Hp & Hex); [specialize (Hlen n Hn); by destruct l'|done|].
  pose proof (known_code mx a l q Hq Hh) as Hex'. rewrite E. replace q with p; [by apply Hal|]. eapply extreme_unique; [|exact Hex']. by eapply extreme_perm.
Qed.
(** There is an answer unless the axis is wrong, there is nothing to choose from or only NaN. *)
Theorem arg_answers nan mx ax a n : fold_count ax (sh a) = Some n → n ≠ 0 → (nan = true → ∀ o, reduced ax (sh a) o → some_known ax a (size o)) →
  ∃ ix, ask_arg nan mx ax a = Some ix.
Proof.
  intros Hn H0 Hk. unfold ask_arg. rewrite Hn. cbn [mbind option_bind]. rewrite decide_False by done.
  assert (He : ∃ y, e_r true mx ax a = Some y).
  { unfold e_r. rewrite Hn. cbn [mbind option_bind]. rewrite decide_False by done. destruct ax as [k|]; simpl in *; [|by eexists].
    apply bind_Some in Hn as (k' & -> & _). by eexists. }
  destruct He as (y & Hy). pose proof (e_r_fold _ _ _ _ _ Hy) as [Hf _].
  assert (HA : ∀ g : list ev → nat, ∃ ix, np_fold g ax a = Some ix).
  { intros g. destruct ax as [k|]; simpl in *; [|by eexists]. apply bind_Some in Hf as (k' & -> & _). by eexists. }
  destruct nan; [|apply HA]. rewrite (argf_known mx ax a y Hy); [apply HA|]. apply (Hk eq_refl). by eapply e_r_reduced.
Qed.
Theorem arg_refuses nan mx ax a ix : ask_arg nan mx ax a = Some ix → ∃ n, fold_count ax (sh a) = Some n ∧ n ≠ 0.
Proof. unfold ask_arg. intros (n & Hn & H)%bind_Some. exists n. split; [done|]. by destruct (decide (n = 0)). Qed.

(** flatnonzero, nonzero, argwhere *)
Lemma filter_increasing (P : nat → Prop) `{!∀ i, Decision (P i)} n m j j' p p' : filter P (seq n m) !! j = Some p → filter P (seq n m) !! j' = Some p' → j < j' → p < p'.
Proof.
  revert n j j'. induction m as [|m IH]; intros n j j' Hj Hj' Hlt; [done|]. simpl in Hj, Hj'. rewrite filter_cons in Hj, Hj'. destruct (decide (P n)); [|by eapply IH].
  destruct j' as [|j']; [lia|]. simpl in Hj'. destruct j as [|j]; simpl in Hj.
  - injection Hj as <-. apply elem_of_list_lookup_2, elem_of_list_filter in Hj' as [_ HS]. apply elem_of_seq in HS. lia.
  - by apply (IH (S n) j j' Hj Hj'); lia.
Qed.
Theorem flat_right a : (∀ p, p ∈ flatnonzero a ↔ p < asize a ∧ dat a p ≠ Num 0) ∧
  ∀ j j' p p', flatnonzero a !! j = Some p → flatnonzero a !! j' = Some p' → j < j' → p < p'.
Proof.
  split.
  - intros p. unfold flatnonzero, trues. rewrite elem_of_list_filter, elem_of_seq. simpl. rewrite truth_is. unfold asize. simpl. split; [intros [? [? ?]]; by split|intros [? ?]; split_and!; [done|lia|done]].
  - intros j j' p p'. apply filter_increasing.
Qed.
Theorem nonzero_right a k : k < length (sh a) → ∃ l, nonzero a !! k = Some l ∧ length l = length (flatnonzero a) ∧
  ∀ j p, flatnonzero a !! j = Some p → l !! j = unravel (sh a) p !! k.
Proof.
  intros Hk. eexists. split; [unfold nonzero; rewrite list_lookup_fmap, lookup_seq_lt by done; reflexivity|]. rewrite fmap_length. split; [done|].
  intros j p Hp. rewrite list_lookup_fmap, Hp. simpl. rewrite nth_lookup. destruct (unravel (sh a) p !! k) eqn:E; [done|]. apply lookup_ge_None in E. rewrite unravel_length in E. lia.
Qed.
Theorem argwhere_right a j : argwhere a !! j = unravel (sh a) <$> (flatnonzero a !! j).
Proof.
  unfold argwhere. rewrite list_lookup_fmap. destruct (flatnonzero a !! j) as [p|] eqn:E.
  - pose proof (lookup_lt_Some _ _ _ E) as L. rewrite lookup_seq_lt by done. simpl. f_equal. unfold nonzero. rewrite <- list_fmap_compose.
    rewrite <- (nths_all (unravel (sh a) p)). rewrite unravel_length. apply list_fmap_ext. intros i k Hk. simpl. rewrite nth_lookup, list_lookup_fmap, E. done.
  - rewrite lookup_seq_ge by by apply lookup_ge_None. done.
Qed.

(** x[nonzero(c)] *)
Lemma naxis_nat d i : i < d → naxis d (Z.of_nat i) = Some i.
Proof. intros H. apply naxis_is. unfold axis_is. split; [lia|]. lia. Qed.
Lemma mapM_naxis d l : (∀ i, i ∈ l → i < d) → mapM (naxis d) (Z.of_nat <$> l) = Some l.
Proof.
  induction l as [|i l IH]; intros H; [done|]. rewrite fmap_cons. simpl. rewrite naxis_nat by (apply H; left). simpl. rewrite IH; [done|]. intros j Hj. apply H. by right.
Qed.
Lemma parts_nonzero c : parts (nonzero_key c) (sh c) = Some (mask_parts (amap truth c)).
Proof.
  unfold nonzero_key, nonzero, mask_parts. cbn [sh amap]. fold (flatnonzero c). rewrite <- list_fmap_compose. unfold compose.
  assert (G : ∀ j s, drop j (sh c) = s → parts ((λ k, MInts [length ((λ i, nth k (unravel (sh c) i) 0) <$> flatnonzero c)] (Z.of_nat <$> ((λ i, nth k (unravel (sh c) i) 0) <$> flatnonzero c))) <$> seq j (length s)) s =
    Some ((λ k, PIndex [length (flatnonzero c)] ((λ i, nth k (unravel (sh c) i) 0) <$> flatnonzero c)) <$> seq j (length s))).
  { intros j s. revert j. induction s as [|d s IH]; intros j Hs; [done|]. cbn [length seq]. rewrite !fmap_cons. cbn [parts].
    assert (Hd : sh c !! j = Some d). { rewrite <- (Nat.add_0_r j), <- lookup_drop, Hs. done. }
    rewrite mapM_naxis.
    - cbn [mbind option_bind]. rewrite decide_True by (rewrite !fmap_length; simpl; lia). rewrite (IH (S j)).
      + simpl. by rewrite fmap_length.
      + change (S j) with (1 + j). rewrite Nat.add_comm, <- drop_drop, Hs. done.
    - intros i (p & -> & Hp)%elem_of_list_fmap. apply flat_right in Hp as [Hp _]. pose proof (unravel_inside _ _ Hp) as Hin. destruct (inside_some _ _ _ _ Hin Hd) as (x & Hx & Hlt). by rewrite (nth_of _ _ _ Hx). }
  apply G. apply drop_0.
Qed.
Lemma nonzero_dots c : filter is_mdots (nonzero_key c) = [].
Proof. unfold nonzero_key. induction (nonzero c) as [|l L IH]; [done|]. rewrite fmap_cons, filter_cons. simpl. done. Qed.
Theorem nonzero_mask c (x : arr R) : sh c = sh x → sh x ≠ [] → np_mixed (nonzero_key c) R x = np_mixed [MMask (amap truth c)] R x.
Proof.
  intros Hs Hne. unfold np_mixed, mix_plan. rewrite nonzero_dots. rewrite <- Hs, parts_nonzero. rewrite decide_True by (simpl; lia). rewrite decide_True by (vm_compute; lia).
  cbn [parts sh amap]. rewrite decide_True by (rewrite Hs; split; [done|by apply firstn_all]). rewrite drop_all. cbn [parts all_of list_fmap fmap option_fmap option_map]. by rewrite app_nil_r.
Qed.
Theorem select_right c (x : arr R) : sh c = sh x → sh x ≠ [] → ∃ y, any_getitem (np_mixed (nonzero_key c)) x = Some y ∧ sh y = [length (flatnonzero c)] ∧
  ∀ j p, flatnonzero c !! j = Some p → dat y j = dat x p.
Proof.
  intros Hs Hne. pose proof (mixed_mask (amap truth c) x Hs Hne) as H. rewrite <- nonzero_mask in H by done. unfold np_getitem, index_plan in H. cbn [sh amap] in H. rewrite decide_True in H by done. cbn [fmap option_fmap option_map] in H. fold (flatnonzero c) in H.
  destruct (np_mixed (nonzero_key c) R x) as [b|] eqn:E; [|done]. destruct H as [H1 H2]. destruct (any_value _ (mixed_moves _) x b E) as (y & Hy & E1 & E2). exists y. split; [done|]. simpl in H1.
  rewrite atleast_sh, <- H1 in E1. split; [done|]. intros j p Hp. pose proof (lookup_lt_Some _ _ _ Hp) as L.
  rewrite E2. 2:{ unfold asize. rewrite E1. simpl. lia. } rewrite atleast_dat, <- H2. 2:{ unfold asize. simpl. lia. }
  unfold moved. cbn [dat]. cbn [fst snd unravel]. change (size []) with 1. rewrite Nat.div_1_r. simpl nth at 2. rewrite (nth_lookup_Some _ _ 0 p Hp).
  unfold at_. rewrite ravel_unravel; [done|]. rewrite <- Hs. by apply flat_right, (elem_of_list_lookup_2 _ _ _ Hp).
Qed.
(** A comparison as a key *)
Theorem mask_refused (c x : arr R) : asize c ≠ 0 → by_ch c x = None.
Proof. intros H. unfold by_ch, key_of. by rewrite decide_False. Qed.
(** Conditions *)
Theorem if_always f keep a y : sh a ≠ [] → logic_r (Over f None keep) a = Some y → py_truth y = Some true.
Proof.
  intros Hne [= <-]. unfold py_truth, py_len. rewrite atleast_sh. destruct keep; simpl; [|done]. by destruct (sh a).
Qed.
Theorem nested_right a : sh a ≠ [] → ∃ y z, logic_r (Each Enan) a = Some y ∧ logic_r (Over Qany None false) (amap Num y) = Some z ∧ sh z = [1] ∧
  answers (dat z 0) (∃ p, p < asize a ∧ dat a p = NaN) ∧ py_truth z = Some true.
Proof.
  intros Hne. destruct (each_value Enan a) as (y & Hy & Hs & Hv). destruct (logic_r (Over Qany None false) (amap Num y)) as [z|] eqn:Hz; [|done]. exists y, z.
  assert (Hsy : sh y = sh a) by (rewrite Hs; by destruct (sh a)).
  destruct (over_value _ _ _ _ _ Hz) as (Hsh & _ & Ha). destruct Hsh as (o & -> & Hsh). split_and!; [done|done|done| |].
  - destruct (Ha 0 (seq 0 (size (sh (amap Num y))))) as [A1 A2]; [unfold asize; rewrite Hsh; simpl; lia|apply all_gathers|]. cbn [sh amap] in A1, A2. rewrite Hsy in A1, A2.
    assert (E : asks_of Qany (amap Num y) (seq 0 (size (sh a))) ↔ ∃ p, p < asize a ∧ dat a p = NaN).
    { simpl. split.
      - intros (p & Hp%elem_of_seq & H). exists p. split; [unfold asize; lia|]. destruct (Hv p) as [_ V]. simpl in V. destruct (is_nan (dat a p)) eqn:En; [by destruct (dat a p)|].
        exfalso. apply H. f_equal. apply V. intros E. by rewrite E in En.
      - intros (p & Hp & H). exists p. split; [apply elem_of_seq; unfold asize in Hp; lia|]. destruct (Hv p) as [V _]. rewrite (V H). intros [= E]. lra. }
    split; intros H; [apply A1|apply A2]; by rewrite E.
  - apply (if_always Qany false (amap Num y) z); [simpl; by rewrite Hsy|done].
Qed.
Theorem if_wrong : ∃ a y z, logic_r (Each Enan) a = Some y ∧ logic_r (Over Qany None false) (amap Num y) = Some z ∧ py_truth z = Some true ∧ ¬ ∃ p, p < asize a ∧ dat a p = NaN.
Proof.
  destruct (nested_right (Arr_ [1] (λ _, Num 1))) as (y & z & Hy & Hz & _ & _ & Ht); [done|]. exists (Arr_ [1] (λ _, Num 1)), y, z. split_and!; [done..|]. intros (p & _ & H). done.
Qed.
Theorem mask_wrong : ∃ (x : arr R) (m : arr bool) b, sh m = sh x ∧ (∀ i, dat m i = true ↔ (0 < dat x i)%R) ∧ np_mixed [MMask m] R x = Some b ∧ asize b ≠ 0 ∧
  by_ch (StepModel.cmp_r StepModel.Cgreater x (Arr_ [1] (λ _, 0%R))) x = None.
Proof.
  set (x := Arr_ [2] (λ i, if decide (i = 0) then 5%R else (-1)%R)). exists x, (amap (λ z, bool_decide (0 < z)%R) x). 
  set (c := amap (λ z : R, Num (if bool_decide (0 < z)%R then 1 else 0)%R) x).
  assert (Ec : amap truth c = amap (λ z, bool_decide (0 < z)%R) x).
  { unfold c, amap. simpl. f_equal. apply functional_extensionality. intros i. destruct (bool_decide (0 < _)%R); [apply bool_decide_eq_true_2; lra|apply bool_decide_eq_false_2; tauto]. }
  destruct (select_right c x eq_refl ltac:(done)) as (y & Hy & Hs & _).
  destruct (np_mixed (nonzero_key c) R x) as [b|] eqn:Eb.
  2:{ by rewrite (any_raises _ (mixed_moves _) x Eb) in Hy. }
  exists b. rewrite nonzero_mask in Eb by done. rewrite Ec in Eb. split_and!; [done| |done| |].
  - intros i. apply bool_decide_eq_true.
  - pose proof (mixed_mask (amap truth c) x eq_refl ltac:(done)) as H. rewrite Ec, Eb in H. destruct H as [H _]. unfold asize. rewrite <- H. simpl. rewrite <- Ec. fold (flatnonzero c). intros E0.
    assert (Hin : 0 ∈ flatnonzero c). { apply flat_right. split; [vm_compute; lia|]. unfold c. simpl. rewrite bool_decide_eq_true_2 by lra. intros [= E]. lra. }
    destruct (flatnonzero c); [by apply elem_of_nil in Hin|]. simpl in E0. lia.
  - apply mask_refused. done.
Qed.
