(** Extrema along an axis and of two arrays, and clip. *)
From Coq Require Import Reals Lra.
From stdpp Require Import list list_numbers numbers gmap.
From Verif Require Import ArrModel Curve ArrThms ElemModel ElemSpec ElemThms ReorderModel ReorderSpec ReorderThms ReorderCache RedModel RedSpec RedThms.

(* ------------------------------------------------------------------ *)
(** The extreme element of a list. *)
Definition geq (mx : bool) (b y : R) : Prop := if mx then (y <= b)%R else (b <= y)%R.
Lemma geq_refl mx x : geq mx x x.
Proof. destruct mx; simpl; lra. Qed.
Lemma geq_trans mx x y z : geq mx x y → geq mx y z → geq mx x z.
Proof. destruct mx; simpl; lra. Qed.
Lemma geq_antisym mx x y : geq mx x y → geq mx y x → x = y.
Proof. destruct mx; simpl; lra. Qed.
Lemma beats_true mx x y : beats mx x y = true ↔ geq mx x y ∧ x ≠ y.
Proof. destruct mx; simpl; rewrite bool_decide_eq_true; split; intros; try lra; split; lra. Qed.
Lemma beats_false mx x y : beats mx x y = false ↔ geq mx y x.
Proof. destruct mx; simpl; rewrite bool_decide_eq_false; lra. Qed.
Lemma best_beats mx x y : best mx x y = if beats mx y x then y else x.
Proof.
  destruct (beats mx y x) eqn:E.
  - apply beats_true in E as [E _]. destruct mx; simpl in *; [by apply Rmax_right|by apply Rmin_right].
  - apply beats_false in E. destruct mx; simpl in *; [by apply Rmax_left|by apply Rmin_left].
Qed.
Lemma argbest_from_spec mx x ax i l : let b := foldl (best mx) x l in
  (geq mx b x ∧ ∀ y, y ∈ l → geq mx b y) ∧
  ((argbest_from mx x ax i l = ax ∧ b = x) ∨
   (∃ j, argbest_from mx x ax i l = i + j ∧ l !! j = Some b ∧ b ≠ x ∧ ∀ j', j' < j → l !! j' ≠ Some b)).
Proof.
  revert x ax i. induction l as [|y l IH]; intros x ax i; simpl.
  - split; [split; [apply geq_refl|intros y Hy; by apply elem_of_nil in Hy]|by left].
  - rewrite (best_beats mx x y). destruct (beats mx y x) eqn:E.
    + apply beats_true in E as [E1 E2]. destruct (IH y i (S i)) as [[H1 H2] H3]. set (b := foldl (best mx) y l) in *.
      assert (Hbx : geq mx b x) by (by eapply geq_trans).
      assert (Hne : b ≠ x). { intros ->. apply E2. by eapply geq_antisym. }
      split. { split; [done|]. intros z [->|Hz]%elem_of_cons; [done|by apply H2]. }
      right. destruct H3 as [[-> ->]|(j & -> & Hj & Hby & Hfirst)].
      * exists 0. split_and!; [lia|done|done|lia].
      * exists (S j). split_and!; [lia|done|done|]. intros [|j'] Hj'; simpl; [congruence|]. apply Hfirst. lia.
    + apply beats_false in E. destruct (IH x ax (S i)) as [[H1 H2] H3]. set (b := foldl (best mx) x l) in *.
      split. { split; [done|]. intros z [->|Hz]%elem_of_cons; [by eapply geq_trans|by apply H2]. }
      destruct H3 as [[-> ->]|(j & -> & Hj & Hbx & Hfirst)]; [by left|]. right.
      exists (S j). split_and!; [lia|done|done|]. intros [|j'] Hj'; simpl; [|apply Hfirst; lia].
      intros [= ->]. apply Hbx. by apply geq_antisym with mx.
Qed.
Lemma argbest_spec mx l : l ≠ [] → ∃ b, l !! argbest mx l = Some b ∧ list_best mx l = b ∧ (∀ y, y ∈ l → geq mx b y) ∧
  ∀ j, j < argbest mx l → l !! j ≠ Some b.
Proof.
  destruct l as [|x l]; [done|]. intros _. simpl. destruct (argbest_from_spec mx x 0 1 l) as [[H1 H2] H3]. set (b := foldl (best mx) x l) in *.
  exists b. split_and!.
  - destruct H3 as [[-> ->]|(j & -> & Hj & _)]; done.
  - done.
  - intros y [->|Hy]%elem_of_cons; [done|by apply H2].
  - destruct H3 as [[-> _]|(j & -> & Hj & Hbx & Hfirst)]; [lia|]. intros [|j'] Hj'; simpl; [congruence|]. apply Hfirst. lia.
Qed.
Lemma list_best_is mx l b : b ∈ l → (∀ y, y ∈ l → geq mx b y) → list_best mx l = b.
Proof.
  intros Hb H. destruct (argbest_spec mx l) as (b' & Hb' & -> & H' & _); [intros ->; by apply elem_of_nil in Hb|].
  apply (geq_antisym mx); [by apply H'|]. apply H. by eapply elem_of_list_lookup_2.
Qed.

(* ------------------------------------------------------------------ *)
(** Positions from strides. *)
Lemma ravel_insert_at k j d (s ix : list nat) : s !! k = Some d → length ix = length (delete k s) →
  ravel s (insert_at k j ix) = ravel s (insert_at k 0 ix) + j * size (drop (S k) s).
Proof.
  revert s ix. induction k as [|k IH]; intros [|e s] ix Hk Hl; simpl in *; try done.
  - unfold insert_at. simpl. rewrite !drop_0. lia.
  - destruct ix as [|i ix]; [done|]. injection Hl as Hl. unfold insert_at in *. simpl. rewrite (IH s ix Hk Hl). lia.
Qed.
Lemma foldl_min_spec (x : nat) l : foldl Nat.min x l ≤ x ∧ (∀ y, y ∈ l → foldl Nat.min x l ≤ y) ∧ (foldl Nat.min x l = x ∨ foldl Nat.min x l ∈ l).
Proof.
  revert x. induction l as [|y l IH]; intros x; simpl.
  - split_and!; [lia|intros y Hy; by apply elem_of_nil in Hy|by left].
  - destruct (IH (x `min` y)) as (H1 & H2 & H3). split_and!; [lia| |].
    + intros z [->|Hz]%elem_of_cons; [lia|by apply H2].
    + destruct H3 as [->|H3]; [|right; by right]. destruct (Nat.min_spec x y) as [[_ ->]|[_ ->]]; [by left|right; left].
Qed.
Lemma list_min_is l b : b ∈ l → (∀ y, y ∈ l → b ≤ y) → list_min l = b.
Proof.
  intros Hb H. destruct l as [|x l]; [by apply elem_of_nil in Hb|]. simpl. destruct (foldl_min_spec x l) as (H1 & H2 & H3).
  apply Nat.le_antisymm.
  - apply elem_of_cons in Hb as [->|Hb]; [done|by apply H2].
  - destruct H3 as [->|H3]; [apply H; left|apply H; by right].
Qed.
Lemma size_pos_drop (s : shp) k : 0 < size s → 0 < size (drop k s).
Proof. revert s. induction k as [|k IH]; intros [|d s] H; simpl in *; [lia|done|lia|]. apply IH. nia. Qed.
Lemma strides_min s : s ≠ [] → 0 < size s → list_min (strides s) = 1.
Proof.
  intros Hs Hp. apply list_min_is.
  - unfold strides. apply elem_of_list_fmap. exists (length s - 1). destruct s as [|d s]; [done|]. split; [|apply elem_of_seq; simpl; lia].
    rewrite drop_ge by (simpl; lia). done.
  - intros y (k & -> & _)%elem_of_list_fmap. pose proof (size_pos_drop s (S k) Hp). lia.
Qed.

(* ------------------------------------------------------------------ *)
(** The column picked in each row. *)
Definition ext_col (mx : bool) (k' : nat) (a : arr R) (i : nat) : nat :=
  nth (argbest mx (dat a <$> slice k' (sh a) i)) (slice k' (sh a) i) 0.
Lemma slice_lookup k d s i j : s !! k = Some d → j < d → slice k s i !! j = Some (ravel s (insert_at k j (unravel (delete k s) i))).
Proof. intros Hk Hj. unfold slice. rewrite (nth_of _ _ _ Hk), list_lookup_fmap, lookup_seq_lt by done. done. Qed.
Lemma slice_linear k d s i j : s !! k = Some d → j < d →
  slice k s i !! j = Some (ravel s (insert_at k 0 (unravel (delete k s) i)) + j * size (drop (S k) s)).
Proof.
  intros Hk Hj. rewrite (slice_lookup k d) by done. f_equal. apply (ravel_insert_at k j d); [done|]. apply unravel_length.
Qed.
Lemma slice_increasing k d s i j j' p p' : s !! k = Some d → 0 < size s → slice k s i !! j = Some p → slice k s i !! j' = Some p' → p ≤ p' → j ≤ j'.
Proof.
  intros Hk Hs Hj Hj' Hp. pose proof (lookup_lt_Some _ _ _ Hj) as L1. pose proof (lookup_lt_Some _ _ _ Hj') as L2.
  rewrite slice_length, (nth_of _ _ _ Hk) in L1, L2. rewrite (slice_linear k d) in Hj, Hj' by done. injection Hj as <-. injection Hj' as <-.
  pose proof (size_pos_drop s (S k) Hs). nia.
Qed.
Lemma slice_min k d s i : s !! k = Some d → 0 < d → list_min (slice k s i) = ravel s (insert_at k 0 (unravel (delete k s) i)).
Proof.
  intros Hk Hd. apply list_min_is.
  - eapply elem_of_list_lookup_2. by apply (slice_lookup k d s i 0).
  - intros y (j & Hj)%elem_of_list_lookup. pose proof (lookup_lt_Some _ _ _ Hj) as L1. rewrite slice_length, (nth_of _ _ _ Hk) in L1.
    rewrite (slice_linear k d) in Hj by done. injection Hj as <-. lia.
Qed.
Lemma ext_col_extreme mx k k' d a i : axis_is (length (sh a)) k k' → sh a !! k' = Some d → d ≠ 0 → i < size (delete k' (sh a)) →
  extreme mx a (slice k' (sh a) i) (ext_col mx k' a i) ∧ list_best mx (dat a <$> slice k' (sh a) i) = dat a (ext_col mx k' a i).
Proof.
  intros Hk Hd Hd0 Hi. set (l := slice k' (sh a) i). unfold ext_col. fold l.
  assert (Hlen : length l = d) by (unfold l; by rewrite slice_length, (nth_of _ _ _ Hd)).
  destruct (argbest_spec mx (dat a <$> l)) as (b & Hb & Hbest & Hge & Hfirst).
  { destruct l; [simpl in Hlen; lia|done]. }
  rewrite list_lookup_fmap in Hb. destruct (l !! argbest mx (dat a <$> l)) as [p|] eqn:Ep; [|done]. injection Hb as <-.
  rewrite (nth_lookup_Some _ _ 0 p Ep). split; [|done]. split; [by eapply elem_of_list_lookup_2|].
  assert (Hpos : 0 < size (sh a)) by (rewrite (size_delete _ _ _ Hd); nia).
  intros q (j & Hj)%elem_of_list_lookup. split.
  - apply (Hge (dat a q)). apply elem_of_list_fmap. exists q. split; [done|]. by eapply elem_of_list_lookup_2.
  - intros E. destruct (decide (j < argbest mx (dat a <$> l))) as [Hlt|Hge'].
    { exfalso. apply (Hfirst j Hlt). rewrite list_lookup_fmap, Hj. simpl. by rewrite E. }
    destruct (decide (p ≤ q)); [done|]. exfalso.
    pose proof (slice_increasing k' d (sh a) i j _ q p Hd Hpos Hj Ep ltac:(lia)) as H.
    assert (j = argbest mx (dat a <$> l)) as -> by lia. rewrite Hj in Ep. injection Ep as ->. lia.
Qed.
Lemma ext_jac_rows mx ax a y : ext_r mx ax a = Some y → ∃ J col,
  ext_jac mx ax a = Some J ∧ fits J (asize y) (asize a) ∧
  (∀ v i, i < asize y → mact J v i = v (col i)) ∧
  reduced ax (sh a) (sh y) ∧ ∀ i, i < asize y → ∃ l, gathers ax (sh a) i l ∧ extreme mx a l (col i) ∧ dat y i = dat a (col i) ∧
    dat y i = list_best mx (dat a <$> l).
Proof.
  intros Hy. unfold ext_jac. rewrite Hy. cbn [mbind option_bind]. unfold ext_r in Hy. apply bind_Some in Hy as (n & Hn & Hy).
  destruct (decide (n = 0)) as [|Hn0]; [done|]. destruct ax as [k|].
  - simpl in Hn, Hy. apply bind_Some in Hy as (k' & Hk' & [= <-]). rewrite Hk' in Hn. cbn [mbind option_bind] in Hn.
    pose proof (proj1 (naxis_is _ _ _) Hk') as Hk.
    unfold stride_for_axis, np_fold. cbn [sh arange]. rewrite Hk'. cbn [mbind option_bind].
    set (rest := delete k' (sh a)).
    set (JS := bop Nat.add _ _).
    assert (HsJ : sh JS = rest) by (unfold JS; apply bop_sh; apply bshape_same).
    assert (HJ : ∀ i, i < size rest → dat JS i = ext_col mx k' a i).
    { intros i Hi. unfold JS. rewrite (bop_dat _ _ _ rest) by (apply bshape_same).
      change (sh (fold_axis _ _ _)) with rest. change (sh (amap _ _)) with rest.
      rewrite (bidx_same rest i Hi). change (dat (amap ?g ?x) i) with (g (dat x i)). cbv beta. rewrite (fold_axis_dat list_min). cbn [arange dat sh].
      rewrite (fold_axis_dat (argbest mx)). rewrite list_fmap_id.
      assert (Hd0 : 0 < n) by lia. rewrite (slice_min k' n) by done.
      assert (Hpos : 0 < size (sh a)) by (rewrite (size_delete _ _ _ Hn); fold rest; nia).
      pose proof (lookup_lt_Some _ _ _ Hn) as Hlt.
      rewrite strides_min by (done || (intros E; rewrite E in Hlt; simpl in Hlt; lia)). rewrite Nat.div_1_r.
      unfold ext_col. destruct (argbest_spec mx (dat a <$> slice k' (sh a) i)) as (b & Hb & _).
      { intros E. apply (f_equal length) in E. rewrite fmap_length, slice_length, (nth_of _ _ _ Hn) in E. simpl in E. lia. }
      apply lookup_lt_Some in Hb. rewrite fmap_length, slice_length, (nth_of _ _ _ Hn) in Hb. set (j := argbest mx (dat a <$> slice k' (sh a) i)) in *.
      pose proof (slice_linear k' n (sh a) i j Hn Hb) as E. rewrite (nth_lookup_Some _ _ 0 _ E). fold rest. f_equal.
      assert (Est : nth k' (strides (sh a)) 0 = size (drop (S k') (sh a))).
      { apply nth_lookup_Some. unfold strides. rewrite list_lookup_fmap, lookup_seq_lt by done. done. }
      rewrite Est. lia. }
    assert (HszJ : asize JS = size rest) by (unfold asize; by rewrite HsJ).
    exists (coo (size rest) (asize a) (replicate (asize JS) 1%R) (seq 0 (asize JS)) (elems JS)), (ext_col mx k' a).
    assert (Hcol : ∀ i, i < size rest → ext_col mx k' a i < asize a).
    { intros i Hi. destruct (ext_col_extreme mx k k' n a i Hk Hn Hn0 Hi) as [[Hin _] _]. by apply (slice_in k' n) in Hin as [? _]. }
    split_and!; [reflexivity| | |by exists k'|].
    + split_and!; [done|done|]. apply coo_in_range; rewrite list.Forall_forall.
      * intros i Hi%elem_of_seq. lia.
      * intros j (i & -> & Hi%elem_of_seq)%elem_of_list_fmap. rewrite HJ by lia. apply Hcol. lia.
    + intros v i Hi. rewrite HszJ. rewrite mact_rows by (by rewrite ?replicate_length, ?elems_length).
      rewrite lookup_replicate_2 by done. rewrite elems_lookup by (rewrite HszJ; done). rewrite HJ by done. ring.
    + intros i Hi. exists (slice k' (sh a) i). destruct (ext_col_extreme mx k k' n a i Hk Hn Hn0 Hi) as [He Hb].
      split_and!; [by eapply slice_gathers|done| |]; rewrite (fold_axis_dat (list_best mx)); [exact Hb|done].
  - simpl in Hn, Hy. injection Hn as <-. injection Hy as <-. cbn [stride_for_axis np_fold mbind option_bind].
    set (JS := bop Nat.add _ _).
    assert (HsJ : sh JS = [1]) by done.
    set (l := seq 0 (size (sh a))).
    assert (HJ : dat JS 0 = argbest mx (dat a <$> l)) by (unfold JS; simpl; unfold elems, asize, l; lia).
    destruct (argbest_spec mx (dat a <$> l)) as (b & Hb & Hbest & Hge & Hfirst).
    { unfold l. destruct (size (sh a)); done. }
    pose proof (lookup_lt_Some _ _ _ Hb) as Hlt. rewrite fmap_length in Hlt. unfold l in Hlt. rewrite seq_length in Hlt.
    rewrite list_lookup_fmap in Hb.
    assert (El : l !! argbest mx (dat a <$> l) = Some (argbest mx (dat a <$> l))).
    { unfold l at 1. apply lookup_seq_lt. exact Hlt. }
    rewrite El in Hb. injection Hb as Hb.
    exists (coo 1 (asize a) (replicate (asize JS) 1%R) (seq 0 (asize JS)) (elems JS)), (λ _, argbest mx (dat a <$> l)).
    split_and!; [reflexivity| | |done|].
    + split_and!; [done|done|]. apply coo_in_range; rewrite list.Forall_forall.
      * intros i Hi%elem_of_seq. unfold asize in Hi. simpl in Hi. lia.
      * intros j (i & -> & Hi%elem_of_seq)%elem_of_list_fmap. assert (i = 0) as -> by (unfold asize in Hi; simpl in Hi; lia). rewrite HJ. done.
    + intros v i Hi. assert (i = 0) as -> by (unfold asize in Hi; simpl in Hi; lia). change (asize JS) with 1.
      rewrite mact_rows by done. change (elems JS) with [dat JS 0]. rewrite HJ. simpl. ring.
    + intros i Hi. exists l. split_and!; [apply all_gathers| | |done].
      * split; [unfold l; apply elem_of_seq; unfold l in Hlt; lia|]. intros q Hq. split.
        -- rewrite Hb. apply (Hge (dat a q)). apply elem_of_list_fmap. by exists q.
        -- intros E. destruct (decide (argbest mx (dat a <$> l) ≤ q)); [done|]. exfalso. apply (Hfirst q); [lia|].
           unfold l in Hq. apply elem_of_seq in Hq. rewrite list_lookup_fmap. unfold l. rewrite lookup_seq_lt by lia. simpl. by rewrite E, Hb.
      * simpl. unfold elems, asize. fold l. by rewrite Hbest, Hb.
Qed.

(* ------------------------------------------------------------------ *)
(** Differentiability where the extremum is attained once. *)
Lemma ext_r_sh mx ax a x y : ext_r mx ax a = Some y → sh x = sh a → ∃ z, ext_r mx ax x = Some z ∧ sh z = sh y.
Proof.
  unfold ext_r, np_fold. intros H Hx. rewrite Hx. destruct (fold_count ax (sh a)) as [n|]; [|done]. simpl in *.
  destruct (decide (n = 0)); [done|]. destruct ax as [k|]; [|injection H as <-; by eexists].
  destruct (naxis (length (sh a)) k); [|done]. simpl in *. injection H as <-. eexists. split; [done|]. simpl. by rewrite Hx.
Qed.
Lemma mact_rows_entry J (P : nat → Prop) (f : (nat → R) → nat → R) : (∀ v i, P i → mact J v i = f v i) → ∀ i j, P i → entry J i j = f (unit_ j) i.
Proof. intros H i j Hi. by rewrite <- mact_unit, H. Qed.
Lemma near_geq mx (f g : R → R) f' g' : derivable_pt_lim f 0%R f' → derivable_pt_lim g 0%R g' → geq mx (f 0%R) (g 0%R) → f 0%R ≠ g 0%R →
  near (λ t, geq mx (f t) (g t)).
Proof.
  intros Hf Hg Hge Hne. destruct mx; simpl in *.
  - eapply near_mono; [|apply (deriv_cont_pos (λ t, f t - g t)%R (f' - g')%R)].
    + intros t Ht. simpl in *. lra.
    + lra.
    + by apply (derivable_pt_lim_minus f g).
  - eapply near_mono; [|apply (deriv_cont_pos (λ t, g t - f t)%R (g' - f')%R)].
    + intros t Ht. simpl in *. lra.
    + lra.
    + by apply (derivable_pt_lim_minus g f).
Qed.
Lemma extreme_unique mx a l p q : extreme mx a l p → extreme mx a l q → p = q.
Proof.
  intros [Hp Hp'] [Hq Hq']. destruct (Hp' q Hq) as [H1 H2], (Hq' p Hp) as [H3 H4].
  assert (E : dat a p = dat a q) by (destruct mx; lra). specialize (H2 (eq_sym E)). specialize (H4 E). lia.
Qed.
Lemma extreme_perm mx a l l' p : l ≡ₚ l' → extreme mx a l p → extreme mx a l' p.
Proof. intros Hl [H1 H2]. split; [by rewrite <- Hl|]. intros q Hq. apply H2. by rewrite Hl. Qed.

Lemma ext_right mx ax a y : ext_r mx ax a = Some y → ∃ J, ext_jac mx ax a = Some J ∧ fits J (asize y) (asize a) ∧
  (∀ i l p q, i < asize y → gathers ax (sh a) i l → extreme mx a l p → entry J i q = if decide (q = p) then 1%R else 0%R) ∧
  (sole mx ax a → diff1 (λ x, default x (ext_r mx ax x)) J a).
Proof.
  intros Hy. destruct (ext_jac_rows mx ax a y Hy) as (J & col & HJ & Hfit & Hact & Hred & Hrow). exists J. split_and!; [done|done| |].
  - intros i l p q Hi Hl Hp. destruct (Hrow i Hi) as (l' & Hl' & Hc & _).
    pose proof (gathers_perm _ _ _ _ _ Hl' Hl) as Hperm. rewrite <- mact_unit, Hact by done. unfold unit_.
    rewrite (extreme_unique mx a l p (col i)); [|done|by eapply extreme_perm]. destruct (decide (col i = q)), (decide (q = col i)); congruence.
  - intros Hsole x v Hx Hm. apply (amoves_intro _ _ (sh y)).
    + eapply near_mono; [|exact (amoves_shape _ _ Hm)]. intros t Ht. rewrite Hx in Ht.
      destruct (ext_r_sh mx ax a (x t) y Hy Ht) as (z & -> & Hz). done.
    + intros i Hi. rewrite Hact by exact Hi. destruct (Hrow i Hi) as (l & Hl & Hc & Hv & _).
      assert (Hin : ∀ q, q ∈ l → q < asize (x 0%R)) by (rewrite Hx; intros q Hq; by apply Hl in Hq as [? _]).
      apply (deriv_near (λ t, dat (x t) (col i))); [|apply amoves_dat; [done|apply Hin, Hc]].
      assert (Hn : near (λ t, ∀ q, q ∈ l → geq mx (dat (x t) (col i)) (dat (x t) q))).
      { apply near_list. intros q Hq. destruct (decide (q = col i)) as [->|Hne].
        - apply near_always. intros t. apply geq_refl.
        - apply (near_geq mx _ _ (v (col i)) (v q)); [apply amoves_dat; [done|apply Hin, Hc]|by apply amoves_dat, Hin| |].
          + rewrite Hx. destruct Hc as [_ Hc]. destruct (Hc q Hq) as [H _]. exact H.
          + rewrite Hx. apply not_eq_sym. by apply (Hsole i l (col i) q). }
      eapply near_mono; [|exact (near_and _ _ (amoves_shape _ _ Hm) Hn)]. intros t [Ht Hg]. rewrite Hx in Ht.
      destruct (ext_r_sh mx ax a (x t) y Hy Ht) as (z & Ez & Hz). rewrite Ez. cbn [default from_option Datatypes.id].
      destruct (ext_jac_rows mx ax (x t) z Ez) as (J' & col' & _ & _ & _ & _ & Hrow').
      destruct (Hrow' i) as (l' & Hl' & _ & _ & Hbest); [unfold asize; by rewrite Hz|]. rewrite Ht in Hl'.
      pose proof (gathers_perm _ _ _ _ _ Hl' Hl) as Hperm. rewrite Hbest. symmetry. apply list_best_is.
      * apply elem_of_list_fmap. exists (col i). split; [done|]. rewrite Hperm. apply Hc.
      * intros w (q & -> & Hq)%elem_of_list_fmap. apply Hg. by rewrite <- Hperm.
    + intros i Hi. destruct Hfit as (H1 & _ & H3). apply mact_out; [done|]. rewrite H1. exact Hi.
Qed.

(* ------------------------------------------------------------------ *)
(** The larger or smaller of two. *)
Lemma keep_fun {A} (f : nat → A) (w : nat → bool) l : keep (f <$> l) (w <$> l) = f <$> filter (λ i, w i = true) l.
Proof.
  unfold keep. rewrite zip_fmap_same. induction l as [|i l IH]; [done|]. rewrite fmap_cons.
  destruct (w i) eqn:E.
  - rewrite filter_cons_True by done. rewrite (filter_cons_True (λ i, w i = true) i) by done. rewrite !fmap_cons, IH. done.
  - rewrite filter_cons_False by (simpl; congruence). rewrite (filter_cons_False (λ i, w i = true) i) by congruence. done.
Qed.
Lemma mact_picked n c (col : nat → nat) (w : nat → bool) v i :
  mact (Spm n c ((λ i, (i, col i, 1%R)) <$> filter (λ i, w i = true) (seq 0 n))) v i =
  if decide (i < n) then (if w i then v (col i) else 0%R) else 0%R.
Proof.
  rewrite mact_alt. simpl. rewrite <- list_fmap_compose. unfold compose. simpl.
  destruct (decide (i < n)) as [Hi|Hi]; [destruct (w i) eqn:E|].
  - rewrite (rsum_single _ _ i); [rewrite decide_True by done; ring|apply NoDup_filter, NoDup_seq_|apply elem_of_list_filter; split; [done|apply elem_of_seq; lia]|].
    intros k _ Hk. by rewrite decide_False.
  - apply rsum_zero. intros k [Hk _]%elem_of_list_filter. apply decide_False. intros <-. congruence.
  - apply rsum_zero. intros k [_ Hk%elem_of_seq]%elem_of_list_filter. apply decide_False. lia.
Qed.
Lemma coo_picked n c (col : nat → nat) (w : nat → bool) : 
  coo n c (replicate (length (keep (col <$> seq 0 n) (w <$> seq 0 n))) 1%R) (keep (seq 0 n) (w <$> seq 0 n)) (keep (col <$> seq 0 n) (w <$> seq 0 n)) =
  Spm n c ((λ i, (i, col i, 1%R)) <$> filter (λ i, w i = true) (seq 0 n)).
Proof.
  rewrite <- (list_fmap_id (seq 0 n)) at 3. rewrite !keep_fun. unfold coo. f_equal. rewrite fmap_length.
  induction (filter _ (seq 0 n)) as [|i l IH]; [done|]. simpl. f_equal. exact IH.
Qed.
Lemma shift_best mx x y : (best mx x y = best mx x (y - best mx 1 (-1)))%R ↔ geq mx x y.
Proof.
  destruct mx; simpl.
  - rewrite (Rmax_left 1 (-1)) by lra. unfold Rmax. destruct (Rle_dec x y), (Rle_dec x (y - 1)); lra.
  - rewrite (Rmin_right 1 (-1)) by lra. unfold Rmin. destruct (Rle_dec x y), (Rle_dec x (y - -1)); lra.
Qed.
Lemma best_comm mx x y : best mx x y = best mx y x.
Proof. destruct mx; [apply Rmax_comm|apply Rmin_comm]. Qed.
Lemma bshape_comm s1 s2 : bshape s1 s2 = bshape s2 s1.
Proof.
  unfold bshape. f_equal. generalize (reverse s1), (reverse s2). clear. induction l as [|d1 r1 IH]; intros [|d2 r2]; simpl; try done.
  rewrite IH. destruct (bsh_rev r2 r1) as [r|]; [|done]. simpl.
  destruct (decide (d1 = d2)) as [E|H1]; [rewrite decide_True by done; by rewrite E|]. rewrite (decide_False (P := d2 = d1)) by congruence.
  destruct (decide (d1 = 1)), (decide (d2 = 1)); congruence.
Qed.
Definition wins (mx : bool) (x y : R) : bool := bool_decide (best mx x y = best mx x (y - best mx 1 (-1)))%R.
Lemma wins_true mx x y : wins mx x y = true ↔ geq mx x y.
Proof. unfold wins. rewrite bool_decide_eq_true. apply shift_best. Qed.
Lemma zip_with_fmap2 {A B C D} (f : B → C → D) (g : A → B) (h : A → C) l : zip_with f (g <$> l) (h <$> l) = (λ x, f (g x) (h x)) <$> l.
Proof. induction l as [|x l IH]; [done|]. simpl. f_equal. exact IH. Qed.
Definition mine (wa : bool) (a b : arr R) (out : shp) (i : nat) : R := if wa then v1 a b out i else v2 a b out i.
Definition other (wa : bool) (a b : arr R) (out : shp) (i : nat) : R := if wa then v2 a b out i else v1 a b out i.
Lemma ext2_jac_is mx wa wb a b out : bshape (sh a) (sh b) = Some out → (wa || wb = true) → (sh a ≠ sh b → wa ≠ wb) →
  ext2_jac mx wa wb a b = Some (Spm (size out) (size (if wa then sh a else sh b))
    ((λ i, (i, wcol (sh a) (sh b) wa out i, 1%R)) <$> filter (λ i, wins mx (mine wa a b out i) (other wa a b out i) = true) (seq 0 (size out)))).
Proof.
  intros Hb Hor Hw. unfold ext2_jac. replace (negb wa && negb wb) with false by (destruct wa, wb; done).
  assert (Hset : broadcast_setup (sh a) (sh b) wa wb = (seq 0 (size out), wcol (sh a) (sh b) wa out <$> seq 0 (size out))).
  { unfold broadcast_setup. destruct (decide (sh a = sh b)) as [E|E].
    - rewrite <- E in Hb. rewrite bshape_same in Hb. injection Hb as <-. f_equal. rewrite <- (list_fmap_id (seq 0 _)) at 1.
      apply list_fmap_ext_ne. intros i Hi%elem_of_seq. unfold wcol. destruct wa; rewrite ?E, bidx_same by (rewrite <- ?E; lia); done.
    - rewrite Hb. simpl. f_equal. by apply bcols_lookup; [|apply Hw]. }
  rewrite Hset. cbv zeta. f_equal.
  assert (Hr : elems (ext2_r mx a b) = (λ i, best mx (v1 a b out i) (v2 a b out i)) <$> seq 0 (size out)) by (by apply bop_elems).
  assert (Hsz : asize (ext2_r mx a b) = size out) by (unfold asize, ext2_r; by rewrite (bop_sh _ _ _ out)).
  assert (Hc : (if wa then asize a else asize b) = size (if wa then sh a else sh b)) by (by destruct wa).
  rewrite Hsz, Hc, Hr.
  match goal with |- context [zip_with _ _ (elems ?o)] => assert (Ho : elems o = (λ i, best mx (mine wa a b out i) (other wa a b out i - best mx 1 (-1))%R) <$> seq 0 (size out)) end.
  { destruct wa; unfold ext2_r; (rewrite (bop_elems _ _ _ out); [done|]); [exact Hb|]. cbn [amap sh]. by rewrite bshape_comm. }
  rewrite Ho, zip_with_fmap2, coo_picked. do 2 f_equal. apply list_filter_iff. intros i. unfold wins.
  replace (best mx (mine wa a b out i) (other wa a b out i)) with (best mx (v1 a b out i) (v2 a b out i)); [done|].
  destruct wa; [done|]. simpl. apply best_comm.
Qed.
Lemma picked_fits n c (col : nat → nat) (w : nat → bool) : (∀ i, i < n → col i < c) →
  fits (Spm n c ((λ i, (i, col i, 1%R)) <$> filter (λ i, w i = true) (seq 0 n))) n c.
Proof.
  intros H. split_and!; [done|done|]. unfold in_range. rewrite list.Forall_forall. intros e (i & -> & [_ Hi%elem_of_seq]%elem_of_list_filter)%elem_of_list_fmap.
  simpl. split; [lia|]. apply H. lia.
Qed.
Lemma wcol_lt sa sb wa out i : bshape sa sb = Some out → i < size out → wcol sa sb wa out i < size (if wa then sa else sb).
Proof. intros Hb Hi. unfold wcol. apply bidx_lt; [|done]. destruct wa; [by eapply bshape_l|by eapply bshape_r]. Qed.

Lemma ext2_right mx a b out : bshape (sh a) (sh b) = Some out → ∃ Ja Jb,
  ext2_jac mx true false a b = Some Ja ∧ ext2_jac mx false true a b = Some Jb ∧
  fits Ja (size out) (asize a) ∧ fits Jb (size out) (asize b) ∧
  (∀ v i, i < size out → mact Ja v i = if wins mx (v1 a b out i) (v2 a b out i) then v (bidx (sh a) out i) else 0%R) ∧
  (∀ v i, i < size out → mact Jb v i = if wins mx (v2 a b out i) (v1 a b out i) then v (bidx (sh b) out i) else 0%R) ∧
  ((∀ i, i < size out → v1 a b out i ≠ v2 a b out i) → diff2 (ext2_r mx) Ja Jb a b).
Proof.
  intros Hb. rewrite (ext2_jac_is mx true false a b out Hb eq_refl ltac:(done)), (ext2_jac_is mx false true a b out Hb eq_refl ltac:(done)).
  eexists _, _. split; [reflexivity|]. split; [reflexivity|].
  match goal with |- fits ?A _ _ ∧ fits ?B _ _ ∧ _ => set (Ja := A); set (Jb := B) end.
  assert (Fa : fits Ja (size out) (asize a)) by (apply picked_fits; intros i Hi; by apply (wcol_lt (sh a) (sh b) true)).
  assert (Fb : fits Jb (size out) (asize b)) by (apply picked_fits; intros i Hi; by apply (wcol_lt (sh a) (sh b) false)).
  assert (Aa : ∀ v i, i < size out → mact Ja v i = if wins mx (v1 a b out i) (v2 a b out i) then v (bidx (sh a) out i) else 0%R).
  { intros v i Hi. unfold Ja. rewrite (mact_picked (size out) _ (wcol (sh a) (sh b) true out) (λ i, wins mx (mine true a b out i) (other true a b out i))).
    by rewrite decide_True. }
  assert (Ab : ∀ v i, i < size out → mact Jb v i = if wins mx (v2 a b out i) (v1 a b out i) then v (bidx (sh b) out i) else 0%R).
  { intros v i Hi. unfold Jb. rewrite (mact_picked (size out) _ (wcol (sh a) (sh b) false out) (λ i, wins mx (mine false a b out i) (other false a b out i))).
    by rewrite decide_True. }
  split_and!; [done|done|done|done|]. intros Hne y v z w Hy Hz Hmy Hmz.
  pose proof (curve_shape2 y z v w Hmy Hmz) as Hs. rewrite Hy, Hz in Hs.
  apply (amoves_intro _ _ out).
  - eapply near_mono; [|exact Hs]. intros t (H1 & _). unfold ext2_r. apply bop_sh. congruence.
  - intros i Hi. rewrite Aa, Ab by done.
    assert (D1 : derivable_pt_lim (λ t, dat (y t) (bidx (sh a) out i)) 0%R (v (bidx (sh a) out i))).
    { apply amoves_dat; [done|]. rewrite Hy. by apply (wcol_lt (sh a) (sh b) true). }
    assert (D2 : derivable_pt_lim (λ t, dat (z t) (bidx (sh b) out i)) 0%R (w (bidx (sh b) out i))).
    { apply amoves_dat; [done|]. rewrite Hz. by apply (wcol_lt (sh a) (sh b) false). }
    assert (Hval : near (λ t, dat (ext2_r mx (y t) (z t)) i = best mx (dat (y t) (bidx (sh a) out i)) (dat (z t) (bidx (sh b) out i)))).
    { eapply near_mono; [|exact Hs]. intros t (H1 & H2 & H3). unfold ext2_r. rewrite (bop_dat _ _ _ out) by congruence. by rewrite H2, H3. }
    specialize (Hne i Hi).
    destruct (wins mx (v1 a b out i) (v2 a b out i)) eqn:E.
    + apply wins_true in E. assert (E2 : wins mx (v2 a b out i) (v1 a b out i) = false).
      { apply not_true_is_false. rewrite wins_true. intros H. apply Hne. by apply (geq_antisym mx). }
      rewrite E2, Rplus_0_r. apply (deriv_near (λ t, dat (y t) (bidx (sh a) out i))); [|done].
      eapply near_mono; [|apply (near_and _ _ Hval (near_geq mx _ _ _ _ D1 D2 ltac:(cbv beta; by rewrite Hy, Hz) ltac:(cbv beta; by rewrite Hy, Hz)))].
      intros t [-> Hg]. destruct mx; simpl in *; [by rewrite Rmax_left|by rewrite Rmin_left].
    + assert (E2 : geq mx (v2 a b out i) (v1 a b out i)).
      { assert (H : ¬ geq mx (v1 a b out i) (v2 a b out i)) by (rewrite <- wins_true; congruence). destruct mx; simpl in *; lra. }
      rewrite (proj2 (wins_true mx _ _) E2), Rplus_0_l. apply (deriv_near (λ t, dat (z t) (bidx (sh b) out i))); [|done].
      eapply near_mono; [|apply (near_and _ _ Hval (near_geq mx _ _ _ _ D2 D1 ltac:(cbv beta; by rewrite Hy, Hz) ltac:(cbv beta; rewrite Hy, Hz; by apply not_eq_sym)))].
      intros t [-> Hg]. destruct mx; simpl in *; [by rewrite Rmax_right|by rewrite Rmin_right].
  - intros i Hi. destruct Fa as (Fa1 & _ & Fa3), Fb as (Fb1 & _ & Fb3). rewrite !mact_out by (done || lia). ring.
Qed.
Lemma ext2_same mx a : ∃ J, ext2_jac mx true true a a = Some J ∧ fits J (asize a) (asize a) ∧
  (∀ v i, i < asize a → mact J v i = v i) ∧ diff1 (λ x, ext2_r mx x x) J a.
Proof.
  pose proof (bshape_same (sh a)) as Hb. rewrite (ext2_jac_is mx true true a a (sh a) Hb eq_refl ltac:(done)).
  eexists. split; [reflexivity|]. match goal with |- fits ?A _ _ ∧ _ => set (J := A) end.
  assert (F : fits J (asize a) (asize a)) by (apply picked_fits; intros i Hi; by apply (wcol_lt (sh a) (sh a) true)).
  assert (A : ∀ v i, i < asize a → mact J v i = v i).
  { intros v i Hi. unfold J. rewrite (mact_picked (size (sh a)) _ (wcol (sh a) (sh a) true (sh a)) (λ i, wins mx (mine true a a (sh a) i) (other true a a (sh a) i))).
    rewrite decide_True by done. unfold wcol. rewrite bidx_same by done.
    rewrite (proj2 (wins_true mx _ _)); [done|]. apply geq_refl. }
  split_and!; [done|done|]. intros y v Hy Hm. apply (amoves_intro _ _ (sh a)).
  - eapply near_mono; [|exact (amoves_shape _ _ Hm)]. intros t Ht. unfold ext2_r. rewrite (bop_sh _ _ _ (sh (y t))) by apply bshape_same. congruence.
  - intros i Hi. rewrite A by done. apply (deriv_near (λ t, dat (y t) i)); [|apply amoves_dat; [done|by rewrite Hy]].
    eapply near_mono; [|exact (amoves_shape _ _ Hm)]. intros t Ht. unfold ext2_r. rewrite (bop_dat _ _ _ (sh (y t))) by apply bshape_same.
    rewrite Hy in Ht. rewrite bidx_same by (by rewrite Ht). destruct mx; simpl; [rewrite Rmax_left|rewrite Rmin_left]; lra.
  - intros i Hi. destruct F as (F1 & _ & F3). apply mact_out; [done|]. rewrite F1. exact Hi.
Qed.
(** Where the operands are equal both get the derivative 1. *)
Lemma ext2_tie mx : let a := full [1] 0%R in ∃ Ja Jb,
  ext2_jac mx true false a a = Some Ja ∧ ext2_jac mx false true a a = Some Jb ∧ 
  ¬ diff2 (ext2_r mx) Ja Jb a a.
Proof.
  intros a. destruct (ext2_right mx a a [1] eq_refl) as (Ja & Jb & HJa & HJb & _ & _ & Aa & Ab & _). exists Ja, Jb. split_and!; [done|done|].
  intros Hd. assert (Hm : amoves (λ t, full [1] t) (λ i, if decide (i = 0) then 1%R else 0%R)).
  { apply (amoves_intro _ _ [1]); [by apply near_always| |].
    - intros i Hi. simpl in Hi. rewrite decide_True by lia. apply (derivable_pt_lim_id 0%R).
    - intros i Hi. simpl in Hi. by rewrite decide_False by lia. }
  specialize (Hd (λ t, full [1] t) _ (λ t, full [1] t) _ eq_refl eq_refl Hm Hm).
  pose proof (amoves_dat _ _ 0 Hd ltac:(unfold asize; simpl; lia)) as H. cbv beta in H.
  rewrite Aa, Ab in H by (simpl; lia). rewrite !(proj2 (wins_true mx _ _)) in H by apply geq_refl.
  assert (Hb : derivable_pt_lim (λ t, dat (ext2_r mx (full [1] t) (full [1] t)) 0) 0%R 1%R).
  { apply (deriv_ext (λ t, t)); [|apply (derivable_pt_lim_id 0%R)]. intros t. unfold ext2_r. simpl. destruct mx; simpl; [rewrite Rmax_left|rewrite Rmin_left]; lra. }
  pose proof (deriv_unique _ _ _ H Hb) as E. simpl in E. lra.
Qed.

(* ------------------------------------------------------------------ *)
(** clip *)
Lemma clip_deriv lo hi x : (lo <= hi)%R → x ≠ lo → x ≠ hi →
  derivable_pt_lim (clip1 lo hi) x (if decide (clip1 lo hi x ≠ lo ∧ clip1 lo hi x ≠ hi) then 1%R else 0%R).
Proof.
  intros Hle Hl Hh.
  assert (Hcase : (x < lo ∨ hi < x ∨ (lo < x ∧ x < hi))%R) by lra.
  assert (Hloc : ∀ (f : R → R) d y, (0 < d)%R → (∀ t, (Rabs t < d)%R → f (x + t)%R = clip1 lo hi (x + t)) → derivable_pt_lim f x y → derivable_pt_lim (clip1 lo hi) x y).
  { intros f d y Hd Hf Hlim eps Heps. destruct (Hlim eps Heps) as [[e He] H]. exists (mkposreal (Rmin d e) (Rmin_pos _ _ Hd He)). simpl.
    intros h Hh0 Hhe. pose proof (Rmin_l d e). pose proof (Rmin_r d e). rewrite <- Hf by lra. rewrite <- (Rplus_0_r x) at 2.
    rewrite <- Hf by (rewrite Rabs_R0; lra). rewrite Rplus_0_r. apply H; [done|]. simpl. lra. }
  destruct Hcase as [H|[H|[H1 H2]]].
  - assert (E : clip1 lo hi x = lo) by (unfold clip1; rewrite (Rmax_right x lo) by lra; by rewrite Rmin_left).
    rewrite decide_False by (intros [? _]; done). apply (Hloc (λ _, lo) (lo - x)%R); [lra| |apply derivable_pt_lim_const].
    intros t Ht. apply Rabs_def2 in Ht. unfold clip1. rewrite (Rmax_right (x+t) lo) by lra. by rewrite Rmin_left.
  - assert (E : clip1 lo hi x = hi) by (unfold clip1; rewrite (Rmax_left x lo) by lra; rewrite Rmin_right; lra).
    rewrite decide_False by (intros [_ ?]; done). apply (Hloc (λ _, hi) (x - hi)%R); [lra| |apply derivable_pt_lim_const].
    intros t Ht. apply Rabs_def2 in Ht. unfold clip1. rewrite Rmin_right; [done|]. pose proof (Rmax_l (x+t) lo). lra.
  - assert (E : clip1 lo hi x = x) by (unfold clip1; rewrite (Rmax_left x lo) by lra; rewrite Rmin_left; lra).
    rewrite E. rewrite decide_True by done. apply (Hloc (λ x, x) (Rmin (x - lo) (hi - x))%R); [apply Rmin_pos; lra| |apply derivable_pt_lim_id].
    intros t Ht. pose proof (Rmin_l (x - lo) (hi - x)). pose proof (Rmin_r (x - lo) (hi - x)). apply Rabs_def2 in Ht.
    unfold clip1. rewrite (Rmax_left (x+t) lo) by lra. rewrite Rmin_left; lra.
Qed.
Lemma clip_jac_diag lo hi a : unary_shape (sh a) →
  clip_jac lo hi a = Some (diags (elems (amap (λ y, if decide (y ≠ lo ∧ y ≠ hi) then 1%R else 0%R) (clip_r lo hi a)))).
Proof.
  intros Hs. unfold clip_jac, clip_r, elems, asize, atleast_2d. destruct a as [s d]. simpl in *.
  destruct s as [|n s]; [done|]. destruct Hs as [Hn|[Hs Hl]]; [by rewrite decide_True|].
  pose proof (size_1 _ Hs) as H1. inversion H1; subst. rewrite decide_False by lia.
  simpl in Hl. destruct s as [|m [|? ?]]; simpl in *; [done| |lia].
  inversion H3; subst. done.
Qed.
Lemma clip_right lo hi a : (lo <= hi)%R → unary_shape (sh a) → (∀ i, i < asize a → dat a i ≠ lo ∧ dat a i ≠ hi) →
  ∃ J, clip_jac lo hi a = Some J ∧ fits J (asize a) (asize a) ∧
  (∀ i j, i < asize a → entry J i j = if decide (j = i ∧ (lo < dat a i < hi)%R) then 1%R else 0%R) ∧
  diff1 (clip_r lo hi) J a.
Proof.
  intros Hle Hs Hd. eexists. split; [by apply clip_jac_diag|]. split_and!.
  - pose proof (diags_fits (elems (amap (λ y, if decide (y ≠ lo ∧ y ≠ hi) then 1%R else 0%R) (clip_r lo hi a)))) as H. by rewrite elems_length in H.
  - intros i j Hi. destruct (Hd i Hi) as [H1 H2]. rewrite <- mact_unit, mact_diags, elems_lookup by done. simpl. unfold unit_.
    assert (Hc : (clip1 lo hi (dat a i) ≠ lo ∧ clip1 lo hi (dat a i) ≠ hi) ↔ (lo < dat a i < hi)%R).
    { unfold clip1. unfold Rmax, Rmin. destruct (Rle_dec (dat a i) lo); destruct (Rle_dec _ hi); split; try lra. }
    destruct (decide (clip1 lo hi (dat a i) ≠ lo ∧ clip1 lo hi (dat a i) ≠ hi)) as [H|H].
    + destruct (decide (i = j)) as [<-|Hne]; [rewrite decide_True by (split; [done|by apply Hc]); ring|].
      rewrite decide_False by (intros [-> _]; done). ring.
    + rewrite (decide_False (P := j = i ∧ _)) by (intros [_ ?]; by apply H, Hc). ring.
  - intros y v Hy Hm. apply (amoves_intro _ _ (sh a)).
    + eapply near_mono; [|exact (amoves_shape _ _ Hm)]. intros t Ht. simpl. congruence.
    + intros i Hi. rewrite mact_diags, elems_lookup by done. simpl. destruct (Hd i Hi) as [H1 H2].
      assert (D : derivable_pt_lim (λ t, dat (y t) i) 0%R (v i)) by (apply amoves_dat; [done|by rewrite Hy]).
      pose proof (clip_deriv lo hi (dat (y 0%R) i) Hle ltac:(by rewrite Hy) ltac:(by rewrite Hy)) as D2.
      pose proof (derivable_pt_lim_comp _ _ _ _ _ D D2) as D3. rewrite Hy in D3. exact D3.
    + intros i Hi. rewrite mact_diags. rewrite lookup_ge_None_2; [done|]. rewrite elems_length. exact Hi.
Qed.
