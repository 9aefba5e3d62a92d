(** Memory layouts: which strides give the right derivatives of extrema. *)
From Coq Require Import Reals Lra.
From stdpp Require Import list list_numbers numbers gmap.
From Verif Require Import ArrModel Curve ArrThms ElemModel ElemSpec ElemThms ReorderModel ReorderSpec ReorderThms ReorderCache RedModel RedSpec RedThms ExtThms LayModel LaySpec.

(* ------------------------------------------------------------------ *)
(** Layouts in C order. *)
Lemma contiguous_length s st : contiguous s st = true → length st = length s.
Proof.
  revert st. induction s as [|d s IH]; intros [|x st] H; simpl in *; try done. apply andb_true_iff in H as [_ H]. f_equal. by apply IH.
Qed.
Lemma contiguous_order s st : contiguous s st = true → in_order s st.
Proof.
  intros H. split; [by apply contiguous_length|]. revert st H. induction s as [|d s IH]; intros [|x st] H ix Hix; simpl in *; try done.
  inversion Hix as [|i d' ix' s' Hi Hix']; subst. apply andb_true_iff in H as [H1 H2]. rewrite (IH st H2 ix' Hix').
  apply orb_true_iff in H1 as [H1%bool_decide_eq_true|H1%bool_decide_eq_true]; subst; [assert (i = 0) as -> by lia|]; lia.
Qed.
Lemma offset_zeros st n : offset st (replicate n 0) = 0%Z.
Proof. revert st. induction n as [|n IH]; intros [|x st]; simpl; try done. rewrite IH. lia. Qed.
Lemma ravel_zeros s n : ravel s (replicate n 0) = 0.
Proof. revert s. induction n as [|n IH]; intros [|x s]; simpl; try done. Qed.
Lemma inside_zeros s : 0 < size s → inside s (replicate (length s) 0).
Proof. induction s as [|d s IH]; intros H; simpl in *; constructor; [nia|apply IH; nia]. Qed.
Lemma order_contiguous s st : 0 < size s → in_order s st → contiguous s st = true.
Proof.
  intros Hs [Hl H]. revert st Hl H. induction s as [|d s IH]; intros [|x st] Hl H; simpl in *; try done. injection Hl as Hl.
  apply andb_true_iff. split.
  - apply orb_true_iff. destruct (decide (d = 1)) as [->|Hd]; [left; by rewrite bool_decide_eq_true|right]. rewrite bool_decide_eq_true.
    assert (Hin : inside (d :: s) (1 :: replicate (length s) 0)) by (constructor; [nia|apply inside_zeros; nia]).
    specialize (H _ Hin). simpl in H. rewrite offset_zeros, ravel_zeros in H. lia.
  - apply IH; [nia|done|]. intros ix Hix. assert (Hin : inside (d :: s) (0 :: ix)) by (constructor; [nia|done]).
    specialize (H _ Hin). simpl in H. lia.
Qed.
Lemma fresh_contiguous s : contiguous s (fresh s) = true.
Proof. induction s as [|d s IH]; simpl; [done|]. rewrite IH, (bool_decide_eq_true_2 (_ = (8 * _)%Z)) by done. by rewrite orb_true_r. Qed.
Lemma fresh_spaced s : 0 < size s → spaced (fresh s).
Proof. induction s as [|d s IH]; intros H; simpl in *; constructor; [nia|apply IH; nia]. Qed.
Lemma as_c_order s st : in_order s (as_c s st).
Proof. apply contiguous_order. unfold as_c. destruct (contiguous s st) eqn:E; [done|]. apply fresh_contiguous. Qed.
Lemma as_c_keeps s st : 0 < size s → in_order s st → as_c s st = st.
Proof. intros Hs H. unfold as_c. by rewrite (order_contiguous s st Hs H). Qed.
Lemma as_c_spaced s st : 0 < size s → spaced st → spaced (as_c s st).
Proof. intros Hs H. unfold as_c. destruct (contiguous s st); [done|by apply fresh_spaced]. Qed.
Lemma as_c_copies s st : 0 < size s → ¬ in_order s st → spaced (as_c s st).
Proof.
  intros Hs H. unfold as_c. destruct (contiguous s st) eqn:E; [|by apply fresh_spaced]. exfalso. by apply H, contiguous_order.
Qed.
Lemma permuted_spaced ax st : Forall (λ k, k < length st) ax → spaced st → spaced (permuted 0%Z ax st).
Proof.
  intros Hax Hst. unfold spaced, permuted. apply Forall_fmap. eapply list.Forall_impl; [exact Hax|]. intros k Hk. simpl.
  destruct (lookup_lt_is_Some_2 _ _ Hk) as [x Hx]. rewrite (nth_lookup_Some _ _ 0%Z _ Hx). by eapply Forall_lookup_1 in Hx.
Qed.

(** The strides of views are those of the elements they show. *)
Lemma rotated_views k s st : length st = length s → ∃ base, ∀ ix jx, comes_from (Rot90 k) s ix jx → offset st jx = (base + offset (rotated k st) ix)%Z.
Proof.
  intros Hl. destruct s as [|n0 [|n1 t]]; [exists 0%Z; intros ix jx (i & j & i' & j' & rest & ? & ? & ? & E & _); done..|].
  destruct st as [|x [|y st]]; try done.
  exists (match (k mod 4)%Z with 0%Z => 0 | 1%Z => (Z.of_nat n1 - 1) * y | 2%Z => (Z.of_nat n0 - 1) * x + (Z.of_nat n1 - 1) * y | _ => (Z.of_nat n0 - 1) * x end)%Z.
  intros ix jx (i & j & i' & j' & rest & m0 & m1 & t' & [= <- <- <-] & -> & -> & H0 & H1 & H2 & H3). simpl.
  pose proof (Z.mod_pos_bound k 4 ltac:(lia)) as Hb. assert (k mod 4 = 0 ∨ k mod 4 = 1 ∨ k mod 4 = 2 ∨ k mod 4 = 3)%Z as [E|[E|[E|E]]] by lia;
    rewrite E; simpl.
  - destruct (H0 E) as [-> ->]. lia.
  - destruct (H1 E) as [-> <-]. lia.
  - destruct (H2 E) as [<- <-]. lia.
  - destruct (H3 E) as [-> <-]. lia.
Qed.
Definition zsum (l : list Z) : Z := foldr Z.add 0%Z l.
Lemma zsum_perm l l' : l ≡ₚ l' → zsum l = zsum l'.
Proof. induction 1; simpl in *; lia. Qed.
Lemma offset_sum st ix : length st = length ix → offset st ix = zsum ((λ k, nth k st 0 * Z.of_nat (nth k ix 0%nat))%Z <$> seq 0 (length st)).
Proof.
  revert ix. induction st as [|x st IH]; intros [|i ix] H; try done. injection H as H. simpl. f_equal. rewrite (IH ix H).
  change (list_fmap ?A ?B ?f ?l) with (f <$> l). rewrite <- fmap_S_seq, <- list_fmap_compose. done.
Qed.
Lemma permuted_views ax st ix jx : ax ≡ₚ seq 0 (length st) → length jx = length st → length ix = length ax →
  (∀ i k, ax !! i = Some k → ix !! i = jx !! k) → offset (permuted 0%Z ax st) ix = offset st jx.
Proof.
  intros Hax Hj Hi H. rewrite (offset_sum st jx) by done. rewrite offset_sum by (unfold permuted; by rewrite fmap_length).
  unfold permuted. rewrite fmap_length. rewrite <- (zsum_perm _ _ (fmap_Permutation _ _ _ Hax)). f_equal.
  apply list_eq. intros i. rewrite !list_lookup_fmap. destruct (decide (i < length ax)) as [Hlt|Hge].
  - rewrite lookup_seq_lt by done. destruct (lookup_lt_is_Some_2 _ _ Hlt) as [k Hk]. rewrite Hk. simpl. f_equal.
    rewrite (nth_lookup_Some ((λ k, nth k st 0%Z) <$> ax) i 0%Z (nth k st 0%Z)) by (by rewrite list_lookup_fmap, Hk).
    do 2 f_equal. rewrite !nth_lookup. by rewrite (H i k Hk).
  - rewrite lookup_seq_ge, lookup_ge_None_2 by lia. done.
Qed.

(* ------------------------------------------------------------------ *)
(** The strides the derivative uses. *)
Lemma contiguous_at s st k d : contiguous s st = true → s !! k = Some d → d ≠ 1 → st !! k = Some (8 * Z.of_nat (size (drop (S k) s)))%Z.
Proof.
  revert st k. induction s as [|e s IH]; intros [|x st] k H Hk Hd; simpl in *; try done. apply andb_true_iff in H as [H1 H2].
  destruct k as [|k]; simpl in *; [|by apply IH]. injection Hk as ->. apply orb_true_iff in H1 as [H1%bool_decide_eq_true|H1%bool_decide_eq_true]; [done|].
  by rewrite H1, drop_0.
Qed.
Lemma contiguous_has s st : contiguous s st = true → 0 < size s → size s ≠ 1 → 8%Z ∈ st.
Proof.
  revert st. induction s as [|d s IH]; intros [|x st] H Hp Hs; simpl in *; try done. apply andb_true_iff in H as [H1 H2].
  destruct (decide (size s = 1)) as [E|E]; [|right; apply IH; [done|nia|done]]. rewrite E in *.
  apply orb_true_iff in H1 as [H1%bool_decide_eq_true|H1%bool_decide_eq_true]; [lia|]. rewrite H1. left.
Qed.
Lemma foldl_zmin x l b : (∀ y, y ∈ x :: l → b ≤ y)%Z → (b ≤ foldl Z.min x l)%Z ∧ (foldl Z.min x l ≤ x)%Z ∧ ∀ y, y ∈ l → (foldl Z.min x l ≤ y)%Z.
Proof.
  revert x. induction l as [|y l IH]; intros x H; simpl.
  - split_and!; [apply H; left|lia|]. by intros y ?%elem_of_nil.
  - destruct (IH (Z.min x y)) as (H1 & H2 & H3).
    + intros z [->|Hz]%elem_of_cons; [|apply H; right; by right].
      pose proof (H x ltac:(left)). pose proof (H y ltac:(right; left)). lia.
    + split_and!; [done|lia|]. intros z [->|Hz]%elem_of_cons; [lia|by apply H3].
Qed.
Lemma zmin_pos st : spaced st → st ≠ [] → (8 ≤ zmin st)%Z.
Proof. intros H Hne. destruct st as [|x st]; [done|]. apply foldl_zmin. by apply list.Forall_forall. Qed.
Lemma zmin_is st : spaced st → 8%Z ∈ st → zmin st = 8%Z.
Proof.
  intros H H8. destruct st as [|x st]; [by apply elem_of_nil in H8|]. unfold zmin.
  destruct (foldl_zmin x st 8) as (H1 & H2 & H3); [by apply list.Forall_forall|]. apply elem_of_cons in H8 as [H8|H8]; [lia|]. specialize (H3 _ H8). lia.
Qed.
Lemma round_exact z d : (0 < d)%Z → round_quot (z * d) d = z.
Proof.
  intros Hd. unfold round_quot. rewrite bool_decide_eq_false_2 by lia. rewrite Z.div_mul, Z.mod_mul by lia.
  replace (2 * 0 ?= d)%Z with Lt by (symmetry; apply Z.compare_lt_iff; lia). done.
Qed.
Lemma column_is num den q m j : (0 < den)%Z → (num * Z.of_nat j = Z.of_nat (q * j) * den)%Z → (Z.of_nat (m + q * j) < 4294967296)%Z →
  column num den m j = Some (m + q * j).
Proof.
  intros Hd Hn Hm. unfold column. rewrite bool_decide_eq_false_2 by lia.
  replace (Z.of_nat m * den + num * Z.of_nat j)%Z with (Z.of_nat (m + q * j) * den)%Z by lia. rewrite round_exact by done.
  rewrite bool_decide_eq_true_2 by lia. f_equal. lia.
Qed.
Lemma coo_cols r c n JS : in_range (coo r c (replicate n 1%R) (seq 0 n) JS) → length JS = n → Forall (λ j, j < c) JS.
Proof.
  unfold in_range. simpl. intros H Hn. apply Forall_lookup. intros i j Hj. rewrite Forall_lookup in H.
  pose proof (lookup_lt_Some _ _ _ Hj). specialize (H i (i, j, 1%R)). apply H. apply lookup_zip_with_Some. exists (i, j), 1%R.
  split_and!; [done| |apply lookup_replicate_2; lia]. apply lookup_zip_with_Some. exists i, j. split_and!; [done|apply lookup_seq_lt; lia|done].
Qed.
Lemma mapM_some {A} (l : list A) : mapM Datatypes.id (Some <$> l) = Some l.
Proof. induction l as [|x l IH]; [done|]. simpl. change (list_fmap _ _ Some l) with (Some <$> l). by rewrite IH. Qed.
Lemma argbest_lt mx l : l ≠ [] → argbest mx l < length l.
Proof. intros H. destruct (argbest_spec mx l H) as (b & Hb & _). by eapply lookup_lt_Some. Qed.

(* ------------------------------------------------------------------ *)
Lemma same_jac st mx ax a y J : in_order (sh a) st → spaced st → 0 < asize a → (Z.of_nat (asize a) ≤ 4294967296)%Z →
  ext_r mx ax a = Some y → asize y * asize a ≠ 1 → ext_jac mx ax a = Some J → fits J (asize y) (asize a) → ext_jac_at st mx ax a = Some J.
Proof.
  intros Hst Hsp Hpos Hbig Hy Hone HJ Hfit. pose proof (order_contiguous _ _ Hpos Hst) as Hc.
  unfold ext_jac in HJ. unfold ext_jac_at. rewrite Hy in HJ |- *. cbn [mbind option_bind] in HJ |- *.
  assert (Hgen : ∀ mn argf num den q, Some J = (let JS := bop Nat.add mn (amap (λ i, q * i) argf) in
      Some (coo (asize y) (asize a) (replicate (asize JS) 1%R) (seq 0 (asize JS)) (elems JS))) →
      (0 < den)%Z → (∀ i, i < size (default [] (bshape (sh mn) (sh argf))) → (num * Z.of_nat (dat argf (bidx (sh argf) (default [] (bshape (sh mn) (sh argf))) i)) =
        Z.of_nat (q * dat argf (bidx (sh argf) (default [] (bshape (sh mn) (sh argf))) i)) * den)%Z) →
      (JS ← mapM Datatypes.id (elems (bop (column num den) mn argf));
       if decide (Forall (λ j, j < asize a) JS) then Some (coo (asize y) (asize a) (replicate (length JS) 1%R) (seq 0 (length JS)) JS) else None) = Some J).
  { intros mn argf num den q [= HJ'] Hden Hnum. set (JS := bop Nat.add _ _) in *. destruct Hfit as (_ & _ & Hr). rewrite HJ' in Hr.
    apply coo_cols in Hr; [|by rewrite elems_length].
    assert (E : elems (bop (column num den) mn argf) = Some <$> elems JS).
    { unfold elems. rewrite <- list_fmap_compose. change (asize (bop (column num den) mn argf)) with (asize JS).
      apply list_fmap_ext. intros k i Hk. apply lookup_seq in Hk as [-> Hk]. simpl in *.
      rewrite Forall_lookup in Hr. specialize (Hr k _ (elems_lookup JS k Hk)). simpl in Hr. apply column_is; [done|by apply Hnum|lia]. }
    rewrite E, mapM_some. cbn [mbind option_bind]. rewrite decide_True by done. by rewrite HJ', elems_length. }
  unfold ext_r in Hy. apply bind_Some in Hy as (n & Hn & Hy). destruct (decide (n = 0)) as [|Hn0]; [done|].
  destruct ax as [k|].
  - simpl in Hn, Hy. apply bind_Some in Hy as (k' & Hk' & [= <-]). rewrite Hk' in Hn. cbn [mbind option_bind] in Hn.
    unfold stride_for_axis, np_fold in HJ. cbn [sh arange] in HJ. rewrite Hk' in HJ. cbn [mbind option_bind] in HJ.
    unfold stride_at, np_fold. cbn [sh arange]. rewrite Hk'. cbn [mbind option_bind]. rewrite decide_False by done.
    apply (Hgen _ _ _ _ _ (eq_sym HJ)).
    + pose proof (zmin_pos st Hsp) as Hz. assert (st ≠ []); [|by specialize (Hz H); lia]. destruct Hst as [Hl _]. intros ->.
      apply lookup_lt_Some in Hn. simpl in Hl. lia.
    + intros i Hi. pose proof (lookup_lt_Some _ _ _ Hn) as Hlt.
      rewrite strides_min by (done || (intros E; rewrite E in Hlt; simpl in Hlt; lia)). rewrite Nat.div_1_r.
      assert (Est : nth k' (strides (sh a)) 0 = size (drop (S k') (sh a))).
      { apply nth_lookup_Some. unfold strides. rewrite list_lookup_fmap, lookup_seq_lt by done. done. }
      rewrite Est. set (w := bidx _ _ i). assert (Hj : dat (fold_axis (argbest mx) k' a) w < n).
      { rewrite (fold_axis_dat (argbest mx)). eapply Nat.lt_le_trans; [apply argbest_lt|].
        - intros E. apply (f_equal length) in E. rewrite fmap_length, slice_length, (nth_of _ _ _ Hn) in E. simpl in E. lia.
        - by rewrite fmap_length, slice_length, (nth_of _ _ _ Hn). }
      destruct (decide (n = 1)) as [->|Hn1].
      { assert (dat (fold_axis (argbest mx) k' a) w = 0) as -> by lia. lia. }
      rewrite (nth_lookup_Some _ _ 0%Z _ (contiguous_at _ _ _ _ Hc Hn Hn1)).
      assert (Hs1 : size (sh a) ≠ 1). { rewrite (size_delete _ _ _ Hn). intros E%Nat.eq_mul_1. lia. }
      rewrite (zmin_is st Hsp) by (by apply (contiguous_has (sh a))). lia.
  - simpl in Hy. injection Hy as <-. cbn [stride_for_axis np_fold mbind option_bind] in HJ. cbn [stride_at np_fold mbind option_bind].
    rewrite decide_False by done. apply (Hgen _ _ _ _ _ (eq_sym HJ)); [lia|]. intros i Hi. lia.
Qed.
Lemma at_right st mx ax a y : in_order (sh a) st → spaced st → 0 < asize a → (Z.of_nat (asize a) ≤ 4294967296)%Z → ext_r mx ax a = Some y →
  ∃ J, ext_jac_at st mx ax a = Some J ∧ fits J (asize y) (asize a) ∧
  (∀ i l p q, i < asize y → gathers ax (sh a) i l → extreme mx a l p → entry J i q = if decide (q = p) then 1%R else 0%R) ∧
  (sole mx ax a → diff1 (λ x, default x (ext_r mx ax x)) J a).
Proof.
  intros Hst Hsp Hpos Hbig Hy. destruct (ext_right mx ax a y Hy) as (J & HJ & Hfit & Hent & Hd).
  destruct (decide (asize y * asize a = 1)) as [E|E]; [|exists J; split_and!; [by eapply same_jac|done..]].
  apply Nat.eq_mul_1 in E as [Ey Ea]. exists (dense 1 1 (λ _ _, 1%R)). split_and!.
  - unfold ext_jac in HJ. unfold ext_jac_at. rewrite Hy in HJ |- *. cbn [mbind option_bind] in HJ |- *.
    destruct ax as [k|]; cbn [stride_for_axis stride_at np_fold mbind option_bind] in HJ |- *.
    + cbn [sh arange] in HJ |- *. destruct (naxis (length (sh a)) k); [|done]. cbn [mbind option_bind]. rewrite decide_True by lia. done.
    + rewrite decide_True by lia. done.
  - rewrite Ey, Ea. split_and!; [done|done|apply dense_range].
  - intros i l p q Hi Hl Hp. assert (p = 0) as ->. { destruct Hp as [Hp _]. apply Hl in Hp as [Hp _]. unfold asize in Ea. lia. }
    rewrite <- mact_unit, mact_dense. rewrite decide_True by lia. simpl. unfold unit_. destruct (decide (0 = q)), (decide (q = 0)); try lia; ring.
  - intros Hs. specialize (Hd Hs). intros x v Hx Hm. eapply amoves_ext; [|apply (Hd x v Hx Hm)]. intros i. cbv beta. rewrite mact_dense.
    destruct (ext_jac_rows mx ax a y Hy) as (J' & col & HJ' & _ & Hact & _ & Hrow). rewrite HJ in HJ'. injection HJ' as <-.
    destruct (decide (i < 1)) as [Hi|Hi].
    + rewrite Hact by lia. destruct (Hrow i ltac:(lia)) as (l & Hl & [Hc _] & _). apply Hl in Hc as [Hc _]. unfold asize in Ea.
      assert (col i = 0) as -> by lia. simpl. ring.
    + destruct Hfit as (Hr & _ & Hin). apply mact_out; [done|lia].
Qed.

(* ------------------------------------------------------------------ *)
(** Layouts that go wrong. *)
Lemma zmin_zero st : 0%Z ∈ st → Forall (λ x, (0 ≤ x)%Z) st → zmin st = 0%Z.
Proof.
  intros H0 H. destruct st as [|x st]; [by apply elem_of_nil in H0|]. unfold zmin.
  destruct (foldl_zmin x st 0) as (H1 & H2 & H3); [by apply list.Forall_forall|]. apply elem_of_cons in H0 as [H0|H0]; [lia|]. specialize (H3 _ H0). lia.
Qed.
Lemma zmin_zero_none st mx k a y : zmin st = 0%Z → ext_r mx (Some k) a = Some y → asize y ≠ 0 → asize a ≠ 1 → ext_jac_at st mx (Some k) a = None.
Proof.
  intros Hz Hy Hy0 Ha. unfold ext_jac_at. rewrite Hy. cbn [mbind option_bind]. unfold ext_r in Hy. apply bind_Some in Hy as (n & Hn & Hy).
  destruct (decide (n = 0)); [done|]. simpl in Hy. apply bind_Some in Hy as (k' & Hk' & [= <-]).
  unfold stride_at, np_fold. cbn [sh arange]. rewrite Hk'. cbn [mbind option_bind]. rewrite decide_False by (intros E%Nat.eq_mul_1; tauto).
  rewrite Hz. set (l := elems _). assert (Hl : None ∈ l).
  { unfold l. apply elem_of_list_lookup. exists 0. rewrite elems_lookup; [done|].
    unfold asize. rewrite (bop_sh _ _ _ (delete k' (sh a))) by (apply bshape_same). unfold asize in Hy0. simpl in Hy0. lia. }
  assert (E : mapM Datatypes.id l = None); [|by rewrite E]. apply mapM_None. apply Exists_exists. by exists None.
Qed.
Lemma newaxis_contiguous k s st : k ≤ length s → contiguous s st = true → contiguous (take k s ++ 1 :: drop k s) (newaxis k st) = true.
Proof.
  unfold newaxis. revert s st. induction k as [|k IH]; intros s st Hk H; simpl.
  - rewrite !drop_0. by rewrite H.
  - destruct s as [|d s]; [simpl in Hk; lia|]. destruct st as [|x st]; [done|]. simpl in *. apply andb_true_iff in H as [H1 H2].
    rewrite IH by (done || lia). rewrite andb_true_r. replace (size (take k s ++ 1 :: drop k s)) with (size s); [done|].
    rewrite <- (take_drop k s) at 1. rewrite !size_app. simpl. lia.
Qed.
Lemma newaxis_none k s mx ax a y : k ≤ length s → 1 < size s → sh a = take k s ++ 1 :: drop k s → ext_r mx (Some ax) a = Some y → asize y ≠ 0 →
  in_order (sh a) (newaxis k (fresh s)) ∧ ext_jac_at (newaxis k (fresh s)) mx (Some ax) a = None.
Proof.
  intros Hk Hs Ha Hy Hy0. split.
  - rewrite Ha. apply contiguous_order, newaxis_contiguous; [done|apply fresh_contiguous].
  - eapply zmin_zero_none; [|done|done|].
    + apply zmin_zero; [unfold newaxis; apply elem_of_app; right; left|]. pose proof (fresh_spaced s ltac:(lia)) as H. unfold spaced in H.
      rewrite <- (take_drop k (fresh s)) in H. apply Forall_app in H as [H1 H2]. unfold newaxis. apply Forall_app. split; [|constructor; [done|]];
      (eapply list.Forall_impl; [eassumption|]); simpl; lia.
    + unfold asize. rewrite Ha, size_app. simpl. rewrite <- (take_drop k s), size_app in Hs. lia.
Qed.

(* ------------------------------------------------------------------ *)
Definition row3 (x y z : R) : arr R := of_list 0%R [1; 3] [x; y; z].
Definition col3 (x y z : R) : arr R := of_list 0%R [3; 1] [x; y; z].
Lemma col3_gathers : gathers (Some 0%Z) [3; 1] 0 [0; 1; 2].
Proof.
  split; [apply (NoDup_seq 0 3)|]. intros p. split.
  - intros Hp. apply (elem_of_seq 0 3 p) in Hp. split; [simpl; lia|]. exists 0. split; [split; simpl; lia|].
    do 3 (destruct p as [|p]; [done|]). lia.
  - intros [Hp _]. apply (elem_of_seq 0 3 p). simpl in Hp. lia.
Qed.
Lemma arg_152 : argbest true [1; 5; 2]%R = 1.
Proof. simpl. rewrite (bool_decide_eq_true_2 (1 < 5)%R) by lra. rewrite (bool_decide_eq_false_2 (5 < 2)%R) by lra. done. Qed.
Lemma arg_125 : argbest true [1; 2; 5]%R = 2.
Proof. simpl. rewrite (bool_decide_eq_true_2 (1 < 2)%R) by lra. rewrite (bool_decide_eq_true_2 (2 < 5)%R) by lra. done. Qed.
Lemma rot_value x y z : ∃ b, reorder 0%R (Rot90 3) (row3 x y z) = Some b ∧ sh b = [3; 1] ∧ dat b <$> [0; 1; 2] = [x; y; z].
Proof. eexists. split; [reflexivity|]. done. Qed.
Lemma rot_layout : as_c [3; 1] (rotated 3 (fresh [1; 3])) = [8; -24]%Z.
Proof. done. Qed.
Lemma col3_jac st b : sh b = [3; 1] → ext_jac_at st true (Some 0%Z) b =
  (JS ← mapM Datatypes.id [column (nth 0 st 0%Z) (zmin st) 0 (argbest true (dat b <$> [0; 1; 2]))];
   if decide (Forall (λ j, j < 3) JS) then Some (coo 1 3 (replicate (length JS) 1%R) (seq 0 (length JS)) JS) else None).
Proof. destruct b as [s f]. simpl. intros ->. reflexivity. Qed.
Lemma rot_wrong : ∃ x b y J, reorder 0%R (Rot90 3) x = Some b ∧ ext_r true (Some 0%Z) b = Some y ∧
  ext_jac_at (as_c (sh b) (rotated 3 (fresh (sh x)))) true (Some 0%Z) b = Some J ∧ asize y = 1 ∧
  ∃ l p, gathers (Some 0%Z) (sh b) 0 l ∧ extreme true b l p ∧ sole true (Some 0%Z) b ∧ entry J 0 p = 0%R.
Proof.
  destruct (rot_value 1 5 2) as (b & Hb & Hsh & Hd). exists (row3 1 5 2), b.
  assert (Hext : ∃ y, ext_r true (Some 0%Z) b = Some y ∧ asize y = 1).
  { destruct b as [s f]. simpl in Hsh. subst s. eexists. split; [reflexivity|done]. }
  destruct Hext as (y & Hy & Hy1). exists y, (coo 1 3 [1%R] [0] [0]). split_and!; [done|done| |done|].
  - change (sh (row3 1 5 2)) with [1; 3]. rewrite col3_jac by done. rewrite Hsh, rot_layout, Hd, arg_152. reflexivity.
  - assert (He : extreme true b [0; 1; 2] 1).
    { injection Hd as H0 H1 H2. split; [set_solver|]. intros q Hq. assert (q = 0 ∨ q = 1 ∨ q = 2) as [->|[->| ->]] by set_solver; rewrite ?H0, ?H1, ?H2; split; intros; lra || lia. }
    exists [0; 1; 2], 1. rewrite Hsh. split_and!; [apply col3_gathers|done| |].
    + intros i l p q Hl Hp Hq Hqp. rewrite Hsh in Hl.
      assert (i = 0) as ->.
      { destruct Hp as [Hp _]. apply Hl in Hp as [Hp (a & Ha & E)]. destruct Ha as [Ha1 Ha2]. simpl in *. assert (a = 0) as -> by lia.
        injection E as E. change (0 = i / 1) in E. by rewrite Nat.div_1_r in E. }
      pose proof (gathers_perm _ _ _ _ _ Hl col3_gathers) as Hperm. rewrite (extreme_unique true b [0; 1; 2] p 1 ltac:(by eapply extreme_perm) He) in *.
      rewrite Hperm in Hq. injection Hd as H0 H1 H2. assert (q = 0 ∨ q = 1 ∨ q = 2) as [->|[->| ->]] by set_solver; rewrite ?H0, ?H1, ?H2; lra || done.
    + done.
Qed.
Lemma rot_raises : ∃ x b y, reorder 0%R (Rot90 3) x = Some b ∧ ext_r true (Some 0%Z) b = Some y ∧
  ext_jac_at (as_c (sh b) (rotated 3 (fresh (sh x)))) true (Some 0%Z) b = None.
Proof.
  destruct (rot_value 1 2 5) as (b & Hb & Hsh & Hd). exists (row3 1 2 5), b.
  assert (Hext : ∃ y, ext_r true (Some 0%Z) b = Some y).
  { destruct b as [s f]. simpl in Hsh. subst s. eexists. reflexivity. }
  destruct Hext as (y & Hy). exists y. split_and!; [done|done|].
  change (sh (row3 1 2 5)) with [1; 3]. rewrite col3_jac by done. rewrite Hsh, rot_layout, Hd, arg_125. reflexivity.
Qed.
Lemma right_case : let a := row3 1 5 2 in let st := permuted 0%Z [1; 0] (fresh [3; 1]) in
  in_order (sh a) st ∧ spaced st ∧ st ≠ fresh (sh a) ∧ 0 < asize a ∧ (Z.of_nat (asize a) ≤ 4294967296)%Z ∧ ∃ y, ext_r true (Some 1%Z) a = Some y.
Proof.
  split_and!.
  - by apply contiguous_order.
  - apply permuted_spaced; [|apply fresh_spaced; simpl; lia]. repeat (constructor; [simpl; lia|]). constructor.
  - done.
  - simpl. unfold asize. simpl. lia.
  - unfold asize. simpl. lia.
  - eexists. reflexivity.
Qed.
Lemma newaxis_case : let a := row3 1 5 2 in 0 ≤ length [3] ∧ 1 < size [3] ∧ sh a = take 0 [3] ++ 1 :: drop 0 [3] ∧ newaxis 0 (fresh [3]) = [0; 8]%Z ∧
  ∃ y, ext_r true (Some 1%Z) a = Some y ∧ asize y ≠ 0.
Proof. split_and!; [simpl; lia|simpl; lia|done|done|]. eexists. split; [reflexivity|done]. Qed.
