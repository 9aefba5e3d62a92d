(** Proofs about the reorderings. *)
From Coq Require Import Reals Lra.
From stdpp Require Import list list_numbers numbers gmap sorting.
From Verif Require Import ArrModel Curve ArrThms ElemModel ElemSpec ElemThms ReorderModel ReorderSpec.

(* ------------------------------------------------------------------ *)
Lemma inside_iff s ix : inside s ix ↔ length ix = length s ∧ ∀ a i d, ix !! a = Some i → s !! a = Some d → i < d.
Proof.
  unfold inside. split.
  - intros H. split; [exact (Forall2_length _ _ _ H)|]. intros a i d Hi Hd. by eapply Forall2_lookup_lr.
  - intros [Hl H]. apply Forall2_same_length_lookup. split; [done|]. intros a i d. by apply H.
Qed.
Lemma inside_len s ix : inside s ix → length ix = length s.
Proof. intros H. apply (proj1 (inside_iff s ix)) in H. apply H. Qed.
Lemma inside_at s ix a i d : inside s ix → ix !! a = Some i → s !! a = Some d → i < d.
Proof. intros H. apply (proj1 (inside_iff s ix)) in H. destruct H as [_ H]. apply H. Qed.

Lemma naxis_is n k a : naxis n k = Some a ↔ axis_is n k a.
Proof.
  unfold naxis, axis_is. destruct (decide _) as [H|H].
  - split.
    + intros [= <-]. destruct (Z.lt_ge_cases k 0).
      * assert (E : (k mod Z.of_nat n = k + Z.of_nat n)%Z).
        { rewrite <- (Z.mod_add k 1) by lia. rewrite Z.mod_small by lia. lia. }
        rewrite E. lia.
      * rewrite Z.mod_small by lia. lia.
    + intros [Ha Hk]. f_equal. apply Nat2Z.inj. rewrite Z2Nat.id by (apply Z.mod_pos_bound; lia).
      destruct Hk as [<-|E]; [apply Z.mod_small; lia|].
      assert (k = Z.of_nat a + (-1) * Z.of_nat n)%Z as -> by lia. rewrite Z.mod_add by lia. apply Z.mod_small. lia.
  - split; [done|]. intros [Ha Hk]. lia.
Qed.
Lemma axis_is_unique n k a b : axis_is n k a → axis_is n k b → a = b.
Proof. intros Ha%naxis_is Hb%naxis_is. congruence. Qed.

Lemma pos_lookup ax i a : NoDup ax → ax !! i = Some a → pos a ax = i.
Proof.
  intros Hnd Hi. unfold pos. destruct (list_find (eq a) ax) as [[j b]|] eqn:E.
  - apply list_find_Some in E as (Hj & -> & _). by eapply NoDup_lookup.
  - eapply list_find_None in E. rewrite list.Forall_forall in E. apply elem_of_list_lookup_2 in Hi. by destruct (E a Hi).
Qed.
Lemma all_axes n ax : NoDup ax → length ax = n → (∀ a, a ∈ ax → a < n) → ∀ a, a < n → a ∈ ax.
Proof.
  intros Hnd Hl Hlt a Ha.
  assert (Hp : ax ≡ₚ seq 0 n).
  { apply submseteq_Permutation_length_eq; [by rewrite seq_length, Hl|].
    apply NoDup_submseteq; [done|]. intros x Hx. apply elem_of_seq. specialize (Hlt x Hx). lia. }
  rewrite Hp. apply elem_of_seq. lia.
Qed.

Lemma permute_axes_spec s ax ix : NoDup ax → length ax = length s → (∀ a, a ∈ ax → a < length s) →
  inside (permute_axes s ax).1 ix →
  (∀ i a, ax !! i = Some a → (permute_axes s ax).1 !! i = s !! a) ∧
  ∃ jx, (permute_axes s ax).2 ix = Some jx ∧ inside s jx ∧ ∀ i a, ax !! i = Some a → ix !! i = jx !! a.
Proof.
  intros Hnd Hl Hlt Hin. simpl in *.
  assert (Hsh : ∀ i a, ax !! i = Some a → ((λ k, nth k s 0) <$> ax) !! i = s !! a).
  { intros i a Hi. rewrite list_lookup_fmap, Hi. simpl. symmetry. rewrite nth_lookup.
    destruct (lookup_lt_is_Some_2 s a) as [d ->]; [apply Hlt; by eapply elem_of_list_lookup_2|done]. }
  split; [done|]. eexists. split; [done|].
  assert (Hix : ∀ i a, ax !! i = Some a → ix !! i = ((λ k, nth (pos k ax) ix 0) <$> seq 0 (length s)) !! a).
  { intros i a Hi. rewrite list_lookup_fmap, lookup_seq_lt by (apply Hlt; by eapply elem_of_list_lookup_2).
    simpl. rewrite (pos_lookup ax i a Hnd Hi), nth_lookup.
    destruct (lookup_lt_is_Some_2 ix i) as [d ->]; [|done]. apply inside_len in Hin. rewrite Hin, fmap_length.
    by eapply lookup_lt_Some. }
  split; [|done]. apply inside_iff. split; [by rewrite fmap_length, seq_length|].
  intros a j d Hj Hd. assert (Ha : a ∈ ax) by (apply (all_axes (length s)); [done..|by eapply lookup_lt_Some]).
  apply elem_of_list_lookup in Ha as [i Hi]. rewrite <- (Hix i a Hi) in Hj. rewrite <- (Hsh i a Hi) in Hd. by eapply inside_at.
Qed.
Lemma permute_axes_shape s ax i a : ax !! i = Some a → (∀ a, a ∈ ax → a < length s) → (permute_axes s ax).1 !! i = s !! a.
Proof.
  intros Hi Hlt. simpl. rewrite list_lookup_fmap, Hi. simpl. symmetry. rewrite nth_lookup.
  destruct (lookup_lt_is_Some_2 s a) as [d ->]; [apply Hlt; by eapply elem_of_list_lookup_2|done].
Qed.

(* ------------------------------------------------------------------ *)
(** Each plan does what is asked. *)
Definition plan_good (r : rop) (s : shp) (p : plan) : Prop :=
  shape_rule r s p.1 ∧ ∀ ix, inside p.1 ix →
    match p.2 ix with
    | Some jx => inside s jx ∧ comes_from r s ix jx
    | None => fills r s ∧ ∀ jx, inside s jx → ¬ comes_from r s ix jx
    end.

Lemma reverse_seq_lookup n i : i < n → reverse (seq 0 n) !! i = Some (n - 1 - i).
Proof.
  intros H. rewrite reverse_lookup by (rewrite seq_length; lia). rewrite seq_length, lookup_seq_lt by lia. f_equal. lia.
Qed.
Lemma rev_by_lookup (l k : list nat) n : length l = n → length k = n → (∀ i, i < n → l !! i = k !! (n - 1 - i)) → k = reverse l.
Proof.
  intros Hl Hk H. apply list_eq. intros i. destruct (decide (i < n)).
  - rewrite reverse_lookup by lia. rewrite Hl, H by lia. f_equal. lia.
  - rewrite !lookup_ge_None_2; [done|rewrite reverse_length; lia|lia].
Qed.

Lemma transpose_rev_good s : plan_good (Transpose None) s (permute_axes s (reverse (seq 0 (length s)))).
Proof.
  set (ax := reverse (seq 0 (length s))).
  assert (Hnd : NoDup ax) by (unfold ax; rewrite reverse_Permutation; apply NoDup_seq_).
  assert (Hl : length ax = length s) by (unfold ax; by rewrite reverse_length, seq_length).
  assert (Hlt : ∀ a, a ∈ ax → a < length s) by (intros a; unfold ax; rewrite elem_of_reverse, elem_of_seq; lia).
  split.
  - split; [simpl; by rewrite fmap_length|]. simpl. apply (rev_by_lookup _ _ (length s)); [by rewrite fmap_length|done|].
    intros i Hi. apply (permute_axes_shape s ax); [by apply reverse_seq_lookup|done].
  - intros ix Hin. destruct (permute_axes_spec s ax ix Hnd Hl Hlt Hin) as (_ & jx & -> & Hjx & Hm). split; [done|].
    simpl. apply (rev_by_lookup _ _ (length s)); [rewrite (inside_len _ _ Hin); simpl; by rewrite fmap_length|by apply inside_len|].
    intros i Hi. apply Hm. by apply reverse_seq_lookup.
Qed.

Lemma mapM_lookup {A B} (f : A → option B) l k : mapM f l = Some k →
  length l = length k ∧ ∀ i x, l !! i = Some x → ∃ y, k !! i = Some y ∧ f x = Some y.
Proof.
  intros H. apply mapM_Some in H. split; [exact (Forall2_length _ _ _ H)|]. intros i x Hi.
  destruct (Forall2_lookup_l _ _ _ _ _ H Hi) as (y & Hy & E). eauto.
Qed.
Lemma transpose_good s l ax : mapM (naxis (length s)) l = Some ax → length ax = length s → NoDup ax →
  plan_good (Transpose (Some l)) s (permute_axes s ax).
Proof.
  intros Hm Hl Hnd. destruct (mapM_lookup _ _ _ Hm) as [Hll Hax].
  assert (Hlt : ∀ a, a ∈ ax → a < length s).
  { intros a [i Hi]%elem_of_list_lookup. destruct (lookup_lt_is_Some_2 l i) as [x Hx]; [rewrite Hll; by eapply lookup_lt_Some|].
    destruct (Hax i x Hx) as (y & Hy & E). rewrite Hi in Hy. injection Hy as <-. apply naxis_is in E. apply E. }
  split.
  - split; [simpl; by rewrite fmap_length|]. intros i k Hi. destruct (Hax i k Hi) as (a & Ha & E%naxis_is). exists a. split; [done|].
    by apply permute_axes_shape.
  - intros ix Hin. destruct (permute_axes_spec s ax ix Hnd Hl Hlt Hin) as (_ & jx & -> & Hjx & Hmm). split; [done|].
    intros i k Hi. destruct (Hax i k Hi) as (a & Ha & E%naxis_is). exists a. split; [done|]. by apply Hmm.
Qed.

Lemma swap_axes_facts n a1 a2 : a1 < n → a2 < n → let ax := <[a1 := a2]> (<[a2 := a1]> (seq 0 n)) in
  NoDup ax ∧ length ax = n ∧ (∀ a, a ∈ ax → a < n) ∧ ax !! a1 = Some a2 ∧ ax !! a2 = Some a1 ∧
  ∀ a, a < n → a ≠ a1 → a ≠ a2 → ax !! a = Some a.
Proof.
  intros H1 H2 ax.
  assert (L1 : ax !! a1 = Some a2) by (apply list_lookup_insert; rewrite insert_length, seq_length; lia).
  assert (L2 : ax !! a2 = Some a1).
  { destruct (decide (a1 = a2)) as [->|Hne]; [done|]. unfold ax. rewrite list_lookup_insert_ne by done.
    apply list_lookup_insert. rewrite seq_length. lia. }
  assert (L3 : ∀ a, a < n → a ≠ a1 → a ≠ a2 → ax !! a = Some a).
  { intros a Ha Hn1 Hn2. unfold ax. rewrite !list_lookup_insert_ne by done. by rewrite lookup_seq_lt by lia. }
  assert (Hl : length ax = n) by (unfold ax; by rewrite !insert_length, seq_length).
  assert (Hall : ∀ i a, ax !! i = Some a → (i = a1 ∧ a = a2) ∨ (i = a2 ∧ a = a1) ∨ (i ≠ a1 ∧ i ≠ a2 ∧ a = i ∧ i < n)).
  { intros i a Hi. assert (i < n) by (rewrite <- Hl; by eapply lookup_lt_Some).
    destruct (decide (i = a1)) as [->|]; [left; split; [done|congruence]|].
    destruct (decide (i = a2)) as [->|]; [right; left; split; [done|congruence]|].
    right; right. rewrite L3 in Hi by done. split_and!; [done|done|congruence|done]. }
  split_and!; [|done| |done..].
  - apply NoDup_alt. intros i j a Hi Hj. apply Hall in Hi. apply Hall in Hj. lia.
  - intros a [i Hi]%elem_of_list_lookup. apply Hall in Hi. lia.
Qed.
Lemma swapaxes_good s k1 k2 a1 a2 : axis_is (length s) k1 a1 → axis_is (length s) k2 a2 →
  plan_good (Swapaxes k1 k2) s (permute_axes s (<[a1 := a2]> (<[a2 := a1]> (seq 0 (length s))))).
Proof.
  intros Ha1 Ha2. destruct (swap_axes_facts (length s) a1 a2) as (Hnd & Hl & Hlt & L1 & L2 & L3); [apply Ha1|apply Ha2|].
  set (ax := <[a1 := a2]> (<[a2 := a1]> (seq 0 (length s)))) in *.
  split.
  - split; [simpl; by rewrite fmap_length|]. exists a1, a2. split_and!; [done|done|by apply permute_axes_shape..|].
    intros a H1 H2. destruct (decide (a < length s)).
    + apply permute_axes_shape; [by apply L3|done].
    + rewrite !lookup_ge_None_2; [done|lia|simpl; rewrite fmap_length; lia].
  - intros ix Hin. destruct (permute_axes_spec s ax ix Hnd Hl Hlt Hin) as (_ & jx & -> & Hjx & Hmm). split; [done|].
    exists a1, a2. split_and!; [done|done|by apply Hmm..|].
    intros a H1 H2. destruct (decide (a < length s)).
    + apply Hmm. by apply L3.
    + apply inside_len in Hjx. apply inside_len in Hin. rewrite !lookup_ge_None_2; [done|lia|].
      rewrite Hin. simpl. rewrite fmap_length. lia.
Qed.

(** rollaxis *)
Lemma rolled_axes_facts n a b : a < n → b < n → let rest := delete a (seq 0 n) in let ax := take b rest ++ a :: drop b rest in
  NoDup ax ∧ length ax = n ∧ (∀ x, x ∈ ax → x < n) ∧ ax !! b = Some a ∧ delete b ax = rest.
Proof.
  intros Ha Hb rest ax.
  assert (Hr : length rest = n - 1) by (unfold rest; rewrite length_delete, seq_length; [done|apply lookup_lt_is_Some_2; by rewrite seq_length]).
  assert (Hp : ax ≡ₚ seq 0 n).
  { unfold ax. rewrite <- Permutation_middle, take_drop. unfold rest. symmetry. apply delete_Permutation. by rewrite lookup_seq_lt. }
  assert (Hl : length (take b rest) = b) by (rewrite take_length; lia).
  split_and!.
  - rewrite Hp. apply NoDup_seq_.
  - rewrite (Permutation_length Hp). by rewrite seq_length.
  - intros x. rewrite Hp, elem_of_seq. lia.
  - unfold ax. rewrite lookup_app_r by lia. by rewrite Hl, Nat.sub_diag.
  - unfold ax. rewrite <- Hl at 1. rewrite delete_middle. apply take_drop.
Qed.
Lemma delete_by_lookup (l k : list nat) (ax : list nat) a b n : length l = n → length k = n → length ax = n → ax !! b = Some a →
  delete b ax = delete a (seq 0 n) → (∀ i x, ax !! i = Some x → l !! i = k !! x) → a < n → b < n → delete b l = delete a k.
Proof.
  intros Hl Hk Hax Hb Hd H Ha Hbn. apply list_eq. intros i.
  assert (Hx : delete b ax !! i = delete a (seq 0 n) !! i) by by rewrite Hd.
  destruct (decide (i < n - 1)) as [Hi|Hi].
  - destruct (decide (i < b)) as [Hib|Hib]; destruct (decide (i < a)) as [Hia|Hia];
      first [rewrite (lookup_delete_lt l b i) by lia|rewrite (lookup_delete_ge l b i) by lia];
      first [rewrite (lookup_delete_lt k a i) by lia|rewrite (lookup_delete_ge k a i) by lia];
      first [rewrite (lookup_delete_lt ax b i) in Hx by lia|rewrite (lookup_delete_ge ax b i) in Hx by lia];
      first [rewrite (lookup_delete_lt _ a i) in Hx by lia|rewrite (lookup_delete_ge _ a i) in Hx by lia];
      rewrite lookup_seq_lt in Hx by lia; by apply H.
  - rewrite !lookup_ge_None_2; [done| |];
    (rewrite length_delete by (apply lookup_lt_is_Some_2; lia)); lia.
Qed.
Lemma rollaxis_good s k st a b : axis_is (length s) k a → before_axis (length s) st a b → b < length s →
  let rest := delete a (seq 0 (length s)) in
  plan_good (Rollaxis k st) s (permute_axes s (take b rest ++ a :: drop b rest)).
Proof.
  intros Ha Hb Hbn rest. destruct (rolled_axes_facts (length s) a b) as (Hnd & Hl & Hlt & L1 & L2); [apply Ha|done|].
  fold rest in Hnd, Hl, Hlt, L1, L2. set (ax := take b rest ++ a :: drop b rest) in *.
  split.
  - split; [simpl; by rewrite fmap_length|]. exists a, b. split_and!; [done|done|by apply permute_axes_shape|].
    apply (delete_by_lookup _ _ ax a b (length s)); [simpl; by rewrite fmap_length|done|done|done|done| |apply Ha|done].
    intros i x Hi. by apply permute_axes_shape.
  - intros ix Hin. destruct (permute_axes_spec s ax ix Hnd Hl Hlt Hin) as (_ & jx & -> & Hjx & Hmm). split; [done|].
    exists a, b. split_and!; [done|done|by apply Hmm|].
    apply (delete_by_lookup _ _ ax a b (length s)); [rewrite (inside_len _ _ Hin); simpl; by rewrite fmap_length|by apply inside_len|done|done|done|done|apply Ha|done].
Qed.

(** roll *)
Lemma rolled_spec n h i : 0 < n → rolled n h i < n ∧ ∃ c, (Z.of_nat i = Z.of_nat (rolled n h i) + h + c * Z.of_nat n)%Z.
Proof.
  intros Hn. unfold rolled. pose proof (Z.mod_pos_bound (Z.of_nat i - h) (Z.of_nat n) ltac:(lia)) as Hb. split; [lia|].
  exists ((Z.of_nat i - h) / Z.of_nat n)%Z. rewrite Z2Nat.id by lia.
  pose proof (Z.div_mod (Z.of_nat i - h) (Z.of_nat n) ltac:(lia)). lia.
Qed.
Lemma roll_flat_good s h : plan_good (Roll h None) s (s, λ ix, Some (unravel s (rolled (size s) h (ravel s ix)))).
Proof.
  split; [done|]. intros ix Hin. cbn [fst snd] in *. pose proof (ravel_lt s ix Hin) as Hlt.
  destruct (rolled_spec (size s) h (ravel s ix)) as [H1 [c Hc]]; [lia|].
  split; [by apply unravel_inside|]. exists c. rewrite ravel_unravel by done. exact Hc.
Qed.
Lemma alter_same_but (f : nat → nat) a (ix : list nat) : same_but a ix (alter f a ix).
Proof. split; [by rewrite alter_length|]. intros b Hb. by rewrite list_lookup_alter_ne by done. Qed.
Lemma alter_inside (s : shp) (f : nat → nat) (a : nat) (ix : list nat) (d : nat) (s' : shp) : inside s' ix → length s' = length s → (∀ b, b ≠ a → s' !! b = s !! b) → s !! a = Some d →
  (∀ i, ix !! a = Some i → f i < d) → inside s (alter f a ix).
Proof.
  intros Hin Hl Hs Hd Hf. apply inside_iff. split; [rewrite alter_length, <- Hl; by apply inside_len|].
  intros b j e Hj He. destruct (decide (b = a)) as [->|Hb].
  - rewrite list_lookup_alter in Hj. destruct (ix !! a) as [i|] eqn:Ei; [|done]. simpl in Hj. injection Hj as <-.
    rewrite Hd in He. injection He as <-. by apply Hf.
  - rewrite list_lookup_alter_ne in Hj by done. rewrite <- Hs in He by done. by eapply inside_at.
Qed.
Lemma axis_dim (s : shp) k a : axis_is (length s) k a → ∃ d, s !! a = Some d.
Proof. intros [H _]. by apply lookup_lt_is_Some_2. Qed.
Lemma nth_of (l : list nat) a d : l !! a = Some d → nth a l 0 = d.
Proof. intros H. by rewrite nth_lookup, H. Qed.
Lemma inside_some (s ix : list nat) (a d : nat) : inside s ix → s !! a = Some d → ∃ i, ix !! a = Some i ∧ i < d.
Proof.
  intros Hin Hd. destruct (lookup_lt_is_Some_2 ix a) as [i Hi].
  { rewrite (inside_len _ _ Hin). by eapply lookup_lt_Some. }
  exists i. split; [done|]. by eapply inside_at.
Qed.
Lemma roll_axis_good s h k a : axis_is (length s) k a →
  plan_good (Roll h (Some k)) s (s, λ ix, Some (alter (rolled (nth a s 0) h) a ix)).
Proof.
  intros Ha. split; [done|]. intros ix Hin. cbn [fst snd] in *. destruct (axis_dim s k a Ha) as [d Hd].
  rewrite (nth_of _ _ _ Hd). destruct (inside_some s ix a d Hin Hd) as (i & Hi & Hid).
  destruct (rolled_spec d h i) as [H1 [c Hc]]; [lia|]. split.
  - apply (alter_inside s _ a ix d s); [done..|]. intros i' Hi'. rewrite Hi in Hi'. by injection Hi' as <-.
  - exists a, i, (rolled d h i), d, c. split_and!; [done|apply alter_same_but|done| |done|done].
    by rewrite list_lookup_alter, Hi.
Qed.

(** repeat *)
Lemma repeat_flat_good s m : plan_good (Repeat m None) s ([size s * m], λ ix, Some (unravel s (nth 0 ix 0 / m))).
Proof.
  split; [done|]. intros ix Hin. cbn [fst snd] in *. pose proof (inside_len _ _ Hin) as Hl.
  destruct ix as [|i [|]]; try done. apply Forall2_cons in Hin as [Hi _]. simpl nth.
  assert (m ≠ 0) by lia. assert (i / m < size s) by (apply Nat.div_lt_upper_bound; lia).
  split; [by apply unravel_inside|]. exists (i mod m). rewrite ravel_unravel by done. split; [|by apply Nat.mod_upper_bound].
  f_equal. rewrite Nat.mul_comm. by apply Nat.div_mod.
Qed.
Lemma repeat_axis_good s m k a : axis_is (length s) k a →
  plan_good (Repeat m (Some k)) s (alter (Nat.mul m) a s, λ ix, Some (alter (λ i, i / m) a ix)).
Proof.
  intros Ha. destruct (axis_dim s k a Ha) as [d Hd]. split.
  - exists a, d. split_and!; [done| |done|].
    + split; [cbn [fst]; by rewrite alter_length|]. intros b Hb. simpl. by rewrite list_lookup_alter_ne by done.
    + simpl. rewrite list_lookup_alter, Hd. simpl. f_equal. lia.
  - intros ix Hin. cbn [fst snd] in *.
    destruct (inside_some _ ix a (m * d) Hin) as (i & Hi & Hid); [by rewrite list_lookup_alter, Hd|].
    assert (m ≠ 0) by lia. split.
    + apply (alter_inside s _ a ix d (alter (Nat.mul m) a s)); [done|by rewrite alter_length| |done|].
      * intros b Hb. by rewrite list_lookup_alter_ne by done.
      * intros i' Hi'. rewrite Hi in Hi'. injection Hi' as <-. by apply Nat.div_lt_upper_bound.
    + exists a, (i / m), (i mod m). split_and!; [done|apply alter_same_but|by rewrite list_lookup_alter, Hi| |by apply Nat.mod_upper_bound].
      rewrite Hi. f_equal. rewrite Nat.mul_comm. by apply Nat.div_mod.
Qed.

(** diag *)
Lemma on_diag_spec k i j m : on_diag k [i; j] = Some m ↔ i = m + Z.to_nat (- k) ∧ j = m + Z.to_nat k.
Proof. simpl. destruct (decide _) as [H|H]; split; [intros [= <-]; lia|intros [-> ->]; f_equal; lia|done|lia]. Qed.
Lemma on_diag_range k i j m n : on_diag k [i; j] = Some m → i < n + Z.abs_nat k → j < n + Z.abs_nat k → m < n.
Proof. intros [-> ->]%on_diag_spec. lia. Qed.
Lemma on_diag_none k i j n : on_diag k [i; j] = None → i < n + Z.abs_nat k → j < n + Z.abs_nat k → k ≠ 0%Z ∨ 1 < n.
Proof. simpl. destruct (decide _); [done|]. lia. Qed.
Lemma diag_build_good m k : let d := m + Z.abs_nat k in plan_good (Diag k) [m] ([d; d], λ ix, i ← on_diag k ix; Some [i]).
Proof.
  intros d. split; [done|]. intros ix Hin. cbn [fst snd] in *. pose proof (inside_len _ _ Hin) as Hl.
  destruct ix as [|i [|j [|]]]; try done. apply Forall2_cons in Hin as [Hi Hin]. apply Forall2_cons in Hin as [Hj _].
  destruct (on_diag k [i; j]) as [x|] eqn:E; cbn [mbind option_bind].
  - split.
    + constructor; [by eapply on_diag_range|constructor].
    + exists x. apply on_diag_spec in E as [-> ->]. done.
  - split.
    + split; [done|]. simpl size. rewrite Nat.mul_1_r. by eapply on_diag_none.
    + intros jx Hjx (x & -> & [= -> ->]).
      assert (on_diag k [x + Z.to_nat (- k); x + Z.to_nat k] = Some x) by by apply on_diag_spec. congruence.
Qed.
Lemma diag_take_good p q k : let up := Z.to_nat k in let down := Z.to_nat (- k) in
  plan_good (Diag k) [p; q] ([(p - down) `min` (q - up)], λ ix, Some [nth 0 ix 0 + down; nth 0 ix 0 + up]).
Proof.
  intros up down. split.
  - exists p, q. eexists. split_and!; [done|done|]. unfold up, down. lia.
  - intros ix Hin. cbn [fst snd] in *. pose proof (inside_len _ _ Hin) as Hl.
    destruct ix as [|i [|]]; try done. apply Forall2_cons in Hin as [Hi _]. simpl nth. split.
    + constructor; [lia|]. constructor; [lia|constructor].
    + by exists i.
Qed.
Lemma diagflat_good s k : let d := size s + Z.abs_nat k in plan_good (DiagFlat k) s ([d; d], λ ix, i ← on_diag k ix; Some (unravel s i)).
Proof.
  intros d. split; [done|]. intros ix Hin. cbn [fst snd] in *. pose proof (inside_len _ _ Hin) as Hl.
  destruct ix as [|i [|j [|]]]; try done. apply Forall2_cons in Hin as [Hi Hin]. apply Forall2_cons in Hin as [Hj _].
  destruct (on_diag k [i; j]) as [x|] eqn:E; cbn [mbind option_bind].
  - assert (Hx : x < size s) by by eapply on_diag_range. split; [by apply unravel_inside|].
    apply on_diag_spec in E as [-> ->]. simpl. by rewrite ravel_unravel.
  - split; [by eapply on_diag_none|]. intros jx Hjx E'. simpl in E'. injection E' as -> ->.
    assert (on_diag k [ravel s jx + Z.to_nat (- k); ravel s jx + Z.to_nat k] = Some (ravel s jx)) by by apply on_diag_spec. congruence.
Qed.

(** rot90 *)
Lemma swap2_spec n0 n1 t : permute_axes (n0 :: n1 :: t) (1 :: 0 :: seq 2 (length t)) =
  (n1 :: n0 :: t, λ ix, Some ((λ k, nth (pos k (1 :: 0 :: seq 2 (length t))) ix 0) <$> seq 0 (length (n0 :: n1 :: t)))).
Proof.
  unfold permute_axes. f_equal. rewrite !fmap_cons. simpl nth at 1. simpl nth at 1. f_equal. f_equal.
  apply list_eq. intros i. rewrite list_lookup_fmap. destruct (decide (i < length t)) as [Hi|Hi].
  - rewrite lookup_seq_lt by done. simpl. rewrite nth_lookup. destruct (lookup_lt_is_Some_2 t i Hi) as [d ->]. done.
  - rewrite lookup_seq_ge by lia. rewrite lookup_ge_None_2 by lia. done.
Qed.
Lemma swap2_index n0 n1 t i j rest : length rest = length t →
  (permute_axes (n0 :: n1 :: t) (1 :: 0 :: seq 2 (length t))).2 (i :: j :: rest) = Some (j :: i :: rest).
Proof.
  intros Hl. simpl. f_equal. f_equal. f_equal. apply list_eq. intros k. rewrite list_lookup_fmap.
  destruct (decide (k < length t)) as [Hk|Hk].
  - rewrite lookup_seq_lt by done. simpl. 
    rewrite (pos_lookup (1 :: 0 :: seq 2 (length t)) (S (S k)) (S (S k))).
    + rewrite nth_lookup. destruct (lookup_lt_is_Some_2 rest k) as [d ->]; [lia|]. done.
    + repeat constructor; [rewrite elem_of_cons, elem_of_seq; lia|rewrite elem_of_seq; lia|apply NoDup_seq_].
    + simpl. rewrite lookup_seq_lt by done. done.
  - rewrite lookup_seq_ge by lia. rewrite lookup_ge_None_2 by lia. done.
Qed.
Lemma rot90_good n0 n1 t k p : plan_of (Rot90 k) (n0 :: n1 :: t) = Some p → plan_good (Rot90 k) (n0 :: n1 :: t) p.
Proof.
  unfold plan_of. replace (length (n0 :: n1 :: t) - 2) with (length t) by (simpl; lia).
  pose proof (Z.mod_pos_bound k 4 ltac:(lia)) as Hb.
  assert (Hk2 : (k mod 2 = (k mod 4) mod 2)%Z).
  { rewrite (Z.div_mod k 4) at 1 by lia. rewrite Z.add_comm.
    replace (4 * (k / 4))%Z with ((2 * (k / 4)) * 2)%Z by lia. by rewrite Z.mod_add by lia. }
  destruct (decide (k mod 4 = 0)%Z) as [E|E0]; [|destruct (decide (k mod 4 = 1)%Z) as [E|E1]; [|destruct (decide (k mod 4 = 2)%Z) as [E|E2]; [|assert (E : (k mod 4 = 3)%Z) by lia]]];
    intros Hp; apply (inj Some) in Hp; subst p; (split;
    [exists n0, n1, t; split; [done|]; first [rewrite decide_True by (rewrite Hk2, E; done)|rewrite decide_False by (rewrite Hk2, E; done)]; unfold then_, flip_axis; cbn [fst snd]; try rewrite swap2_spec; cbn [fst snd]; done|]);
    intros ix Hin; unfold then_ in *; cbn [fst snd] in *.
  - split; [done|]. pose proof (inside_len _ _ Hin) as Hl. destruct ix as [|i [|j rest]]; try done.
    exists i, j, i, j, rest, n0, n1, t. split_and!; try done; intros E'; rewrite E in E'; done.
  - rewrite swap2_spec in Hin. cbn [fst] in Hin. pose proof (inside_len _ _ Hin) as Hl. destruct ix as [|i [|j rest]]; try done.
    rewrite swap2_index by (simpl in Hl; lia). simpl. apply Forall2_cons in Hin as [Hi Hin]. apply Forall2_cons in Hin as [Hj Hin]. split.
    + constructor; [done|]. constructor; [lia|done].
    + exists i, j, j, (n1 - 1 - i), rest, n0, n1, t. split_and!; try done; intros E'; rewrite E in E'; try done. lia.
  - pose proof (inside_len _ _ Hin) as Hl. destruct ix as [|i [|j rest]]; try done. simpl.
    apply Forall2_cons in Hin as [Hi Hin]. apply Forall2_cons in Hin as [Hj Hin]. split.
    + constructor; [lia|]. constructor; [lia|done].
    + exists i, j, (n0 - 1 - i), (n1 - 1 - j), rest, n0, n1, t. split_and!; try done; intros E'; rewrite E in E'; try done. lia.
  - rewrite swap2_spec in Hin. unfold flip_axis in *. cbn [fst snd] in *. rewrite swap2_spec. cbn [fst] in *.
    pose proof (inside_len _ _ Hin) as Hl. destruct ix as [|i [|j rest]]; try done. cbn [alter list_alter].
    cbn [mbind option_bind]. change (nth 1 (n1 :: n0 :: t) 0) with n0.
    rewrite <- swap2_spec, swap2_index by (simpl in Hl; lia).
    apply Forall2_cons in Hin as [Hi Hin]. apply Forall2_cons in Hin as [Hj Hin]. split.
    + constructor; [lia|]. constructor; [lia|done].
    + exists i, j, (n0 - 1 - j), i, rest, n0, n1, t. split_and!; try done; intros E'; rewrite E in E'; try done. lia.
Qed.

(** tile *)
Lemma reverse_zip {A B C} (f : A → B → C) l k : length l = length k → reverse (zip_with f l k) = zip_with f (reverse l) (reverse k).
Proof.
  revert k. induction l as [|x l IH]; intros [|y k] H; try done. cbn [zip_with]. rewrite !reverse_cons.
  rewrite IH by (simpl in H; lia). rewrite zip_with_app by (rewrite !reverse_length; simpl in H; lia). done.
Qed.
Lemma nth_zip_mul l k i : length l = length k → nth i (zip_with Nat.mul l k) 1 = nth i l 1 * nth i k 1.
Proof. revert k i. induction l as [|x l IH]; intros [|y k] [|i] H; try done. simpl. apply IH. simpl in H. lia. Qed.
Lemma nth_ones n i : nth i (replicate n 1) 1 = 1.
Proof. revert i. induction n; intros [|i]; simpl; auto. Qed.
Lemma dim_pad d s k : dim (pad1 d s) k = dim s k.
Proof.
  unfold dim, pad1. rewrite reverse_app, reverse_replicate.
  destruct (decide (k < length s)).
  - rewrite app_nth1; [done|]. by rewrite reverse_length.
  - rewrite app_nth2 by (rewrite reverse_length; lia). rewrite nth_ones. symmetry. apply nth_overflow. rewrite reverse_length. lia.
Qed.
Lemma pad1_length d s : length s ≤ d → length (pad1 d s) = d.
Proof. intros H. unfold pad1. rewrite app_length, replicate_length. lia. Qed.
Lemma pad1_lookup d s b : length s ≤ d → pad1 d s !! (d - length s + b) = s !! b.
Proof.
  intros H. unfold pad1. rewrite lookup_app_r by (rewrite replicate_length; lia). f_equal. rewrite replicate_length. lia.
Qed.
Lemma tile_good s reps : let d := length reps `max` length s in
  plan_good (Tile reps) s (zip_with Nat.mul (pad1 d s) (pad1 d reps),
    λ ix, Some (drop (d - length s) (zip_with Nat.modulo ix (pad1 d s)))).
Proof.
  intros d. assert (Ls : length (pad1 d s) = d) by (apply pad1_length; lia).
  assert (Lr : length (pad1 d reps) = d) by (apply pad1_length; lia).
  assert (Lo : length (zip_with Nat.mul (pad1 d s) (pad1 d reps)) = d) by (rewrite zip_with_length; lia).
  split.
  - cbn [fst]. split; [done|]. intros k. rewrite <- (dim_pad d s), <- (dim_pad d reps). unfold dim.
    rewrite reverse_zip by lia. apply nth_zip_mul. rewrite !reverse_length. lia.
  - intros ix Hin. cbn [fst snd] in *. pose proof (inside_len _ _ Hin) as Hl. rewrite Lo in Hl.
    assert (Hat : ∀ b j, drop (d - length s) (zip_with Nat.modulo ix (pad1 d s)) !! b = Some j →
      ∃ i e, ix !! (d - length s + b) = Some i ∧ s !! b = Some e ∧ j = i mod e ∧ e ≠ 0).
    { intros b j. rewrite lookup_drop, lookup_zip_with_Some. intros (i & e & -> & Hi & He).
      exists i, e. rewrite pad1_lookup in He by lia. split_and!; [done|done|done|].
      assert (He' : pad1 d s !! (d - length s + b) = Some e) by (by rewrite pad1_lookup by lia).
      destruct (lookup_lt_is_Some_2 (pad1 d reps) (d - length s + b)) as [q Hq].
      { apply lookup_lt_Some in He'. lia. }
      assert (i < e * q).
      { eapply inside_at; [exact Hin|exact Hi|]. apply lookup_zip_with_Some. eauto. }
      intros ->. lia. }
    split.
    + apply inside_iff. split; [rewrite drop_length, zip_with_length; lia|].
      intros b j e Hj He. apply Hat in Hj as (i & e' & _ & He' & -> & Hne). rewrite He in He'. injection He' as <-.
      by apply Nat.mod_upper_bound.
    + intros b j e Hj He. apply Hat in Hj as (i & e' & Hi & He' & -> & Hne). rewrite He in He'. injection He' as <-.
      exists (i / e). rewrite Hl, Hi. f_equal. rewrite Nat.add_comm, Nat.mul_comm. by apply Nat.div_mod.
Qed.

(* ------------------------------------------------------------------ *)
Lemma plan_of_good r s p : plan_of r s = Some p → plan_good r s p.
Proof.
  destruct r as [[l|]|k st|k1 k2|h [k|]|k|reps|m [k|]|k|k]; intros H; cbn [plan_of] in H.
  - apply bind_Some in H as (ax & Hax & H). destruct (decide _) as [[Hl Hnd]|]; [|done]. injection H as <-. by apply transpose_good.
  - injection H as <-. apply transpose_rev_good.
  - apply bind_Some in H as (a & Ha & H). apply naxis_is in Ha.
    set (st' := if decide (st < 0)%Z then (st + Z.of_nat (length s))%Z else st) in *.
    destruct (decide (0 ≤ st' < Z.of_nat (length s) + 1)%Z) as [Hst|]; [|done].
    set (b := if decide (a < Z.to_nat st') then Z.to_nat st' - 1 else Z.to_nat st') in *.
    apply (inj Some) in H. subst p. pose proof Ha as [Han _]. apply rollaxis_good; [done| |].
    + exists (Z.to_nat st'). split_and!; [lia| |].
      * unfold st' in *. destruct (decide (st < 0)%Z); [right|left]; lia.
      * unfold b. destruct (decide (a < Z.to_nat st')); lia.
    + unfold b. destruct (decide (a < Z.to_nat st')); lia.
  - apply bind_Some in H as (a1 & H1 & H). apply bind_Some in H as (a2 & H2 & H). injection H as <-.
    apply swapaxes_good; by apply naxis_is.
  - apply bind_Some in H as (a & Ha & H). injection H as <-. apply roll_axis_good. by apply naxis_is.
  - injection H as <-. apply roll_flat_good.
  - destruct s as [|n0 [|n1 t]]; try done. by apply rot90_good.
  - injection H as <-. apply tile_good.
  - apply bind_Some in H as (a & Ha & H). injection H as <-. apply repeat_axis_good. by apply naxis_is.
  - injection H as <-. apply repeat_flat_good.
  - destruct s as [|m [|q [|]]]; try done; injection H as <-; [apply diag_build_good|apply diag_take_good].
  - injection H as <-. apply diagflat_good.
Qed.

(** Values. *)
Lemma moved_at {T} (z : T) p a ix : inside p.1 ix → at_ (moved z p a) ix = match p.2 ix with Some jx => at_ a jx | None => z end.
Proof. intros H. unfold at_ at 1. simpl. by rewrite unravel_ravel. Qed.
Lemma reorder_value {T} (z : T) r a b : reorder z r a = Some b →
  shape_rule r (sh a) (sh b) ∧ ∀ ix, inside (sh b) ix →
    (∃ jx, inside (sh a) jx ∧ comes_from r (sh a) ix jx ∧ at_ b ix = at_ a jx) ∨
    (fills r (sh a) ∧ (∀ jx, inside (sh a) jx → ¬ comes_from r (sh a) ix jx) ∧ at_ b ix = z).
Proof.
  unfold reorder. intros (p & Hp & ->)%fmap_Some. destruct (plan_of_good r (sh a) p Hp) as [Hs Hi]. split; [done|].
  intros ix Hin. simpl in Hin. specialize (Hi ix Hin). rewrite (moved_at z p a ix Hin).
  destruct (p.2 ix) as [jx|]; [left; exists jx|right]; naive_solver.
Qed.

(* ------------------------------------------------------------------ *)
(** Jacobians of functions that move elements. *)
Lemma rows_entry_full J n c col val i j : rows_are J n c col val → i < n →
  entry J i j = if decide (j = col i) then val i else 0%R.
Proof.
  intros [_ Ht] Hi. rewrite entry_alt. rewrite (rsum_perm _ _ (fmap_Permutation _ _ _ Ht)), <- list_fmap_compose.
  rewrite (rsum_single _ _ i); [|apply NoDup_seq_|apply elem_of_seq; lia|].
  - unfold compose. simpl. destruct (decide (j = col i)) as [->|Hne]; [by rewrite decide_True|].
    rewrite decide_False; [done|]. intros [_ E]. by apply Hne.
  - intros x _ Hx. unfold compose. simpl. apply decide_False. naive_solver.
Qed.
Lemma position_rows n c JS col : asize JS = n → (∀ i, i < n → dat JS i = col i ∧ col i < c) →
  rows_are (position_matrix n JS c) n c col (λ _, 1%R).
Proof.
  intros Hn Hcol. unfold position_matrix, coo. rewrite Hn.
  assert (E : zip (zip (seq 0 n) (elems JS)) (replicate n 1%R) = (λ i, (i, col i, 1%R)) <$> seq 0 n).
  { unfold elems. rewrite Hn. rewrite <- (list_fmap_id (seq 0 n)) at 1. rewrite zip_fmap_same.
    replace (replicate n 1%R) with ((λ _ : nat, 1%R) <$> seq 0 n).
    - rewrite zip_fmap_same. apply list_fmap_ext_ne. intros i Hi%elem_of_seq. destruct (Hcol i ltac:(lia)) as [-> _]. done.
    - clear. generalize 0. induction n as [|n IH]; intros s; [done|]. simpl. f_equal. apply IH. }
  rewrite E. split; [|done]. split_and!; [done|done|]. apply list.Forall_forall. simpl.
  intros e (i & -> & Hi%elem_of_seq)%elem_of_list_fmap. simpl. split; [lia|]. apply Hcol. lia.
Qed.
(** [f] takes arrays of shape [s] to arrays of shape [s'], element [i] from [col i]. *)
Definition takes (f : arr R → arr R) (s s' : shp) (col : nat → nat) : Prop :=
  ∀ x, sh x = s → sh (f x) = s' ∧ ∀ i, i < size s' → col i < size s ∧ dat (f x) i = dat x (col i).
Lemma takes_diff f s s' col J a : takes f s s' col → sh a = s → rows_are J (size s') (size s) col (λ _, 1%R) → diff1 f J a.
Proof.
  intros Hf Ha HJ y v Hy Hm. pose proof (amoves_shape _ _ Hm) as Hs. rewrite Hy, Ha in Hs.
  apply (amoves_intro _ _ s').
  - eapply near_mono; [|exact Hs]. intros t Ht. by apply Hf.
  - intros i Hi. rewrite (rows_mact _ _ _ _ _ _ _ HJ), decide_True by done. rewrite Rmult_1_l.
    eapply deriv_near; [|apply (amoves_dat y v (col i) Hm)].
    + eapply near_mono; [|exact Hs]. intros t Ht. symmetry. by apply (Hf (y t) Ht).
    + unfold asize. rewrite Hy, Ha. by apply (Hf a Ha).
  - intros i Hi. rewrite (rows_mact _ _ _ _ _ _ _ HJ). by rewrite decide_False by lia.
Qed.

Definition plan_col (p : plan) (s : shp) (i : nat) : nat :=
  match p.2 (unravel p.1 i) with Some jx => ravel s jx | None => 0 end.
Lemma plan_jac r a p : plan_of r (sh a) = Some p → (fills r (sh a) → 0 < asize a) →
  ∃ J, reorder_jac r a = Some J ∧ rows_are J (size p.1) (asize a) (plan_col p (sh a)) (λ _, 1%R).
Proof.
  intros Hp Hz. unfold reorder_jac, reorder. rewrite Hp. simpl. rewrite Hp. simpl. eexists. split; [done|].
  unfold asize at 1. simpl. apply position_rows; [done|]. intros i Hi. split.
  - simpl. unfold plan_col. by destruct (p.2 (unravel p.1 i)).
  - destruct (plan_of_good r (sh a) p Hp) as [_ Hg]. specialize (Hg _ (unravel_inside _ _ Hi)).
    unfold plan_col. destruct (p.2 (unravel p.1 i)) as [jx|]; [apply ravel_lt, Hg|]. destruct Hg as [Hg _]. by apply Hz.
Qed.
Lemma not_fills_some r s p i : plan_of r s = Some p → ¬ fills r s → i < size p.1 →
  ∃ jx, p.2 (unravel p.1 i) = Some jx ∧ inside s jx ∧ comes_from r s (unravel p.1 i) jx.
Proof.
  intros Hp Hf Hi. destruct (plan_of_good r s p Hp) as [_ Hg]. specialize (Hg _ (unravel_inside _ _ Hi)).
  destruct (p.2 (unravel p.1 i)) as [jx|]; [eauto|]. by destruct Hg.
Qed.
Lemma reorder_jacobian r a b : reorder 0%R r a = Some b → ¬ fills r (sh a) →
  ∃ J, reorder_jac r a = Some J ∧ fits J (asize b) (asize a) ∧ diff1 (λ x, default x (reorder 0%R r x)) J a ∧
    ∀ ix, inside (sh b) ix → ∃ jx, inside (sh a) jx ∧ comes_from r (sh a) ix jx ∧
      ∀ c, entry J (ravel (sh b) ix) c = if decide (c = ravel (sh a) jx) then 1%R else 0%R.
Proof.
  unfold reorder at 1. intros (p & Hp & ->)%fmap_Some Hf.
  destruct (plan_jac r a p Hp) as (J & HJ & Hrows); [done|].
  exists J. split_and!; [done|apply Hrows| |].
  - eapply takes_diff; [|done|exact Hrows]. intros x Hx. unfold reorder. rewrite Hx, Hp. simpl. split; [done|].
    intros i Hi. destruct (not_fills_some r (sh a) p i Hp Hf Hi) as (jx & E & Hin & _).
    unfold plan_col. rewrite E. split; [by apply ravel_lt|]. unfold at_. by rewrite Hx.
  - intros ix Hix. simpl in Hix. pose proof (ravel_lt _ _ Hix) as Hlt.
    destruct (not_fills_some r (sh a) p _ Hp Hf Hlt) as (jx & E & Hin & Hc). rewrite unravel_ravel in Hc, E by done.
    exists jx. split_and!; [done|done|]. intros c. simpl sh. rewrite (rows_entry_full _ _ _ _ _ _ _ Hrows Hlt).
    unfold plan_col. by rewrite unravel_ravel, E by done.
Qed.

(** With filled-in zeros the Jacobian is wrong: the zeros get a 1 in column 0. *)
Lemma fills_zero r s : fills r s → 0 < size s → ∃ p, plan_of r s = Some p ∧ ∃ ix, inside p.1 ix ∧ p.2 ix = None.
Proof.
  assert (Hz : ∀ k n, 0 < n → k ≠ 0%Z ∨ 1 < n → ∃ i j, i < n + Z.abs_nat k ∧ j < n + Z.abs_nat k ∧ on_diag k [i; j] = None).
  { intros k n Hn H. simpl. destruct (decide (k = 0%Z)) as [->|Hk].
    - exists 0, 1. rewrite decide_False by lia. split_and!; [lia|lia|done].
    - exists 0, 0. rewrite decide_False by lia. split_and!; [lia|lia|done]. }
  destruct r; simpl; try done.
  - intros [Hl H] Hp. destruct s as [|m [|]]; try done. simpl in *. rewrite Nat.mul_1_r in *.
    destruct (Hz k m Hp H) as (i & j & Hi & Hj & E). eexists. split; [done|]. exists [i; j]. split.
    + repeat constructor; done.
    + cbn [snd]. simpl in E |- *. by rewrite E.
  - intros H Hp. destruct (Hz k (size s) Hp H) as (i & j & Hi & Hj & E). eexists. split; [done|]. exists [i; j]. split.
    + repeat constructor; done.
    + cbn [snd]. simpl in E |- *. by rewrite E.
Qed.
Lemma shift_all_moves (a : arr R) : amoves (λ t, amap (λ x, x + t)%R a) (λ i, if decide (i < asize a) then 1%R else 0%R).
Proof.
  apply (amoves_intro _ _ (sh a)); [by apply near_always| |].
  - intros i Hi. rewrite decide_True by done. simpl. rewrite <- (Rplus_0_l 1).
    apply (derivable_pt_lim_plus (λ _, dat a i) (λ t, t)); [apply derivable_pt_lim_const|apply derivable_pt_lim_id].
  - intros i Hi. unfold asize. by rewrite decide_False by lia.
Qed.
Lemma reorder_fills_wrong r a : fills r (sh a) → 0 < asize a →
  ∃ J, reorder_jac r a = Some J ∧ ¬ diff1 (λ x, default x (reorder 0%R r x)) J a.
Proof.
  intros Hf Ha. destruct (fills_zero r (sh a) Hf Ha) as (p & Hp & ix & Hix & Hnone).
  destruct (plan_jac r a p Hp) as (J & HJ & Hrows); [done|]. exists J. split; [done|]. intros Hd.
  pose proof (ravel_lt _ _ Hix) as Hlt.
  assert (E0 : amap (λ x, x + 0)%R a = a).
  { destruct a as [s d]. unfold amap. simpl. f_equal. apply FunctionalExtensionality.functional_extensionality. intros i. ring. }
  destruct (Hd (λ t, amap (λ x, x + t)%R a) _ E0 (shift_all_moves a)) as [_ Hdd].
  specialize (Hdd (ravel p.1 ix)). rewrite (rows_mact _ _ _ _ _ _ _ Hrows), decide_True in Hdd by done.
  assert (Hcol : plan_col p (sh a) (ravel p.1 ix) = 0) by (unfold plan_col; by rewrite unravel_ravel, Hnone by done).
  rewrite Hcol, decide_True in Hdd by done.
  assert (Hc : (1 * 1)%R = 0%R).
  { eapply deriv_unique; [exact Hdd|]. apply (deriv_ext (λ _, 0%R)); [|apply (deriv_const 0%R)].
    intros t. unfold reorder. simpl sh. rewrite Hp. simpl. rewrite elem_in by done. simpl. by rewrite unravel_ravel, Hnone by done. }
  lra.
Qed.
