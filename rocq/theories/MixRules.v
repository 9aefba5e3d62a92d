(** Proofs about numpy's rules: what they come to in the usual cases. *)
From Coq Require Import Reals Lra Lia.
From stdpp Require Import prelude list_numbers.
From Verif Require Import ArrModel Curve ArrThms ElemModel ElemSpec ElemThms ReorderModel ReorderSpec ReorderThms ReorderCache IndexThms HelpThms MixModel MixSpec MixThms.

Lemma sliced_all s : sliced (all_of s) = s.
Proof. induction s; simpl; [done|]. by rewrite seq_length, IHs. Qed.
Lemma common_all s : common (all_of s) = Some [].
Proof. induction s; done. Qed.
Lemma place_all b s ib ir : inside s ir → place b (all_of s) ib ir = ir.
Proof. induction 1 as [|i d ir s Hi H IH]; simpl; [done|]. by rewrite seq_nth, IH. Qed.
Lemma none_all s : Forall (λ p, ¬ is_index p) (all_of s).
Proof. induction s; simpl; constructor; auto. Qed.
Lemma bshape_nil t : bshape t [] = Some t.
Proof. rewrite bshape_comm. unfold bshape. simpl. by rewrite reverse_involutive. Qed.
Lemma after_all s : after (all_of s) = all_of s.
Proof. by destruct s. Qed.

(** The index arrays and the rest are looked up independently. *)
Theorem mixed_by k {T} (a : arr T) l b : length (filter is_mdots k) ≤ 1 → parts k (sh a) = Some l → common l = Some b →
  ∃ c, np_mixed k T a = Some c ∧ sh c = take (front l) (sliced l) ++ b ++ drop (front l) (sliced l) ∧
  ∀ i1 ib i2, inside (take (front l) (sliced l)) i1 → inside b ib → inside (drop (front l) (sliced l)) i2 →
    at_ c (i1 ++ ib ++ i2) = at_ a (place b l ib (i1 ++ i2)).
Proof.
  intros Hd Hl Hb. unfold np_mixed, mix_plan. rewrite decide_True, Hl by done. cbn [mbind option_bind]. rewrite Hb. cbn [mbind option_bind]. eexists. split; [done|]. split; [done|].
  intros i1 ib i2 H1 H2 H3. unfold at_ at 1. cbn [sh dat]. rewrite unravel_ravel by (apply Forall2_app; [done|by apply Forall2_app]).
  assert (E : length i1 = front l) by (rewrite (Forall2_length _ _ _ H1); apply take_length_le, front_le). rewrite <- E, <- (Forall2_length _ _ _ H2), drop_app, !take_app, <- drop_drop, !drop_app. done.
Qed.

(** two index arrays of the same shape: pairs *)
Theorem mixed_pairs {T} t ks hs ns ms (a : arr T) d e s : sh a = d :: e :: s → mapM (naxis d) ks = Some ns → mapM (naxis e) hs = Some ms →
  length ks = size t → length hs = size t → ∃ b, np_mixed [MInts t ks; MInts t hs] T a = Some b ∧ sh b = t ++ s ∧
  ∀ ib ir, inside t ib → inside s ir → at_ b (ib ++ ir) = at_ a (nth (ravel t ib) ns 0 :: nth (ravel t ib) ms 0 :: ir).
Proof.
  intros Hs Hn Hm Lk Lh. set (l := PIndex t ns :: PIndex t ms :: all_of s).
  assert (Hl : parts [MInts t ks; MInts t hs] (sh a) = Some l). { rewrite Hs. simpl. rewrite Hn, Hm. cbn [mbind option_bind]. by rewrite !decide_True by done. }
  assert (Hb : common l = Some t). { unfold l. simpl. rewrite common_all. cbn [mbind option_bind]. rewrite bshape_nil. cbn [mbind option_bind]. apply bshape_same. }
  assert (Hf : front l = 0). { unfold front, l. simpl. by destruct (decide _). }
  pose proof (λ h, mixed_by _ a l t h Hl Hb) as B0. destruct (B0 ltac:(vm_compute; lia)) as (b & B1 & B2 & B3). rewrite Hf in *. simpl in B2, B3. rewrite drop_0, sliced_all in *. exists b. split; [done|]. split; [done|]. intros ib ir Hib Hr.
  assert (R0 : inside [] []) by constructor. pose proof (B3 [] ib ir R0 Hib Hr) as H. cbn [app] in H. rewrite H. simpl. rewrite place_all, !bidx_same by (done || by apply ravel_lt). done.
Qed.

(** np.ix_: every row of the first with every column of the second *)
Lemma ix_shape n m : bshape [n; 1] [1; m] = Some [n; m].
Proof.
  unfold bshape. simpl. destruct (decide (n = 1)) as [->|]; destruct (decide (m = 1)) as [->|]; simpl; repeat first [rewrite decide_True by lia|rewrite decide_False by lia|simpl]; done.
Qed.
Theorem mixed_ix {T} ks hs ns ms (a : arr T) d e s : sh a = d :: e :: s → mapM (naxis d) ks = Some ns → mapM (naxis e) hs = Some ms →
  ∃ b, np_mixed [MInts [length ks; 1] ks; MInts [1; length hs] hs] T a = Some b ∧ sh b = length ks :: length hs :: s ∧
  ∀ i j ir, i < length ks → j < length hs → inside s ir → at_ b (i :: j :: ir) = at_ a (nth i ns 0 :: nth j ms 0 :: ir).
Proof.
  intros Hs Hn Hm. set (l := PIndex [length ks; 1] ns :: PIndex [1; length hs] ms :: all_of s).
  assert (Hl : parts [MInts [length ks; 1] ks; MInts [1; length hs] hs] (sh a) = Some l). { rewrite Hs. simpl. rewrite Hn, Hm. cbn [mbind option_bind]. by rewrite !decide_True by lia. }
  assert (Hb : common l = Some [length ks; length hs]). { unfold l. simpl. rewrite common_all. cbn [mbind option_bind]. rewrite bshape_nil. cbn [mbind option_bind]. apply ix_shape. }
  assert (Hf : front l = 0). { unfold front, l. simpl. by destruct (decide _). }
  pose proof (λ h, mixed_by _ a l _ h Hl Hb) as B0. destruct (B0 ltac:(vm_compute; lia)) as (b & B1 & B2 & B3). rewrite Hf in *. simpl in B2, B3. rewrite drop_0, sliced_all in *. exists b. split; [done|]. split; [done|]. intros i j ir Hi Hj Hr.
  assert (Hij : inside [length ks; length hs] [i; j]) by by repeat constructor.
  pose proof (B3 [] [i; j] ir ltac:(constructor) Hij Hr) as H. cbn [app] in H. rewrite H. cbn [place]. rewrite place_all by done. unfold bidx. change (i * (length hs * 1) + (j * 1 + 0)) with (ravel [length ks; length hs] [i; j]).
  rewrite !unravel_ravel by done. simpl.
  f_equal. f_equal; [|f_equal]; repeat case_decide; f_equal; lia.
Qed.
(** index arrays with a slice between them: their axes come first *)
Theorem mixed_apart {T} t ks hs ns ms (a : arr T) d f e s : sh a = d :: f :: e :: s → mapM (naxis d) ks = Some ns → mapM (naxis e) hs = Some ms →
  length ks = size t → length hs = size t → ∃ b, np_mixed [MInts t ks; MSlice None None 1; MInts t hs] T a = Some b ∧ sh b = t ++ f :: s ∧
  ∀ ib j ir, inside t ib → j < f → inside s ir → at_ b (ib ++ j :: ir) = at_ a (nth (ravel t ib) ns 0 :: j :: nth (ravel t ib) ms 0 :: ir).
Proof.
  intros Hs Hn Hm Lk Lh. set (l := PIndex t ns :: PSlice (seq 0 f) :: PIndex t ms :: all_of s).
  assert (Hl : parts [MInts t ks; MSlice None None 1; MInts t hs] (sh a) = Some l). { rewrite Hs. cbn [parts]. rewrite slice_all, Hn, Hm. cbn [mbind option_bind]. by rewrite !decide_True by done. }
  assert (Hb : common l = Some t). { unfold l. simpl. rewrite common_all. cbn [mbind option_bind]. rewrite bshape_nil. cbn [mbind option_bind]. apply bshape_same. }
  assert (Hf : front l = 0). { unfold front. rewrite decide_False; [done|]. unfold l. simpl. intros H. inversion H as [|? ? _ H']; subst. inversion H' as [|? ? H'' _]; subst. by apply H''. }
  pose proof (λ h, mixed_by _ a l _ h Hl Hb) as B0. destruct (B0 ltac:(vm_compute; lia)) as (b & B1 & B2 & B3). rewrite Hf in *. simpl in B2, B3. rewrite seq_length, sliced_all in *. exists b. split; [done|]. split; [done|]. intros ib j ir Hib Hj Hr.
  assert (R0 : inside [] []) by constructor. assert (R1 : inside (f :: s) (j :: ir)) by by constructor. pose proof (B3 [] ib (j :: ir) R0 Hib R1) as H. cbn [app] in H. rewrite H. simpl. rewrite place_all, !bidx_same, seq_nth by (done || by apply ravel_lt). done.
Qed.
(** and next to each other behind a slice: their axes come behind those of the slice *)
Theorem mixed_behind {T} t ks hs ns ms (a : arr T) f d e s : sh a = f :: d :: e :: s → mapM (naxis d) ks = Some ns → mapM (naxis e) hs = Some ms →
  length ks = size t → length hs = size t → ∃ b, np_mixed [MSlice None None 1; MInts t ks; MInts t hs] T a = Some b ∧ sh b = f :: t ++ s ∧
  ∀ j ib ir, j < f → inside t ib → inside s ir → at_ b (j :: ib ++ ir) = at_ a (j :: nth (ravel t ib) ns 0 :: nth (ravel t ib) ms 0 :: ir).
Proof.
  intros Hs Hn Hm Lk Lh. set (l := PSlice (seq 0 f) :: PIndex t ns :: PIndex t ms :: all_of s).
  assert (Hl : parts [MSlice None None 1; MInts t ks; MInts t hs] (sh a) = Some l). { rewrite Hs. cbn [parts]. rewrite slice_all, Hn, Hm. cbn [mbind option_bind]. by rewrite !decide_True by done. }
  assert (Hb : common l = Some t). { unfold l. simpl. rewrite common_all. cbn [mbind option_bind]. rewrite bshape_nil. cbn [mbind option_bind]. apply bshape_same. }
  assert (Hf : front l = 1). { unfold front. rewrite decide_True; [done|]. unfold l. simpl. rewrite after_all. apply none_all. }
  pose proof (λ h, mixed_by _ a l _ h Hl Hb) as B0. destruct (B0 ltac:(vm_compute; lia)) as (b & B1 & B2 & B3). rewrite Hf in *. simpl in B2, B3. rewrite drop_0, seq_length, sliced_all in *. exists b. split; [done|]. split; [done|]. intros j ib ir Hj Hib Hr.
  assert (R0 : inside [f] [j]) by by repeat constructor. pose proof (B3 [j] ib ir R0 Hib Hr) as H. cbn [app] in H. rewrite H. simpl. rewrite place_all, !bidx_same, seq_nth by (done || by apply ravel_lt). done.
Qed.

(** Keys with one array or without arrays: as in ReorderModel.v. *)
Definition of_index (i : index) : item := match i with INum k => MNum k | ISlice b e st => MSlice b e st | INew => MNew | IDots => MDots end.
Fixpoint sels_of (l : list part) : list sel :=
  match l with [] => [] | PSlice es :: l' => SMany es :: sels_of l' | PNew :: l' => SNew :: sels_of l' | PGap :: l' => sels_of l' | PIndex _ ns :: l' => SOne (nth 0 ns 0) :: sels_of l' end.
Definition plain (p : part) : Prop := match p with PIndex t _ => t = [] | _ => True end.
Lemma plain_all s : Forall plain (all_of s).
Proof. induction s; simpl; constructor; done. Qed.
Lemma sels_all s : sels_of (all_of s) = (λ d, SMany (seq 0 d)) <$> s.
Proof. induction s; simpl; [done|]. by rewrite IHs. Qed.
Lemma sels_app s l : sels_of (all_of s ++ l) = sels_of (all_of s) ++ sels_of l.
Proof. induction s; simpl; [done|]. by rewrite IHs. Qed.
Lemma count_of l : sum_list (item_axes <$> (of_index <$> l)) = count_axes l.
Proof. unfold count_axes. induction l as [|i l IH]; [done|]. destruct i; csimpl; simpl item_axes; rewrite IH; done. Qed.
Lemma dots_of l : length (filter is_mdots (of_index <$> l)) = length (filter is_dots l).
Proof. induction l as [|i l IH]; [done|]. rewrite fmap_cons, !filter_cons. destruct i; simpl; rewrite ?IH; done. Qed.
Lemma parts_sels l s : match sels l s, parts (of_index <$> l) s with Some sl, Some ps => sl = sels_of ps ∧ Forall plain ps | None, None => True | _, _ => False end.
Proof.
  revert s. induction l as [|i l IH]; intros s; [split; [symmetry; apply sels_all|apply plain_all]|]. destruct i as [k|b e st| |]; simpl.
  - destruct s as [|d s]; [done|]. destruct (naxis d k) as [n|]; [|done]. simpl. specialize (IH s). destruct (sels l s) as [sl|], (parts _ s) as [ps|]; try done. destruct IH as [-> IH]. split; [done|]. by constructor.
  - destruct s as [|d s]; [done|]. destruct (slice_elems d b e st) as [es|]; [|done]. simpl. specialize (IH s). destruct (sels l s) as [sl|], (parts _ s) as [ps|]; try done. destruct IH as [-> IH]. split; [done|]. by constructor.
  - specialize (IH s). destruct (sels l s) as [sl|], (parts _ s) as [ps|]; try done. destruct IH as [-> IH]. split; [done|]. by constructor.
  - change (list_fmap index item of_index l) with (of_index <$> l). rewrite count_of. generalize (length s - count_axes l). intros k. specialize (IH (drop k s)). destruct (sels l _) as [sl|], (parts _ _) as [ps|]; try done. destruct IH as [-> IH]. split; [simpl; by rewrite sels_app, sels_all|].
    constructor; [done|]. apply Forall_app. split; [apply plain_all|done].
Qed.
Lemma plain_common l : Forall plain l → common l = Some [].
Proof. induction 1 as [|p l Hp H IH]; [done|]. destruct p; simpl; try done. simpl in Hp. subst. by rewrite IH. Qed.
Lemma plain_sliced l : sliced l = sel_shape (sels_of l).
Proof. induction l as [|p l IH]; [done|]. destruct p; simpl; by rewrite ?IH. Qed.
Lemma plain_place l ir : Forall plain l → length ir = length (sliced l) → place [] l [] ir = sel_index (sels_of l) ir.
Proof.
  intros H. revert ir. induction H as [|p l Hp H IH]; intros ir Hr; [by destruct ir|]. destruct p as [es| | |t ns]; simpl in *.
  - destruct ir as [|i ir]; [done|]. rewrite IH by (simpl in Hr; lia). done.
  - destruct ir as [|i ir]; [done|]. apply IH. simpl in Hr. lia.
  - by apply IH.
  - subst. rewrite IH by done. done.
Qed.
Theorem mixed_basic l (a : arr R) : same (np_getitem 0%R (KBasic l) a) (np_mixed (of_index <$> l) R a).
Proof.
  unfold np_getitem, index_plan, np_mixed, mix_plan. rewrite dots_of. destruct (decide _); [|done]. pose proof (parts_sels l (sh a)) as H. destruct (sels l (sh a)) as [sl|], (parts _ _) as [ps|]; try done.
  destruct H as [-> H]. simpl. rewrite (plain_common ps H). simpl. rewrite take_drop. split; [simpl; symmetry; apply plain_sliced|]. intros i Hi. simpl. rewrite Nat.add_0_r, take_drop. rewrite <- plain_sliced, plain_place; [done|done|]. apply unravel_length.
Qed.
Theorem mixed_ints t l (a : arr R) : same (np_getitem 0%R (KInts t l) a) (np_mixed [MInts t l] R a).
Proof.
  unfold np_getitem, index_plan, np_mixed, mix_plan. rewrite decide_True by (simpl; lia). destruct (sh a) as [|d s] eqn:Hs; [done|]. simpl. destruct (mapM (naxis d) l) as [ns|] eqn:Hn; [|done]. simpl. destruct (decide _); [|done]. simpl. rewrite common_all. simpl. rewrite bshape_nil. simpl.
  assert (Hf : front (PIndex t ns :: all_of s) = 0). { unfold front. simpl. by destruct (decide _). } rewrite Hf, drop_0, sliced_all. simpl. split; [done|]. intros i Hi. simpl in *. rewrite !drop_0.
  assert (Hin : inside (t ++ s) (unravel (t ++ s) i)) by by apply unravel_inside. apply Forall2_app_inv_r in Hin as (ib & ir & H1 & H2 & Hu). rewrite Hu, <- (Forall2_length _ _ _ H1), take_app, drop_app, place_all, bidx_same by (done || by apply ravel_lt). done.
Qed.
Lemma place_mask b m (g : nat → nat) ib j : ravel [length (trues m)] ib = j → b = [length (trues m)] → inside b ib →
  ∀ ks, place b ((λ k, PIndex [length (trues m)] ((λ i, nth k (unravel (sh m) i) 0) <$> trues m)) <$> ks) ib [] = (λ k, nth k (unravel (sh m) (nth j (trues m) 0)) 0) <$> ks.
Proof.
  intros Hj -> Hin ks. assert (Hlt : j < length (trues m)). { pose proof (ravel_lt _ _ Hin) as H. rewrite Hj in H. simpl in H. lia. }
  induction ks as [|k ks IH]; [done|]. rewrite !fmap_cons. cbn [place]. rewrite IH. f_equal. rewrite bidx_same by by apply ravel_lt. rewrite Hj. rewrite nth_lookup, list_lookup_fmap. rewrite (nth_lookup (trues m)).
  destruct (lookup_lt_is_Some_2 _ _ Hlt) as [x ->]. done.
Qed.
Lemma nths_all (l : list nat) : (λ k, nth k l 0) <$> seq 0 (length l) = l.
Proof.
  apply list_eq. intros i. rewrite list_lookup_fmap. destruct (decide (i < length l)) as [H|H].
  - rewrite lookup_seq_lt by done. simpl. rewrite nth_lookup. by destruct (lookup_lt_is_Some_2 _ _ H) as [x ->].
  - rewrite !lookup_ge_None_2; [done|lia|]. rewrite seq_length. lia.
Qed.
Lemma common_mask n (g : nat → list nat) ks : ks ≠ [] → common ((λ k, PIndex [n] (g k)) <$> ks) = Some [n].
Proof.
  destruct ks as [|k ks]; [done|]. intros _. revert k. induction ks as [|k' ks IH]; intros k; simpl; [apply bshape_nil|]. specialize (IH k'). simpl in IH. rewrite IH. apply bshape_same.
Qed.
Lemma sliced_mask n (g : nat → list nat) ks : sliced ((λ k, PIndex [n] (g k)) <$> ks) = [].
Proof. by induction ks. Qed.
Theorem mixed_mask m (a : arr R) : sh m = sh a → sh a ≠ [] → same (np_getitem 0%R (KMask m) a) (np_mixed [MMask m] R a).
Proof.
  intros Hm Hne. unfold np_getitem, index_plan, np_mixed, mix_plan. rewrite decide_True by done. rewrite (decide_True (P := length _ ≤ 1)) by (vm_compute; lia). cbn [parts].
  rewrite decide_True by (rewrite Hm; split; [done|by apply firstn_all]). rewrite Hm, drop_all. cbn [parts fmap option_fmap option_map mbind option_bind all_of list_fmap]. rewrite app_nil_r.
  unfold mask_parts. rewrite common_mask. 2:{ rewrite Hm. by destruct (sh a). } cbn [mbind option_bind]. rewrite !sliced_mask, take_nil, drop_nil. simpl.
  assert (Hf : front (mask_parts m) = 0). { pose proof (front_le (mask_parts m)) as H. unfold mask_parts in H at 2. rewrite sliced_mask in H. simpl in H. lia. } unfold mask_parts in Hf. rewrite Hf. split; [done|]. intros i Hi. unfold asize in Hi. simpl in Hi.
  assert (E : unravel [length (trues m)] i = [i]) by (cbn [unravel]; f_equal; apply Nat.div_1_r). cbn [moved fst snd sh dat]. rewrite E. simpl. f_equal. change ((Nat.divmod i 0 0 0).1) with (i `div` 1). rewrite Nat.div_1_r.
  rewrite (place_mask _ m (λ x, x) _ i); [|simpl; lia|done|repeat constructor; lia].
  rewrite <- Hm. rewrite <- (unravel_length (sh m) (nth i (trues m) 0)). symmetry. apply nths_all.
Qed.

(** the number -1 is turned into a position once *)
Theorem any_grown : ∃ F (a a' b c : arr R), moves F ∧ any_getitem F a ≠ None ∧ F R a' = Some b ∧ any_later F (sh a) a' = Some c ∧ ¬ aeq c (atleast_1d b).
Proof.
  exists (np_mixed [MNum (-1)]), (of_list 0%R [3] [1; 2; 3]%R), (of_list 0%R [4] [1; 2; 3; 4]%R). eexists _, _. split; [apply mixed_moves|]. split; [done|]. split; [done|]. split; [done|].
  intros [_ H]. specialize (H 0 ltac:(vm_compute; lia)). assert (E : (3 = 4)%R) by exact H. lra.
Qed.
