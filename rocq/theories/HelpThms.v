(** Proofs about the stacking and shape helpers. *)
From Coq Require Import Reals Lra Sorted.
From stdpp Require Import gmap list list_numbers numbers.
From Verif Require Import EngineModel ArrModel Curve ArrThms ElemModel ElemSpec ElemThms ReorderModel ReorderSpec ReorderThms IndexThms
  RepModel RepSpec RepThms ConcModel ConcSpec ConcThms ConcJac ConcMemo RepGraph HelpModel HelpSpec.

(* ------------------------------------------------------------------ *)
(** Reshapes to a shape without -1. *)
Lemma fill_nat n t : size t = n → fill_shape n (Z.of_nat <$> t) = Some t.
Proof.
  intros Hn. unfold fill_shape.
  assert (Hf : filter (λ d, d ≠ -1)%Z (Z.of_nat <$> t) = Z.of_nat <$> t).
  { clear. induction t as [|d t IH]; [done|]. rewrite fmap_cons, filter_cons_True by lia. by rewrite IH. }
  assert (Hg : filter (λ d, d = -1)%Z (Z.of_nat <$> t) = []).
  { clear. induction t as [|d t IH]; [done|]. rewrite fmap_cons, filter_cons_False by lia. by rewrite IH. }
  assert (Hs : (λ d, if decide (d = -1)%Z then n / size (Z.to_nat <$> filter (λ d, d ≠ -1)%Z (Z.of_nat <$> t)) else Z.to_nat d) <$> (Z.of_nat <$> t) = t).
  { rewrite <- list_fmap_compose. generalize (n / size (Z.to_nat <$> filter (λ d, d ≠ -1)%Z (Z.of_nat <$> t))). intros q.
    clear. induction t as [|d t IH]; [done|]. rewrite fmap_cons, IH. cbn. rewrite decide_False by lia. by rewrite Nat2Z.id. }
  rewrite Hs, Hg. rewrite decide_True; [done|]. split_and!; [simpl; lia| |done|by left].
  apply list.Forall_forall. intros z (d & -> & _)%elem_of_list_fmap. lia.
Qed.
Lemma reshaped_nat (t : shp) (a : arr R) : size t = asize a → reshaped (Z.of_nat <$> t) a = Some (Arr_ t (dat a)).
Proof. intros H. unfold reshaped. by rewrite fill_nat. Qed.
Lemma size_ones k : size (replicate k 1) = 1.
Proof. induction k; simpl; lia. Qed.
Lemma ravel_app s t ix jx : length ix = length s → ravel (s ++ t) (ix ++ jx) = ravel s ix * size t + ravel t jx.
Proof.
  revert ix. induction s as [|d s IH]; intros [|i ix] H; simpl in *; try lia. rewrite IH by lia. rewrite size_app. lia.
Qed.
Lemma ravel_ones k : ravel (replicate k 1) (replicate k 0) = 0.
Proof. induction k as [|k IH]; [done|]. simpl. by rewrite IH. Qed.
Lemma lifted_is front back a : lifted front back a (Arr_ (replicate front 1 ++ sh a ++ replicate back 1) (dat a)).
Proof.
  split; [done|]. intros ix Hix. unfold at_. cbn [sh dat]. f_equal. pose proof (Forall2_length _ _ _ Hix) as Hl.
  rewrite ravel_app by (by rewrite !replicate_length). rewrite ravel_ones, ravel_app by done. rewrite size_ones, ravel_ones. lia.
Qed.

(* ------------------------------------------------------------------ *)
(** atleast_1d, atleast_2d, atleast_3d *)
Lemma nd_value nd a : 1 ≤ nd ≤ 3 → ∃ b, nd_r nd a = Some b ∧ is_nd nd a b ∧ asize b = asize a ∧ ∀ i, dat b i = dat a i.
Proof.
  intros Hnd. unfold nd_r.
  assert (H : ∃ front back, nd_shape nd (sh a) = Some (replicate front 1 ++ sh a ++ replicate back 1) ∧
    (lifted front back a (Arr_ (replicate front 1 ++ sh a ++ replicate back 1) (dat a)) →
      is_nd nd a (Arr_ (replicate front 1 ++ sh a ++ replicate back 1) (dat a)))).
  { unfold is_nd. assert (nd = 1 ∨ nd = 2 ∨ nd = 3) as [Hn|[Hn|Hn]] by lia; subst nd; unfold nd_shape.
    - exists (1 - length (sh a)), 0. split; [|done]. destruct (sh a) as [|n s]; [done|]. simpl. by rewrite app_nil_r.
    - exists (2 - length (sh a)), 0. split; [|done]. destruct (sh a) as [|n [|m s]]; [done|done|]. simpl. by rewrite app_nil_r.
    - exists (2 - length (sh a)), (if decide (length (sh a) < 3) then 1 else 0). split; [|done].
      destruct (sh a) as [|n [|m [|k s]]]; [done|done|done|]. simpl. by rewrite app_nil_r. }
  destruct H as (front & back & -> & H). cbn [mbind option_bind].
  assert (Hs : size (replicate front 1 ++ sh a ++ replicate back 1) = asize a) by (rewrite !size_app, !size_ones; unfold asize; lia).
  rewrite reshaped_nat by done. eexists. split; [done|]. split_and!; [apply H, lifted_is|done|done].
Qed.
Lemma nd_raises nd a : nd = 0 ∨ 4 ≤ nd → nd_r nd a = None.
Proof. intros H. unfold nd_r. by destruct nd as [|[|[|[|nd]]]]; try lia. Qed.
(** [is_nd] says what the result is *)
Lemma lifted_unique front back a b c : lifted front back a b → lifted front back a c → aeq b c.
Proof.
  intros [Hb Hb2] [Hc Hc2]. split; [congruence|]. intros i Hi.
  assert (Hs : asize b = asize a) by (unfold asize; rewrite Hb, !size_app, !size_ones; lia).
  specialize (Hb2 (unravel (sh a) i)). specialize (Hc2 (unravel (sh a) i)). unfold at_ in *. rewrite Hb in Hb2. rewrite Hc in Hc2.
  assert (Hin : inside (sh a) (unravel (sh a) i)) by (apply unravel_inside; unfold asize in *; lia).
  pose proof (Forall2_length _ _ _ Hin) as Hl.
  assert (Hr : ravel (replicate front 1 ++ sh a ++ replicate back 1) (replicate front 0 ++ unravel (sh a) i ++ replicate back 0) = i).
  { rewrite ravel_app by (by rewrite !replicate_length). rewrite ravel_ones, ravel_app by done. rewrite size_ones, ravel_ones, ravel_unravel by (unfold asize in *; lia). lia. }
  rewrite Hr in Hb2, Hc2. rewrite Hb2, Hc2 by done. done.
Qed.
Lemma nd_unique nd a b c : is_nd nd a b → is_nd nd a c → aeq b c.
Proof. unfold is_nd. destruct nd as [|[|[|nd]]]; apply lifted_unique. Qed.

(* ------------------------------------------------------------------ *)
(** squeeze *)
Definition kept (s : shp) : list nat := filter (λ k, nth k s 0 ≠ 1) (seq 0 (length s)).
Lemma kept_cons d s : kept (d :: s) = (if decide (d = 1) then [] else [0]) ++ (S <$> kept s).
Proof.
  unfold kept. cbn [length seq]. rewrite filter_cons. change (nth 0 (d :: s) 0) with d.
  assert (H : filter (λ k, nth k (d :: s) 0 ≠ 1) (seq 1 (length s)) = S <$> filter (λ k, nth k s 0 ≠ 1) (seq 0 (length s))).
  { rewrite <- seq_shift. generalize (seq 0 (length s)). intros l. change (map S l) with (S <$> l).
    induction l as [|k l IH]; [done|]. rewrite fmap_cons, !filter_cons, IH. change (nth (S k) (d :: s) 0) with (nth k s 0). by destruct (decide (nth k s 0 ≠ 1)). }
  rewrite H. destruct (decide (d ≠ 1)), (decide (d = 1)); try done; lia.
Qed.
Lemma kept_shape s : filter (λ d, d ≠ 1) s = (λ k, nth k s 0) <$> kept s.
Proof.
  induction s as [|d s IH]; [done|]. rewrite kept_cons, filter_cons, fmap_app, <- list_fmap_compose.
  change ((λ k, nth k (d :: s) 0) ∘ S) with (λ k, nth k s 0). rewrite <- IH. by destruct (decide (d = 1)), (decide (d ≠ 1)).
Qed.
Lemma size_kept s : size (filter (λ d, d ≠ 1) s) = size s.
Proof.
  induction s as [|d s IH]; [done|]. rewrite filter_cons. destruct (decide (d ≠ 1)); cbn [size foldr].
  - fold (size (filter (λ d, d ≠ 1) s)) (size s). by rewrite IH.
  - fold (size s). rewrite IH. lia.
Qed.
Lemma ravel_kept s ix : inside s ix → ravel ((λ k, nth k s 0) <$> kept s) ((λ k, nth k ix 0) <$> kept s) = ravel s ix.
Proof.
  intros H. induction H as [|i d ix s Hi H IH]; [done|]. rewrite kept_cons, !fmap_app, <- !list_fmap_compose.
  change ((λ k, nth k (d :: s) 0) ∘ S) with (λ k, nth k s 0). change ((λ k, nth k (i :: ix) 0) ∘ S) with (λ k, nth k ix 0).
  destruct (decide (d = 1)); cbn [app fmap list_fmap nth ravel].
  - rewrite IH. nia.
  - rewrite IH. by rewrite <- kept_shape, size_kept.
Qed.
Lemma kept_sorted s : StronglySorted lt (kept s).
Proof.
  induction s as [|d s IH]; [constructor|]. rewrite kept_cons.
  assert (HS : StronglySorted lt (S <$> kept s)).
  { clear -IH. induction IH as [|k l _ IH H]; [constructor|]. rewrite fmap_cons. constructor; [done|].
    rewrite Forall_fmap. eapply list.Forall_impl; [exact H|]. cbn. lia. }
  destruct (decide (d = 1)); [done|]. cbn [app]. constructor; [done|]. rewrite Forall_fmap. apply Forall_true. cbn. lia.
Qed.
Lemma squeeze_all a : ∃ b, view_r (squeeze_shape None (sh a)) a = Some (atleast_1d b) ∧ is_squeeze None a b.
Proof.
  cbn [squeeze_shape view_r]. unfold view_r. cbn [mbind option_bind].
  rewrite reshaped_nat by (by rewrite size_kept). eexists. split; [done|]. exists (kept (sh a)). cbn [sh].
  split_and!; [apply kept_shape|apply kept_sorted| |].
  - intros k. unfold kept. rewrite elem_of_list_filter, elem_of_seq. split.
    + intros [H [_ Hk]]. simpl in Hk. destruct (lookup_lt_is_Some_2 _ _ Hk) as [d Hd]. exists d. split; [done|].
      by rewrite (nth_lookup_Some _ _ _ _ Hd) in H.
    + intros (d & Hd & Hne). rewrite (nth_lookup_Some _ _ _ _ Hd). split; [done|]. apply lookup_lt_Some in Hd. lia.
  - intros ix Hix. unfold at_. cbn [sh dat]. by rewrite kept_shape, ravel_kept.
Qed.
Lemma ravel_delete s i ix : inside s ix → s !! i = Some 1 → ravel (delete i s) (delete i ix) = ravel s ix ∧ size (delete i s) = size s.
Proof.
  intros H. revert i. induction H as [|j d ix s Hj H IH]; intros i Hi; [done|]. destruct i as [|i]; cbn in Hi.
  - injection Hi as ->. cbn [delete list_delete ravel size foldr]. fold (size s). nia.
  - destruct (IH i Hi) as [E1 E2]. change (delete (S i) (d :: s)) with (d :: delete i s). change (delete (S i) (j :: ix)) with (j :: delete i ix).
    cbn [ravel]. rewrite E1, E2. split; [done|]. change (d * size (delete i s) = d * size s). by rewrite E2.
Qed.
Lemma size_delete1 s i : s !! i = Some 1 → size (delete i s) = size s.
Proof.
  revert i. induction s as [|d s IH]; intros [|i] H; try done; cbn in H.
  - injection H as ->. cbn. fold (size s). lia.
  - change (d * size (delete i s) = d * size s). by rewrite IH.
Qed.
Lemma squeeze_one k a i : axis_is (length (sh a)) k i → sh a !! i = Some 1 →
  ∃ b, view_r (squeeze_shape (Some k) (sh a)) a = Some (atleast_1d b) ∧ is_squeeze (Some k) a b.
Proof.
  intros Hk Hi. unfold squeeze_shape. rewrite (proj2 (naxis_is _ _ _) Hk). cbn [mbind option_bind]. rewrite decide_True by done.
  unfold view_r. cbn [mbind option_bind]. rewrite reshaped_nat by (by apply size_delete1). eexists. split; [done|].
  exists i. split_and!; [done|done|done|]. intros ix Hix. unfold at_. cbn [sh dat]. by rewrite (proj1 (ravel_delete _ _ _ Hix Hi)).
Qed.
Lemma squeeze_raises k a : (∀ i, axis_is (length (sh a)) k i → sh a !! i ≠ Some 1) → view_r (squeeze_shape (Some k) (sh a)) a = None.
Proof.
  intros H. unfold squeeze_shape. destruct (naxis (length (sh a)) k) as [i|] eqn:E; [|done]. cbn [mbind option_bind].
  apply naxis_is in E. rewrite decide_False by (by apply H). done.
Qed.

(** expand_dims *)
Lemma take_drop_delete {A} (l : list A) i x : i ≤ length l → (take i l ++ x :: drop i l) !! i = Some x ∧ delete i (take i l ++ x :: drop i l) = l.
Proof.
  intros H. assert (Hl : length (take i l) = i) by (rewrite take_length; lia). split.
  - rewrite lookup_app_r by lia. by rewrite Hl, Nat.sub_diag.
  - rewrite delete_take_drop. rewrite take_app_le by lia. rewrite take_take, Nat.min_id.
    rewrite drop_app_ge by lia. rewrite Hl. replace (S i - i) with 1 by lia. change (drop 1 (x :: drop i l)) with (drop i l). apply take_drop.
Qed.
Lemma expand_value k a i : axis_is (S (length (sh a))) k i → ∃ b, view_r (expand_shape k (sh a)) a = Some b ∧ is_expand k a b.
Proof.
  intros Hk. unfold expand_shape. rewrite (proj2 (naxis_is _ _ _) Hk). cbn [mbind option_bind]. unfold view_r. cbn [mbind option_bind].
  destruct (take_drop_delete (sh a) i 1) as [H1 H2]; [destruct Hk; lia|]. pose proof (size_delete1 _ _ H1) as Hs. rewrite H2 in Hs.
  rewrite reshaped_nat by done. cbn [fmap option_fmap option_map].
  rewrite at1_id by (cbn [sh]; by destruct (take i (sh a))).
  eexists. split; [done|]. exists i. cbn [sh]. split_and!; [done|done|done|]. intros ix Hix. unfold at_. cbn [sh dat].
  rewrite <- (proj1 (ravel_delete _ _ _ Hix H1)). by rewrite H2.
Qed.
Lemma expand_raises k a : (∀ i, ¬ axis_is (S (length (sh a))) k i) → view_r (expand_shape k (sh a)) a = None.
Proof.
  intros H. unfold expand_shape. destruct (naxis (S (length (sh a))) k) as [i|] eqn:E; [|done]. apply naxis_is in E. by destruct (H i).
Qed.

(* ------------------------------------------------------------------ *)
(** fliplr and flipud *)
Lemma slice_all n : slice_elems n None None 1 = Some (seq 0 n).
Proof.
  unfold slice_elems. rewrite decide_False by done. rewrite decide_True by done. f_equal. unfold clip_to.
  assert (H : Z.to_nat ((Z.max 0 (Z.min (Z.of_nat n) (Z.of_nat n)) - Z.max 0 (Z.min (Z.of_nat n) 0) + 1 - 1) / 1) = n) by (rewrite Z.div_1_r; lia).
  rewrite H. transitivity ((λ i : nat, i) <$> seq 0 n); [|apply list_fmap_id]. apply list_fmap_ext. intros k i Hi. cbn. apply lookup_seq in Hi. lia.
Qed.
Lemma slice_back n : slice_elems n None None (-1) = Some ((λ i, n - 1 - i) <$> seq 0 n).
Proof.
  unfold slice_elems. rewrite decide_False by done. rewrite decide_False by lia. f_equal. unfold clip_to.
  assert (H : Z.to_nat ((Z.max (-1) (Z.min (Z.of_nat n - 1) (Z.of_nat n - 1)) - -1 - -1 - 1) / - -1) = n) by (change (- -1)%Z with 1%Z; rewrite Z.div_1_r; lia).
  rewrite H. apply list_fmap_ext. intros k i Hi. cbn. apply lookup_seq in Hi. lia.
Qed.
Lemma nth_back n i : i < n → nth i ((λ i, n - 1 - i) <$> seq 0 n) 0 = n - 1 - i.
Proof. intros H. rewrite nth_lookup, list_lookup_fmap, lookup_seq_lt by done. done. Qed.
Lemma nth_seq0 n i : i < n → nth i (seq 0 n) 0 = i.
Proof. intros H. by rewrite seq_nth. Qed.
Lemma sels_index_all s ix : inside s ix → sel_index ((λ d, SMany (seq 0 d)) <$> s) ix = ix.
Proof.
  intros H. induction H as [|i d ix s Hi H IH]; [done|]. rewrite fmap_cons. cbn [sel_index]. f_equal; [|done]. by apply nth_seq0.
Qed.
Lemma sels_shape_all s : sel_shape ((λ d, SMany (seq 0 d)) <$> s) = s.
Proof. induction s as [|d s IH]; [done|]. rewrite fmap_cons. cbn [sel_shape]. by rewrite seq_length, IH. Qed.
(** reading with a basic key *)
Lemma basic_reads l a sl : length (filter is_dots l) ≤ 1 → sels l (sh a) = Some sl → sel_shape sl ≠ [] →
  ∃ b, getitem (KBasic l) a = Some b ∧ sh b = sel_shape sl ∧
    ∀ ix, inside (sel_shape sl) ix → at_ b ix = at_ a (sel_index sl ix).
Proof.
  intros Hd Hs Hne. assert (Hnp : np_getitem 0%R (KBasic l) a = Some (moved 0%R (sel_shape sl, λ ix, Some (sel_index sl ix)) a)).
  { unfold np_getitem, index_plan. rewrite decide_True by done. by rewrite Hs. }
  destruct (getitem_numpy _ _ _ Hnp) as (b & Hb & Hsh & Hv). exists b. split; [done|].
  rewrite at1_id in Hsh, Hv by done. cbn [sh moved fst] in Hsh. split; [done|].
  intros ix Hix. pose proof (ravel_lt _ _ Hix) as Hlt. unfold at_ at 1. rewrite Hsh. rewrite Hv by (unfold asize; by rewrite Hsh).
  cbn [dat moved fst snd]. by rewrite unravel_ravel.
Qed.
Lemma fliplr_value a : 2 ≤ length (sh a) → ∃ b, getitem fliplr_key a = Some b ∧ is_fliplr a b.
Proof.
  intros Hl. destruct (sh a) as [|m [|n s]] eqn:Ha; [simpl in Hl; lia..|]. clear Hl.
  destruct (basic_reads [ISlice None None 1; ISlice None None (-1)] a
    (SMany (seq 0 m) :: SMany ((λ i, n - 1 - i) <$> seq 0 n) :: ((λ d, SMany (seq 0 d)) <$> s))) as (b & Hb & Hsh & Hv).
  { simpl. lia. }
  { rewrite Ha. cbn [sels]. rewrite slice_all, slice_back. done. }
  { done. }
  cbn [sel_shape] in Hsh, Hv. rewrite fmap_length, !seq_length, sels_shape_all in Hsh, Hv.
  exists b. split; [done|]. exists m, n, s. split_and!; [done|congruence|].
  intros i j k jx Hi Hjk Hjx. rewrite Hv by (constructor; [done|constructor; [lia|done]]).
  cbn [sel_index]. rewrite nth_seq0, nth_back, sels_index_all by (done || lia). by replace (n - 1 - j) with k by lia.
Qed.
Lemma fliplr_raises a : length (sh a) < 2 → getitem fliplr_key a = None.
Proof.
  intros Hl. apply getitem_raises. unfold np_getitem, fliplr_key, index_plan. rewrite decide_True by (simpl; lia).
  destruct (sh a) as [|m [|n s]]; cbn [sels]; [done| |simpl in Hl; lia]. by rewrite slice_all.
Qed.
Lemma flipud_value a : 1 ≤ length (sh a) → ∃ b, getitem flipud_key a = Some b ∧ is_flipud a b.
Proof.
  intros Hl. destruct (sh a) as [|m s] eqn:Ha; [simpl in Hl; lia|]. clear Hl.
  destruct (basic_reads [ISlice None None (-1); IDots] a
    (SMany ((λ i, m - 1 - i) <$> seq 0 m) :: ((λ d, SMany (seq 0 d)) <$> s))) as (b & Hb & Hsh & Hv).
  { simpl. lia. }
  { rewrite Ha. cbn [sels]. rewrite slice_back. cbn [mbind option_bind count_axes]. unfold count_axes. cbn [filter list_filter length].
    rewrite Nat.sub_0_r, firstn_all, drop_all. cbn. by rewrite app_nil_r. }
  { done. }
  cbn [sel_shape] in Hsh, Hv. rewrite fmap_length, !seq_length, sels_shape_all in Hsh, Hv.
  exists b. split; [done|]. exists m, s. split_and!; [done|congruence|].
  intros i k jx Hik Hjx. rewrite Hv by (constructor; [lia|done]).
  cbn [sel_index]. rewrite nth_back, sels_index_all by (done || lia). by replace (m - 1 - i) with k by lia.
Qed.
(** the derivative of an indexed object *)
Lemma getitem_right k a b : getitem k a = Some b → ∃ idxs t, getitem_terms k (sh a) = Some (idxs, t) ∧
  fits (select_jac idxs (asize a)) (asize b) (asize a) ∧ diff1 (λ x, default x (getitem k x)) (select_jac idxs (asize a)) a.
Proof.
  unfold getitem at 1. intros ([idxs t] & Ht & (c & Hc & ->)%fmap_Some)%bind_Some. exists idxs, t. split; [done|].
  destruct (select_right _ _ _ _ Hc) as [Hrows _]. destruct (select_value _ _ _ _ Hc) as (Hsh & Hs & HF & _).
  split; [rewrite at1_size; apply Hrows|].
  rewrite <- (at1_size c) in Hrows. eapply takes_diff; [|reflexivity|exact Hrows].
  intros x Hx. unfold getitem. rewrite Hx, Ht. cbn [mbind option_bind].
  destruct (select idxs (Some t) x) as [y|] eqn:Ey; [|apply (select_sh _ _ a x Hx) in Ey; congruence].
  change (default x (atleast_1d <$> Some y)) with (atleast_1d y).
  destruct (select_value _ _ _ _ Ey) as (Hy & Hsy & _ & Hv). split; [apply at1_sh; congruence|].
  intros i Hi. fold (asize (atleast_1d c)) in Hi. rewrite at1_size, Hs in Hi. rewrite at1_dat. split; [|by apply Hv].
  rewrite list.Forall_forall in HF. apply HF. apply elem_of_list_lookup. exists i. rewrite nth_lookup.
  destruct (lookup_lt_is_Some_2 idxs i Hi) as [z ->]. done.
Qed.
(** the derivatives of squeeze, expand_dims and atleast_nd are the identity *)
Lemma view_right ns a b : view_r (Some ns) a = Some b → fits (reshape_jac a) (asize b) (asize a) ∧
  diff1 (λ x, default x (view_r (Some ns) x)) (reshape_jac a) a ∧
  ∀ i j, i < asize a → entry (reshape_jac a) i j = if decide (j = i) then 1%R else 0%R.
Proof.
  unfold view_r. cbn [mbind option_bind]. intros (c & Hc & ->)%fmap_Some. destruct (reshape_right _ _ _ Hc) as (Hf & Hd & He).
  split_and!; [by rewrite at1_size| |done]. intros y v Hy Hm.
  assert (H : amoves (λ t, atleast_1d (default (y t) (reshaped ns (y t)))) (mact (reshape_jac a) v)).
  { destruct (Hd y v Hy Hm) as [H1 H2]. split.
    - eapply near_mono; [|exact H1]. intros t Ht. by apply at1_sh.
    - intros i. eapply deriv_near; [|apply (H2 i)]. apply near_always. intros t. by rewrite at1_elem. }
  destruct H as [H1 H2]. pose proof (amoves_shape _ _ Hm) as Hs. rewrite Hy in Hs.
  assert (Hok : ∀ x : arr R, sh x = sh a → ∃ z, reshaped ns x = Some z).
  { intros x Hx. apply fmap_Some in Hc as (s & Hfs & _). unfold reshaped, asize in *. rewrite Hx, Hfs. by eexists. }
  assert (He0 : ∀ x : arr R, sh x = sh a → default x (atleast_1d <$> reshaped ns x) = atleast_1d (default x (reshaped ns x))).
  { intros x Hx. destruct (Hok x Hx) as [z ->]. done. }
  assert (H0 : sh (y 0%R) = sh a) by (by rewrite Hy).
  split.
  - eapply near_mono; [|exact (near_and _ _ Hs H1)]. intros t [Ht1 Ht2]. rewrite !He0 by done. done.
  - intros i. eapply deriv_near; [|apply (H2 i)]. eapply near_mono; [|exact Hs]. intros t Ht. by rewrite He0.
Qed.

(* ------------------------------------------------------------------ *)
(** Stacks *)
Lemma expand_leaves ax us : ∀ fuel acc, length us < fuel → expand fuel ax (Leaf <$> us) acc = Some (acc ++ (Leaf <$> us)).
Proof.
  induction us as [|u us IH]; intros [|fuel] acc H; simpl in H; try lia; [cbn; by rewrite app_nil_r|].
  rewrite fmap_cons. cbn [expand]. rewrite IH by lia. by rewrite <- app_assoc.
Qed.
Lemma weights_leaves us : weights (Leaf <$> us) = length us.
Proof. induction us as [|u us IH]; [done|]. rewrite fmap_cons. change (1 + weights (Leaf <$> us) = S (length us)). by rewrite IH. Qed.
Lemma cvals_leaves us : cvals (Leaf <$> us) = Some us.
Proof.
  induction us as [|u us IH]; [done|]. rewrite fmap_cons.
  change ((vs ← cvals (Leaf <$> us); Some (u :: vs)) = Some (u :: us)). by rewrite IH.
Qed.
Lemma concatenate_leaves ax us : stack_r (concatenate ax (Leaf <$> us)) = concat ax us.
Proof.
  unfold concatenate. rewrite expand_leaves by (rewrite weights_leaves; lia). cbn [app fmap option_fmap option_map stack_r mbind option_bind].
  change ((vs ← cvals (Leaf <$> us); concat ax vs) = concat ax us). by rewrite cvals_leaves.
Qed.
Lemma lift_all_ok nd vs : 1 ≤ nd ≤ 3 → ∃ us, lift_all nd vs = Some (Leaf <$> us) ∧ Forall2 (is_nd nd) vs us.
Proof.
  intros Hnd. assert (H : ∃ us, mapM (nd_r nd) vs = Some us ∧ Forall2 (is_nd nd) vs us).
  { induction vs as [|v vs (us & Hus & HF)]; [exists []; done|]. destruct (nd_value nd v Hnd) as (u & Hu & Hn & _).
    exists (u :: us). split; [|by constructor]. cbn [mapM]. rewrite Hu. cbn [mbind option_bind]. by rewrite Hus. }
  destruct H as (us & Hus & HF). exists us. split; [|done]. unfold lift_all. by rewrite Hus.
Qed.
(** equal operands *)
Lemma aeq_at {T} (a b : arr T) ix : aeq a b → inside (sh a) ix → at_ a ix = at_ b ix.
Proof. intros [Hs Hv] Hi. unfold at_. rewrite <- Hs. apply Hv. by apply ravel_lt. Qed.
Lemma total_eq k us us' n : Forall2 aeq us us' → total k us n → total k us' n.
Proof.
  intros H. revert n. induction H as [|u u' us us' Hu H IH]; intros n Ht; [done|]. inversion Ht; subst. constructor; [|by apply IH].
  by rewrite <- (proj1 Hu).
Qed.
Lemma aeq_sym {T} (a b : arr T) : aeq a b → aeq b a.
Proof. intros [H1 H2]. split; [done|]. intros i Hi. symmetry. apply H2. unfold asize in *. by rewrite H1. Qed.
Lemma is_concat_eq k us us' y : Forall2 aeq us us' → is_concat k us y → is_concat k us' y.
Proof.
  intros HF ((n & Hn & Hy) & Hs & Hv). assert (HF' : Forall2 aeq us' us) by (apply Forall2_flip; eapply Forall2_impl; [exact HF|]; intros; by apply aeq_sym).
  split_and!.
  - exists n. split; [by eapply total_eq|done].
  - intros v' (i & Hi)%elem_of_list_lookup. destruct (Forall2_lookup_r _ _ _ _ _ HF Hi) as (v & Hi' & [Hsh _]). rewrite <- Hsh. apply Hs.
    by eapply elem_of_list_lookup_2.
  - intros t v' jx ix Ht Hin (off & j & Htot & Hst). destruct (Forall2_lookup_r _ _ _ _ _ HF Ht) as (v & Ht' & Heq).
    rewrite <- (aeq_at v v' jx Heq) by (by rewrite (proj1 Heq)). eapply Hv; [done|by rewrite (proj1 Heq)|].
    exists off, j. split; [|done]. eapply total_eq; [|done]. by apply Forall2_take.
Qed.
Lemma nd_length nd a b : 1 ≤ nd ≤ 3 → is_nd nd a b → nd ≤ length (sh b).
Proof.
  unfold is_nd. intros Hnd H. assert (nd = 1 ∨ nd = 2 ∨ nd = 3) as [Hn|[Hn|Hn]] by lia; subst nd; destruct H as [-> _];
    rewrite !app_length, !replicate_length; try lia. case_decide; lia.
Qed.
Lemma stack_value nd k vs : 1 ≤ nd ≤ 3 → k < nd →
  (is_Some (stack_r (l ← lift_all nd vs; concatenate (Z.of_nat k) l)) ↔
    vs ≠ [] ∧ ∃ us s, Forall2 (is_nd nd) vs us ∧ ∀ u, u ∈ us → same_but k (sh u) s) ∧
  ∀ y, stack_r (l ← lift_all nd vs; concatenate (Z.of_nat k) l) = Some y →
    (∃ us, Forall2 (is_nd nd) vs us ∧ is_concat k us y) ∧ ∀ z, (∃ us, Forall2 (is_nd nd) vs us ∧ is_concat k us z) → aeq y z.
Proof.
  intros Hnd Hk. destruct (lift_all_ok nd vs Hnd) as (us & Hus & HF). rewrite Hus. cbn [mbind option_bind]. rewrite concatenate_leaves.
  destruct (conc_value (Z.of_nat k) us) as [Hsome Hval].
  assert (Huniq : ∀ us', Forall2 (is_nd nd) vs us' → Forall2 aeq us us').
  { intros us' HF'. apply Forall2_same_length_lookup_2.
    - by rewrite <- (Forall2_length _ _ _ HF), <- (Forall2_length _ _ _ HF').
    - intros i u u' Hu Hu'. destruct (Forall2_lookup_r _ _ _ _ _ HF Hu) as (v & Hv & H1).
      destruct (Forall2_lookup_r _ _ _ _ _ HF' Hu') as (v' & Hv' & H2). replace v' with v in H2 by congruence. by eapply nd_unique. }
  assert (Haxis : ∀ n k', nd ≤ n → axis_is n (Z.of_nat k) k' → k' = k) by (intros n k' Hn [H1 [H2|H2]]; lia).
  split.
  - rewrite Hsome. split.
    + intros (Hne & s & k' & Hax & Hs). split; [by destruct vs; inversion HF; subst|]. exists us, s. split; [done|].
      destruct us as [|u us]; [done|]. assert (Hu : same_but k' (sh u) s) by (apply Hs; left).
      assert (Hlen : nd ≤ length (sh u)).
      { destruct vs as [|v vs]; inversion HF; subst. by eapply nd_length. }
      rewrite (proj1 Hu) in Hlen. rewrite (Haxis _ _ Hlen Hax) in Hs. done.
    + intros (Hne & us' & s & HF' & Hs). split; [by destruct us; inversion HF; subst|]. exists s, k. specialize (Huniq us' HF').
      split.
      * destruct us' as [|u us']; [by inversion HF'; subst|]. assert (Hu : same_but k (sh u) s) by (apply Hs; left).
        assert (Hlen : nd ≤ length (sh u)) by (inversion HF'; subst; by eapply nd_length).
        rewrite (proj1 Hu) in Hlen. split; [lia|by left].
      * intros u (i & Hi)%elem_of_list_lookup. destruct (Forall2_lookup_l _ _ _ _ _ Huniq Hi) as (u' & Hi' & [-> _]).
        apply Hs. by eapply elem_of_list_lookup_2.
  - intros y Hy. destruct (Hval y Hy) as (k' & Hax & Hc & _ & Hu).
    assert (Hlen : nd ≤ length (sh y)).
    { destruct us as [|u us]; [done|]. destruct vs as [|v vs]; inversion HF; subst.
      destruct Hc as (_ & Hs & _). rewrite <- (proj1 (Hs u ltac:(left))). by eapply nd_length. }
    rewrite (Haxis _ _ Hlen Hax) in Hc, Hu. split; [exists us; done|].
    intros z (us' & HF' & Hz). apply Hu. eapply is_concat_eq; [|exact Hz]. specialize (Huniq us' HF').
    apply Forall2_flip. eapply Forall2_impl; [exact Huniq|]. intros; by apply aeq_sym.
Qed.
Lemma vstack_value vs :
  (is_Some (stack_r (vstack vs)) ↔ vs ≠ [] ∧ ∃ us s, Forall2 (is_nd 2) vs us ∧ ∀ u, u ∈ us → same_but 0 (sh u) s) ∧
  ∀ y, stack_r (vstack vs) = Some y → is_vstack vs y ∧ ∀ z, is_vstack vs z → aeq y z.
Proof. exact (stack_value 2 0 vs ltac:(lia) ltac:(lia)). Qed.
Lemma dstack_value vs :
  (is_Some (stack_r (dstack vs)) ↔ vs ≠ [] ∧ ∃ us s, Forall2 (is_nd 3) vs us ∧ ∀ u, u ∈ us → same_but 2 (sh u) s) ∧
  ∀ y, stack_r (dstack vs) = Some y → is_dstack vs y ∧ ∀ z, is_dstack vs z → aeq y z.
Proof. exact (stack_value 3 2 vs ltac:(lia) ltac:(lia)). Qed.
Lemma is_concat_out k us y z : aeq y z → is_concat k us y → is_concat k us z.
Proof.
  intros Heq ((n & Hn & Hy) & Hs & Hv). pose proof (proj1 Heq) as Hsh. split_and!.
  - exists n. by rewrite <- Hsh.
  - intros v Hin. rewrite <- Hsh. by apply Hs.
  - intros t v jx ix Ht Hin Hst. rewrite <- (Hv t v jx ix Ht Hin Hst). symmetry. apply aeq_at; [done|].
    pose proof (Hs v (elem_of_list_lookup_2 _ _ _ Ht)) as [Hl1 Hl2]. destruct Hst as (off & j & Htot & [Hl3 Hl4] & Hj & Hix).
    pose proof (Forall2_length _ _ _ Hin) as Hl5.
    apply Forall2_same_length_lookup_2; [lia|]. intros b i d Hi Hd. destruct (decide (b = k)) as [Hb|Hb].
    + subst b. rewrite Hy in Hd. injection Hd as <-. rewrite Hix in Hi. injection Hi as <-.
      destruct (Forall2_lookup_l _ _ _ _ _ Hin Hj) as (dv & Hdv & Hlt).
      assert (off + dv ≤ n); [|lia]. clear -Htot Hn Ht Hdv. revert us off n Htot Hn Ht. induction t as [|t IH]; intros [|u us] off n Htot Hn Ht; try done.
      * injection Ht as ->. inversion Htot; subst. inversion Hn; subst. replace d with dv by congruence. lia.
      * cbn in Htot, Ht. inversion Htot; subst. inversion Hn; subst. replace d0 with d by congruence. specialize (IH us n0 n1). lia || (assert (n0 + dv ≤ n1) by (by apply IH); lia).
    + rewrite (Hl4 b Hb) in Hi. rewrite <- (Hl2 b Hb) in Hd. destruct (Forall2_lookup_l _ _ _ _ _ Hin Hi) as (d' & Hd' & Hlt). congruence.
Qed.
Lemma nd1_same v : 1 ≤ length (sh v) → is_nd 1 v v.
Proof.
  intros H. unfold is_nd, lifted. replace (1 - length (sh v)) with 0 by lia. cbn [replicate app]. rewrite app_nil_r. split; [done|].
  intros ix _. by rewrite app_nil_r.
Qed.
Lemma nd1_all vs : Forall (λ v, 1 ≤ length (sh v)) vs → Forall2 (is_nd 1) vs vs.
Proof. induction 1; constructor; [by apply nd1_same|done]. Qed.
Lemma hstack_value l vs s : cvals l = Some vs → vs ≠ [] → Forall (λ v, 2 ≤ length (sh v)) vs → (∀ v, v ∈ vs → same_but 1 (sh v) s) →
  ∃ y, stack_r (hstack l) = Some y ∧ is_hstack vs y.
Proof.
  intros Hl Hne H2 Hs. destruct (conc_value 1 vs) as [Hsome Hval].
  assert (Hlen : 2 ≤ length s).
  { destruct vs as [|v vs]; [done|]. inversion H2; subst. rewrite <- (proj1 (Hs v ltac:(left))). done. }
  assert (H : is_Some (concat 1 vs)) by (apply Hsome; split; [done|]; exists s, 1; split; [split; [lia|by left]|done]).
  destruct H as [y Hy]. destruct (concatenate_flat 1 l vs y Hl Hy) as (l' & z & Hc & Hz & Heq & _).
  exists z. split; [unfold hstack, stack_r; rewrite Hc; done|].
  destruct (Hval y Hy) as (k & Hax & Hcon & _). exists vs. split; [apply nd1_all; eapply list.Forall_impl; [exact H2|]; cbn; lia|].
  assert (Hy2 : length (sh y) = length s).
  { destruct vs as [|v vs]; [done|]. destruct Hcon as (_ & Hsv & _). by rewrite <- (proj1 (Hsv v ltac:(left))), (proj1 (Hs v ltac:(left))). }
  assert (k = 1) as -> by (destruct Hax as [? [?|?]]; lia).
  rewrite decide_False; [by eapply is_concat_out|].
  intros HF. destruct vs as [|v vs]; [done|]. inversion HF; subst. inversion H2; subst. lia.
Qed.
Lemma hstack_vectors vs : vs ≠ [] → Forall (λ v, length (sh v) = 1) vs → stack_r (hstack (Leaf <$> vs)) = None ∧ ∃ y, is_hstack vs y.
Proof.
  intros Hne HF. split.
  - unfold hstack. rewrite concatenate_leaves. destruct vs as [|v vs]; [done|]. inversion HF as [|?? Hv _]; subst. unfold concat. by rewrite Hv.
  - destruct (conc_value 0 vs) as [Hsome Hval]. destruct vs as [|v0 vs0] eqn:E; [done|]. rewrite <- E in *. assert (H0 : length (sh v0) = 1) by (subst; by inversion HF).
    assert (H : is_Some (concat 0 vs)).
    { apply Hsome. split; [by subst|]. exists (sh v0), 0. split; [split; [lia|by left]|]. intros v Hv. rewrite list.Forall_forall in HF. pose proof (HF v Hv) as Hl.
      split; [lia|]. intros b Hb. by rewrite !lookup_ge_None_2 by lia. }
    destruct H as [y Hy]. destruct (Hval y Hy) as (k & Hax & Hc & _). exists y, vs.
    split; [apply nd1_all; eapply list.Forall_impl; [exact HF|]; cbn; lia|]. rewrite decide_True by done.
    assert (Hly : length (sh y) = 1) by (destruct Hc as (_ & Hs & _); rewrite <- (proj1 (Hs v0 ltac:(subst; left))); done).
    by replace k with 0 in Hc by (destruct Hax; lia).
Qed.

(* ------------------------------------------------------------------ *)
(** The shape is that of the operand when the object was made. *)
Lemma squeeze_stale : ∃ s a b, view_r (squeeze_shape None s) a = Some b ∧ ∀ c, is_squeeze None a c → sh b ≠ sh (atleast_1d c).
Proof.
  exists [2; 1; 3], (Arr_ [3; 1; 2] (λ _, 0%R)), (Arr_ [2; 3] (λ _, 0%R)). split; [done|]. intros c Hc.
  destruct (squeeze_all (Arr_ [3; 1; 2] (λ _, 0%R))) as (b & Hb & Hsq).
  destruct Hc as (keep & Hsh & Hst & Hk & _). cbn [sh] in *.
  assert (Hkeep : keep = [0; 2]).
  { assert (H0 : 0 ∈ keep) by (apply Hk; by exists 3). assert (H2 : 2 ∈ keep) by (apply Hk; by exists 2).
    assert (H1 : ∀ k, k ∈ keep → k = 0 ∨ k = 2).
    { intros k (d & Hd & Hne)%Hk. destruct k as [|[|[|k]]]; [by left|by injection Hd as <-|by right|done]. }
    destruct keep as [|a [|b' [|c' keep]]]; [by apply elem_of_nil in H0| | |].
    - apply elem_of_list_singleton in H0, H2. lia.
    - inversion Hst as [|?? _ Hlt]; subst. inversion Hlt; subst. destruct (H1 a) as [->| ->]; [left|..].
      + destruct (H1 b') as [->| ->]; [right; left|lia|done].
      + destruct (H1 b') as [->| ->]; [right; left|lia|lia].
    - inversion Hst as [|?? Hst' Hlt]; subst. inversion Hst' as [|?? _ Hlt']; subst. inversion Hlt as [|?? L1 Hlt1]; subst. inversion Hlt'; subst.
      destruct (H1 a ltac:(left)), (H1 b' ltac:(right; left)), (H1 c' ltac:(right; right; left)); lia. }
  subst keep. cbn in Hsh. unfold atleast_1d. rewrite Hsh. cbn [sh]. rewrite Hsh. done.
Qed.
Lemma flip_stale : ∃ s a idxs t b, getitem_terms fliplr_key s = Some (idxs, t) ∧ select idxs (Some t) a = Some b ∧
  2 ≤ length (sh a) ∧ asize a = size s ∧ ¬ is_fliplr a b.
Proof.
  exists [1; 4], (Arr_ [2; 2] INR), [3; 2; 1; 0], [1; 4]. eexists. split_and!; [reflexivity|reflexivity|simpl; lia|reflexivity|].
  intros (m & n & s & H1 & H2 & _). done.
Qed.

(* ------------------------------------------------------------------ *)
(** The number 1 as the derivative of atleast_nd. *)
Lemma nd_handle (g : rgraph) (size : nat → nat) J o x : g !! o = Some (nd_node x) → size o = size x → meq (size o) (size x) (J o x) (mscal 1) →
  handle g size J o.
Proof.
  intros Hg Hs HJ. exists (nd_node x), x, (Num 1), 1%R. split_and!; try done.
  - by left.
  - cbn. by rewrite decide_True.
  - intros q Hq. cbn. by rewrite decide_False.
  - intros q Hq Hne. by apply elem_of_list_singleton in Hq.
Qed.
Lemma nd_direct (g : rgraph) o x n : g !! o = Some (nd_node x) →
  rdr (S n) g o x = Some (Some (Arr (Arr_ [1; 1] (λ _, 1%R)))).
Proof.
  intros Hg.
  change (rdr (S n) g o x) with (nd ← g !! o; drs ← foldl (add_forward x nd (λ p, rdr n g p x)) (Some (option_list (jac nd x))) (ops nd); conclude drs).
  rewrite Hg. cbn [mbind option_bind nd_node jac ops foldl]. rewrite decide_True by done. cbn [option_list add_forward mbind option_bind].
  unfold add_forward. cbn [mbind option_bind]. rewrite decide_True by done. 
  change (conclude [Num 1] = Some (Some (Arr (Arr_ [1; 1] (λ _, 1%R))))). unfold conclude. change (dsum [Num 1]) with (Some (Some (Num 1))). cbn [mbind option_bind].
  unfold finish. simpl as_array. cbv match.
  rewrite decide_False; [done|]. unfold nonzeros. simpl.
  destruct (Req_EM_T 1 0) as [H|_]; [lra|]. simpl. unfold asize. simpl. lia.
Qed.
Lemma nd_direct_wrong (g : rgraph) o x n : g !! o = Some (nd_node x) → ∀ size, size ≠ 1 →
  ∃ r, rdr (S n) g o x = Some (Some r) ∧ ∀ A, ¬ is_mat r size size A.
Proof.
  intros Hg size Hs. eexists. split; [by apply nd_direct|]. intros A [H _]. cbn in H. congruence.
Qed.
