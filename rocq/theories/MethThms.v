(** Proofs about chains of transpositions and reshapes. *)
From Coq Require Import Reals Lra.
From stdpp Require Import list list_numbers numbers.
From Verif Require Import ArrModel ArrThms Curve ElemModel ElemThms ReorderModel ReorderSpec ReorderThms ReorderCache IndexThms
  DotModel TensorThms ViewThms MethModel MethSpec.

(* ------------------------------------------------------------------ *)
(** Arrays. *)
Lemma aeq_refl {T} (a : arr T) : aeq a a. Proof. done. Qed.
Lemma aeq_sym {T} (a b : arr T) : aeq a b → aeq b a.
Proof. intros [Hs Hd]. split; [done|]. intros i Hi. symmetry. apply Hd. unfold asize in *. by rewrite Hs. Qed.
Lemma aeq_trans {T} (a b c : arr T) : aeq a b → aeq b c → aeq a c.
Proof. intros [Hs Hd] [Hs' Hd']. split; [congruence|]. intros i Hi. rewrite Hd by done. apply Hd'. unfold asize in *. by rewrite <- Hs. Qed.
Lemma aeq_at {T} (a b : arr T) ix : aeq a b → inside (sh a) ix → at_ a ix = at_ b ix.
Proof. intros [Hs Hd] Hi. unfold at_. rewrite <- Hs. apply Hd. by apply ravel_lt. Qed.
Lemma at_aeq {T} (a b : arr T) : sh a = sh b → (∀ ix, inside (sh a) ix → at_ a ix = at_ b ix) → aeq a b.
Proof.
  intros Hs H. split; [done|]. intros i Hi. specialize (H _ (unravel_inside _ _ Hi)). unfold at_ in H.
  rewrite <- Hs in H. by rewrite ravel_unravel in H.
Qed.

(* ------------------------------------------------------------------ *)
(** Reshapes. *)
Lemma reshaped_is ns (a b : arr R) : reshaped ns a = Some b → is_reshaped ns a b.
Proof.
  intros H. destruct (reshape_value ns a b H) as [(Hl & Hs & Hd & Hu) Hv]. split_and!; [|done|done| |auto].
  - apply Forall2_same_length_lookup. split; [done|]. intros i d e Hi He. destruct (decide (d = -1)%Z); [by right|left; eauto].
  - unfold reshaped in H. apply fmap_Some in H as (s & H & _). intros H1 H0. by eapply fill_zero.
Qed.
Lemma size_nonzero_known (ns : list Z) : Forall (λ d, -1 ≤ d)%Z ns → 0%Z ∉ ns → size (Z.to_nat <$> filter (λ d, d ≠ -1)%Z ns) ≠ 0.
Proof.
  intros HF H0. apply size_zero. intros (d & Hd & Hin)%elem_of_list_fmap. apply elem_of_list_filter in Hin as [Hne Hin].
  rewrite list.Forall_forall in HF. specialize (HF d Hin). simpl in HF. assert (d = 0)%Z by lia. by subst.
Qed.
Lemma no_minus ns (s : shp) : Forall2 (λ d e, d = Z.of_nat e ∨ d = (-1)%Z) ns s → (-1)%Z ∉ ns → ns = Z.of_nat <$> s.
Proof.
  induction 1 as [|d e ns s H _ IH]; [done|]. rewrite not_elem_of_cons. intros [Hd Hn]. rewrite fmap_cons, <- IH by done.
  f_equal. destruct H as [H|H]; [done|congruence].
Qed.
Lemma filter_none_m (ns : list Z) : (-1)%Z ∉ ns → filter (λ d, d = -1)%Z ns = [] ∧ filter (λ d, d ≠ -1)%Z ns = ns.
Proof.
  induction ns as [|d ns IH]; [done|]. rewrite not_elem_of_cons. intros [Hd Hn]. destruct (IH Hn) as [E1 E2].
  rewrite filter_cons_False, filter_cons_True by congruence. by rewrite E1, E2.
Qed.
Lemma size_app_ l k : size (l ++ k) = size l * size k. Proof. apply size_app. Qed.
Lemma fill_given n ns (s : shp) : Forall2 (λ d e, d = Z.of_nat e ∨ d = (-1)%Z) ns s → size s = n →
  (∀ i j, ns !! i = Some (-1)%Z → ns !! j = Some (-1)%Z → i = j) → ((-1)%Z ∈ ns → 0%Z ∉ ns) → fill_shape n ns = Some s.
Proof.
  intros HF Hn Hu Hz. destruct (decide ((-1)%Z ∈ ns)) as [Hin|Hni].
  2: { rewrite (no_minus _ _ HF Hni). by apply fill_nats. }
  specialize (Hz Hin). apply elem_of_list_split in Hin as (l1 & l2 & ->).
  apply Forall2_app_inv_l in HF as (s1 & s2' & H1 & H2 & ->). apply Forall2_cons_inv_l in H2 as (e & s2 & _ & H2 & ->).
  assert (N1 : (-1)%Z ∉ l1).
  { intros (i & Hi)%elem_of_list_lookup. pose proof (lookup_lt_Some _ _ _ Hi) as Hlt.
    specialize (Hu i (length l1)). rewrite lookup_app_l in Hu by done. assert (M : ((l1 ++ (-1)%Z :: l2) !! length l1) = Some (-1)%Z) by (by apply list_lookup_middle). specialize (Hu Hi M). lia. }
  assert (N2 : (-1)%Z ∉ l2).
  { intros (i & Hi)%elem_of_list_lookup. assert (M : ((l1 ++ (-1)%Z :: l2) !! length l1) = Some (-1)%Z) by (by apply list_lookup_middle).
    assert (N : ((l1 ++ (-1)%Z :: l2) !! (length l1 + S i)) = Some (-1)%Z).
    { rewrite lookup_app_r by lia. by replace (length l1 + S i - length l1) with (S i) by lia. }
    specialize (Hu _ _ N M). lia. }
  pose proof (no_minus _ _ H1 N1) as ->. pose proof (no_minus _ _ H2 N2) as ->.
  destruct (filter_none_m _ N1) as [F1 G1], (filter_none_m _ N2) as [F2 G2].
  assert (T : ∀ s : shp, Z.to_nat <$> (Z.of_nat <$> s) = s).
  { intros t. rewrite <- list_fmap_compose. apply fmap_same. intros d. apply Nat2Z.id. }
  assert (K : size (Z.to_nat <$> filter (λ d, d ≠ -1)%Z ((Z.of_nat <$> s1) ++ (-1)%Z :: (Z.of_nat <$> s2))) = size s1 * size s2).
  { rewrite stdpp.list.filter_app, filter_cons_False by (intros C; by apply C). rewrite G1, G2, fmap_app, !T. apply size_app. }
  assert (K0 : size s1 * size s2 ≠ 0).
  { rewrite <- K. apply size_nonzero_known; [|done]. apply Forall_app. split; [|constructor; [lia|]];
    apply list.Forall_forall; intros d (k & -> & _)%elem_of_list_fmap; lia. }
  assert (E : n / (size s1 * size s2) = e).
  { rewrite <- Hn, size_app, size_cons. replace (size s1 * (e * size s2)) with (e * (size s1 * size s2)) by lia. by apply Nat.div_mul. }
  unfold fill_shape. rewrite K, E.
  assert (S_ : (λ d, if decide (d = -1)%Z then e else Z.to_nat d) <$> ((Z.of_nat <$> s1) ++ (-1)%Z :: (Z.of_nat <$> s2)) = s1 ++ e :: s2).
  { rewrite fmap_app, fmap_cons, decide_True by done. rewrite <- !list_fmap_compose.
    f_equal; [|f_equal]; apply fmap_same; intros d; unfold compose; rewrite decide_False by lia; apply Nat2Z.id. }
  rewrite S_, decide_True; [done|]. rewrite stdpp.list.filter_app, F1, filter_cons_True, F2 by done. split_and!; [simpl; lia| |done|by right].
  apply Forall_app. split; [|constructor; [lia|]]; apply list.Forall_forall; intros d (k & -> & _)%elem_of_list_fmap; lia.
Qed.
Lemma is_reshaped_some ns (a b : arr R) : is_reshaped ns a b → ∃ c, reshaped ns a = Some c ∧ aeq c b.
Proof.
  intros (H1 & H2 & H3 & H4 & H5). unfold reshaped. rewrite (fill_given _ _ _ H1 H2 H3 H4). eexists. split; [done|].
  split; [done|]. intros i Hi. symmetry. apply H5. unfold asize in Hi, H2 |- *. simpl in Hi. lia.
Qed.
Lemma is_reshaped_aeq ns a a' b b' : aeq a a' → aeq b b' → is_reshaped ns a b → is_reshaped ns a' b'.
Proof.
  intros [Hs Hd] [Hs' Hd'] (H1 & H2 & H3 & H4 & H5). unfold asize in *. split_and!; [by rewrite <- Hs'|unfold asize; by rewrite <- Hs, <- Hs'|done|done|].
  intros i Hi. unfold asize in Hi. rewrite <- Hs in Hi. rewrite <- Hd' by lia. rewrite H5 by done. by apply Hd.
Qed.

(* ------------------------------------------------------------------ *)
(** Transpositions. *)
Lemma plan_axes l (s : shp) : (∃ p, plan_of (Transpose (Some l)) s = Some p) ↔
  ∃ ks, Forall2 (axis_is (length s)) l ks ∧ NoDup ks ∧ length ks = length s.
Proof.
  cbn [plan_of]. split.
  - intros (p & H). apply bind_Some in H as (ks & Hk & H). destruct (decide _) as [[H1 H2]|]; [|done]. exists ks. split_and!; [|done|done].
    apply mapM_Some in Hk. eapply Forall2_impl; [exact Hk|]. intros k a. apply naxis_is.
  - intros (ks & HF & Hnd & Hl). assert (Hk : mapM (naxis (length s)) l = Some ks).
    { apply mapM_Some. eapply Forall2_impl; [exact HF|]. intros k a. apply naxis_is. }
    rewrite Hk. cbn [mbind option_bind]. rewrite decide_True by done. eauto.
Qed.
Lemma reorder_is ax (a b : arr R) : reorder 0%R (Transpose ax) a = Some b → is_transposed ax a b.
Proof.
  intros H. destruct (reorder_value 0%R _ _ _ H) as [Hs Hv]. split_and!; [|done|].
  - intros l ->. unfold reorder in H. apply fmap_Some in H as (p & H & _). apply plan_axes. eauto.
  - intros ix jx Hi Hj Hc. destruct (Hv ix Hi) as [(kx & Hk & Hc' & E)|([] & _)].
    rewrite E. apply fmap_Some in H as (p & Hp & ->). by rewrite (comes_from_unique _ _ _ _ _ _ Hp Hi Hj Hk Hc Hc').
Qed.
Lemma comes_det ax (s ix ix' jx : list nat) : length ix = length s → length ix' = length s →
  (∀ l, ax = Some l → length l = length s) → comes_from (Transpose ax) s ix jx → comes_from (Transpose ax) s ix' jx → ix = ix'.
Proof.
  intros H1 H2 Hl. destruct ax as [l|]; cbn [comes_from].
  - intros C C'. specialize (Hl l eq_refl). apply list_eq_same_length with (length s); [done|done|]. intros i x y Hi Hx Hy.
    destruct (lookup_lt_is_Some_2 l i) as [k Hk]; [lia|]. destruct (C i k Hk) as (a & Ha & E), (C' i k Hk) as (a' & Ha' & E').
    rewrite (axis_is_unique _ _ _ _ Ha Ha') in E. congruence.
  - intros -> E. by apply (inj reverse) in E.
Qed.
Lemma shape_det ax (s t t' : shp) : (∀ l, ax = Some l → length l = length s) →
  shape_rule (Transpose ax) s t → shape_rule (Transpose ax) s t' → t = t'.
Proof. intros Hl [H1 H2] [H3 H4]. by eapply comes_det. Qed.
Lemma transposed_length ax a b l : is_transposed ax a b → ax = Some l → length l = length (sh a).
Proof. intros (H & _) E. destruct (H l E) as (ks & HF & _ & Hk). rewrite <- Hk. by eapply Forall2_length. Qed.
Lemma is_transposed_some ax (a b : arr R) : is_transposed ax a b → ∃ c, reorder 0%R (Transpose ax) a = Some c ∧ aeq c b.
Proof.
  intros H. assert (Hp : ∃ p, plan_of (Transpose ax) (sh a) = Some p).
  { destruct ax as [l|]; [|cbn [plan_of]; eauto]. apply plan_axes. by apply H. }
  destruct Hp as (p & Hp). unfold reorder. rewrite Hp. eexists. split; [done|].
  assert (Hc : reorder 0%R (Transpose ax) a = Some (moved 0%R p a)) by (unfold reorder; by rewrite Hp).
  destruct (reorder_value 0%R _ _ _ Hc) as [Hs Hv]. destruct H as (Hx & Hsb & Hb) eqn:EH.
  assert (Hsh : sh (moved 0%R p a) = sh b).
  { eapply shape_det; [|exact Hs|exact Hsb]. intros l. by apply (transposed_length ax a b l H). }
  apply at_aeq; [done|]. intros ix Hi. destruct (Hv ix Hi) as [(jx & Hj & C & ->)|([] & _)]. symmetry. apply Hb; [by rewrite <- Hsh|done|done].
Qed.
Lemma is_transposed_aeq ax a a' b b' : aeq a a' → aeq b b' → is_transposed ax a b → is_transposed ax a' b'.
Proof.
  intros Ha Hb (H1 & H2 & H3). pose proof (proj1 Ha) as Hs. pose proof (proj1 Hb) as Hs'. split_and!; [by rewrite <- Hs|by rewrite <- Hs, <- Hs'|].
  intros ix jx Hi Hj C. rewrite <- Hs in *. rewrite <- Hs' in *. rewrite <- (aeq_at b b'), <- (aeq_at a a') by done. by apply H3.
Qed.
(** The number of axes and of elements stays the same. *)
Lemma transposed_plan ax (s : shp) p : plan_of (Transpose ax) s = Some p → ∃ ks, whole (length s) ks ∧ p = permute_axes s ks.
Proof.
  destruct ax as [l|]; cbn [plan_of].
  - intros (ks & Hk & H)%bind_Some. destruct (decide _) as [[H1 H2]|]; [|done]. injection H as <-. exists ks. split; [|done]. split_and!; [done|done|].
    intros a (i & Hi)%elem_of_list_lookup. apply mapM_Some in Hk. destruct (Forall2_lookup_r _ _ _ _ _ Hk Hi) as (k & _ & E). by apply naxis_is in E as [? _].
  - intros [= <-]. eexists. split; [|done]. split_and!.
    + rewrite reverse_Permutation. apply NoDup_seq_.
    + by rewrite reverse_length, seq_length.
    + intros a Ha. rewrite elem_of_reverse, elem_of_seq in Ha. lia.
Qed.
Lemma reorder_size ax (a b : arr R) : reorder 0%R (Transpose ax) a = Some b → asize b = asize a ∧ length (sh b) = length (sh a).
Proof.
  unfold reorder. intros (p & Hp & ->)%fmap_Some. destruct (transposed_plan _ _ _ Hp) as (ks & Hk & ->). split.
  - unfold asize. cbn [moved sh permute_axes fst]. by apply size_dims.
  - cbn [moved sh permute_axes fst]. rewrite fmap_length. apply Hk.
Qed.

(* ------------------------------------------------------------------ *)
(** One call. *)
Lemma at1_nonempty {T} (a : arr T) : sh (atleast_1d a) ≠ [].
Proof. unfold atleast_1d. destruct (sh a) eqn:E; [done|]. by rewrite E. Qed.
Lemma mval_nonempty o x a : mval o x = Some a → sh a ≠ [].
Proof.
  destruct o; cbn [mval]; intros H.
  - injection H as <-. apply at1_nonempty.
  - apply bind_Some in H as (b & _ & H). apply fmap_Some in H as (c & _ & ->). apply at1_nonempty.
  - apply bind_Some in H as (b & _ & H). apply fmap_Some in H as (c & _ & ->). apply at1_nonempty.
Qed.
Lemma at1_dat_ {T} (a : arr T) : dat (atleast_1d a) = dat a.
Proof. unfold atleast_1d. by destruct (sh a). Qed.
Lemma nd_reshape_same ns (a b : arr R) : nd_reshape ns a = Some b → asize b = asize a ∧ dat b = dat a.
Proof.
  destruct ns as [l|]; cbn [nd_reshape]; [|by intros [= ->]]. unfold reshaped. intros (s & Hs & ->)%fmap_Some. split; [|done].
  by apply fill_shape_size in Hs.
Qed.
Lemma below_val o x a : mval o x = Some a → ∃ a0, mval (below o) x = Some a0 ∧ asize a0 = asize a ∧ dat a0 = dat a.
Proof.
  revert a. induction o as [|o IH ns|o IH ax]; intros a H; cbn [below]; [by eauto| |by eauto].
  cbn [mval] in H. apply bind_Some in H as (b & Hb & H). apply fmap_Some in H as (c & Hc & ->).
  destruct (IH b Hb) as (a0 & H0 & Hs & Hd). exists a0. split; [done|]. apply nd_reshape_same in Hc as [Hs' Hd'].
  rewrite at1_size, at1_dat_. split; congruence.
Qed.
Lemma reshaped_below l (a0 a : arr R) : asize a0 = asize a → dat a0 = dat a → reshaped l a0 = reshaped l a.
Proof. intros Hs Hd. unfold reshaped. by rewrite Hs, Hd. Qed.
Lemma fill_length n ns s : fill_shape n ns = Some s → length s = length ns.
Proof. intros H. by apply fill_shape_asked in H as (? & _). Qed.

(** Reshaping the object below to a shape with at least one axis. *)
Lemma reshape_step o x a l : mval o x = Some a → l ≠ [] → mval (Reshape_ (below o) (Some l)) x = reshaped l a.
Proof.
  intros H Hl. destruct (below_val o x a H) as (a0 & H0 & Hs & Hd). cbn [mval]. rewrite H0. cbn [mbind option_bind nd_reshape].
  rewrite (reshaped_below l a0 a Hs Hd). destruct (reshaped l a) as [b|] eqn:E; [|done]. cbn [fmap option_fmap option_map]. f_equal. apply at1_id.
  unfold reshaped in E. apply fmap_Some in E as (s & E & ->). apply fill_length in E. simpl. intros ->. by destruct l.
Qed.
Lemma transpose_step o x a ax : mval o x = Some a → mval (Transpose_ o ax) x = reorder 0%R (axes_rop ax) a.
Proof.
  intros H. cbn [mval]. rewrite H. cbn [mbind option_bind]. destruct (reorder _ _ _) as [b|] eqn:E; [|done].
  cbn [fmap option_fmap option_map]. f_equal. apply at1_id. unfold axes_rop in E. apply reorder_size in E as [_ E].
  pose proof (mval_nonempty o x a H). destruct (sh a); [done|]. by destruct (sh b).
Qed.
Lemma reorder_iff ax (a b : arr R) : (∃ c, reorder 0%R (Transpose ax) a = Some c ∧ aeq c b) ↔ is_transposed ax a b.
Proof.
  split; [|apply is_transposed_some]. intros (c & H & E). eapply is_transposed_aeq; [apply aeq_refl|exact E|]. by apply reorder_is.
Qed.
Lemma reshaped_iff ns (a b : arr R) : (∃ c, reshaped ns a = Some c ∧ aeq c b) ↔ is_reshaped ns a b.
Proof.
  split; [|apply is_reshaped_some]. intros (c & H & E). eapply is_reshaped_aeq; [apply aeq_refl|exact E|]. by apply reshaped_is.
Qed.
Lemma ravel_iff (a b : arr R) : is_reshaped [(-1)%Z] a b ↔ sh b = [asize a] ∧ ∀ i, i < asize a → dat b i = dat a i.
Proof.
  split.
  - intros (HF & Hs & _ & _ & Hd). split; [|done]. apply Forall2_cons_inv_l in HF as (e & s & _ & H & E). apply Forall2_nil_inv_l in H as ->.
    unfold asize in Hs. rewrite E in Hs. rewrite E. unfold asize. rewrite <- Hs. cbn. f_equal. lia.
  - intros [Hs Hd]. split_and!; [rewrite Hs; repeat constructor; by right| | | |done].
    + unfold asize at 1. rewrite Hs. cbn. lia.
    + intros i j Hi%lookup_lt_Some Hj%lookup_lt_Some. simpl in Hi, Hj. lia.
    + intros _ H. apply elem_of_list_singleton in H. done.
Qed.
Lemma nums_inj (l k : list Z) : ANum <$> l = ANum <$> k → l = k.
Proof. revert k. induction l as [|x l IH]; intros [|y k]; try done. intros [= -> E]. f_equal. by apply IH. Qed.
Lemma mapM_num args l : mapM num args = Some l ↔ numbers_ args l.
Proof.
  unfold numbers_. rewrite mapM_Some. split.
  - induction 1 as [|x y args l H _ IH]; [done|]. destruct x; try done. injection H as ->. by rewrite fmap_cons, <- IH.
  - intros ->. induction l; constructor; [done|]. apply IHl.
Qed.
Lemma transpose_iff o x a ax (b : arr R) : mval o x = Some a →
  ((∃ o' b', Some (Transpose_ o ax) = Some o' ∧ mval o' x = Some b' ∧ aeq b' b) ↔
   is_transposed (match ax with NoAxes => None | Axes l => Some l | Axis k => Some [k] end) a b).
Proof.
  intros H. rewrite <- reorder_iff. split.
  - intros (o' & b' & [= <-] & Hv & E). rewrite (transpose_step o x a ax H) in Hv. eauto.
  - intros (c & Hc & E). eexists _, c. split; [done|]. by rewrite (transpose_step o x a ax H).
Qed.
Lemma reshape_iff o x a l (b : arr R) : mval o x = Some a → l ≠ [] →
  ((∃ o' b', Some (Reshape_ (below o) (Some l)) = Some o' ∧ mval o' x = Some b' ∧ aeq b' b) ↔ is_reshaped l a b).
Proof.
  intros H Hl. rewrite <- reshaped_iff. split.
  - intros (o' & b' & [= <-] & Hv & E). rewrite (reshape_step o x a l H Hl) in Hv. eauto.
  - intros (c & Hc & E). eexists _, c. split; [done|]. by rewrite (reshape_step o x a l H Hl).
Qed.
Lemma below_self o : ¬ is_reshape o → below o = o.
Proof. destruct o; [done|by intros []|done]. Qed.
Lemma step_right o x a c b : mval o x = Some a → fine_for o c →
  ((∃ o' b', mcall_ c o = Some o' ∧ mval o' x = Some b' ∧ aeq b' b) ↔ numpy_gives c a b).
Proof.
  intros Ha [Hf Hn]. destruct c as [|args|args|]; cbn [mcall_].
  - rewrite (transpose_iff o x a NoAxes b Ha). split; [by constructor|by inversion 1].
  - destruct args as [|[k|l|] [|? ?]]; cbn [fine_call length] in Hf; try lia; cbn [transpose_args fmap option_fmap option_map].
    + rewrite (transpose_iff o x a NoAxes b Ha). split; [by constructor|]. inversion 1; subst; [done|]. by destruct l.
    + rewrite (transpose_iff o x a (Axis k) b Ha). split; [by apply (gives_transpose_numbers [ANum k] [k])|].
      inversion 1 as [| | | |args l ? ? E _ Ht| | | |]; subst. unfold numbers_ in E. destruct l as [|? [|]]; simplify_eq/=. done.
    + rewrite (transpose_iff o x a (Axes l) b Ha). split; [by constructor|].
      inversion 1 as [| | | |args l' ? ? E _ Ht| | | |]; subst; [done|]. unfold numbers_ in E. by destruct l' as [|? [|]].
    + rewrite (transpose_iff o x a NoAxes b Ha). split; [by constructor|].
      inversion 1 as [| | | |args l' ? ? E _ Ht| | | |]; subst; [done|]. unfold numbers_ in E. by destruct l' as [|? [|]].
  - assert (Hnum : ∀ args l, args ≠ [] → numbers_ args l → args ≠ [ATuple []] → args ≠ [ANone] →
      ((∃ o' b', Some (Reshape_ (below o) (Some l)) = Some o' ∧ mval o' x = Some b' ∧ aeq b' b) ↔ numpy_gives (CReshape args) a b)).
    { clear args Hf Hn. intros args l H0 E _ _. assert (l ≠ []) by (intros ->; done). rewrite (reshape_iff o x a l b Ha) by done. split.
      - by apply gives_reshape_numbers.
      - inversion 1 as [| | | | | |l' ? ? Ht|args' l' ? ? E' _ Ht|]; subst; unfold numbers_ in *.
        + by destruct l as [|? [|]].
        + by destruct l as [|? [|]].
        + rewrite E in E'. by apply nums_inj in E' as ->. }
    destruct args as [|y [|z args]].
    + cbn. split; [by intros (? & ? & ? & _)|]. inversion 1 as [| | | | | | |args' l' ? ? E' ? Ht|]; subst. unfold numbers_ in E'. by destruct l'.
    + destruct y as [k|l|]; cbn [reshape_args fmap option_fmap option_map].
      * by apply Hnum.
      * assert (l ≠ []) by (intros ->; by apply Hf). rewrite (reshape_iff o x a l b Ha) by done. split; [by constructor|].
        inversion 1 as [| | | | | |l' ? ? Ht|args' l' ? ? E' _ Ht|]; subst; [done|]. unfold numbers_ in E'. by destruct l' as [|? [|]].
      * assert (Hr : ¬ is_reshape o) by (intros Hr; by apply Hn in Hr). rewrite (below_self o Hr). cbn [mval]. split.
        { intros (o' & b' & [= <-] & Hv & E). cbn [mval] in Hv. rewrite Ha in Hv. cbn in Hv. injection Hv as <-. constructor.
          by rewrite at1_id in E by (by eapply mval_nonempty). }
        { intros H. assert (E : aeq a b).
          { inversion H as [| | | | | | |args' l' ? ? E' _ Ht|]; subst; [done|]. unfold numbers_ in E'. by destruct l' as [|? [|]]. }
          eexists _, a. split; [done|]. split; [|done]. cbn [mval]. rewrite Ha. cbn. by rewrite at1_id by (by eapply mval_nonempty). }
    + cbn [reshape_args]. replace (match y with ANum _ | _ => Some <$> mapM num (y :: z :: args) end) with (Some <$> mapM num (y :: z :: args)) by (by destruct y).
      destruct (mapM num (y :: z :: args)) as [l|] eqn:E.
      * cbn [fmap option_fmap option_map]. apply Hnum; [done|by apply mapM_num|done|done].
      * cbn [fmap option_fmap option_map]. split; [by intros (? & ? & ? & _)|].
        inversion 1 as [| | | | | | |args' l' ? ? E' _ Ht|]; subst. apply mapM_num in E'. congruence.
  - rewrite (reshape_iff o x a [(-1)%Z] b Ha) by done. rewrite ravel_iff. split; [intros []; by constructor|by inversion 1].
Qed.

(* ------------------------------------------------------------------ *)
(** Chains. *)
Lemma gives_aeq c a a' b : aeq a a' → numpy_gives c a b → numpy_gives c a' b.
Proof.
  intros E H. assert (HT : ∀ ax, is_transposed ax a b → is_transposed ax a' b) by (intros ax; by apply is_transposed_aeq).
  assert (HR : ∀ l, is_reshaped l a b → is_reshaped l a' b) by (intros l; by apply is_reshaped_aeq).
  destruct H as [| | | |args l ? ? ? ?| | |args l ? ? ? ?|a b Hs Hd].
  - apply gives_T; auto.
  - apply gives_transpose; auto.
  - apply gives_transpose_none; auto.
  - apply gives_transpose_tuple; auto.
  - apply (gives_transpose_numbers args l); auto.
  - apply gives_reshape_none. eapply aeq_trans; [by apply aeq_sym|done].
  - apply gives_reshape_tuple; auto.
  - apply (gives_reshape_numbers args l); auto.
  - destruct E as [E1 E2]. assert (S_ : asize a' = asize a) by (unfold asize; by rewrite E1). apply gives_ravel; rewrite S_; [done|].
    intros i Hi. rewrite Hd by done. by apply E2.
Qed.
Lemma call_reshapes c o o' : mcall_ c o = Some o' → is_reshape o' → reshapes c = true.
Proof.
  destruct c as [|args|args|]; cbn [mcall_ reshapes]; [by intros [= <-]| |done|done].
  by intros (ax & _ & ->)%fmap_Some.
Qed.
Lemma chain_from l o x a a' b r : mval o x = Some a → aeq a a' → (is_reshape o → r = true) → fine_chain r l →
  numpy_chain l a' b → ∃ o' b', mcalls l o = Some o' ∧ mval o' x = Some b' ∧ aeq b' b.
Proof.
  revert o a a' r. induction l as [|c l IH]; intros o a a' r Ha E Hr Hf Hc.
  - inversion Hc; subst. exists o, a. split_and!; [done|done|]. by eapply aeq_trans.
  - destruct Hf as (Hf1 & Hf2 & Hf3). inversion Hc as [|? ? ? b1 ? Hg Hl]; subst. apply (gives_aeq c a' a) in Hg; [|by apply aeq_sym].
    apply (step_right o x a c b1 Ha) in Hg as (o1 & c1 & Hc1 & Hv1 & E1).
    2: { split; [done|]. intros Hro. by apply Hf2, Hr. }
    cbn [mcalls]. rewrite Hc1. cbn [mbind option_bind]. eapply (IH o1 c1 b1 (reshapes c)); try done.
    by apply (call_reshapes c o).
Qed.
Lemma chain_right l x b : fine_chain false l → numpy_chain l (atleast_1d x) b →
  ∃ o b', mcalls l Leaf = Some o ∧ mval o x = Some b' ∧ aeq b' b.
Proof. intros Hf Hc. by eapply (chain_from l Leaf x (atleast_1d x) (atleast_1d x) b false). Qed.

(* ------------------------------------------------------------------ *)
(** Derivatives. *)
Lemma inj_permutes n col : (∀ i, i < n → col i < n) → (∀ i j, i < n → j < n → col i = col j → i = j) → permutes n col.
Proof.
  intros H1 H2. split_and!; [done|done|]. intros j Hj.
  assert (Hnd : NoDup (col <$> seq 0 n)).
  { apply NoDup_alt. intros i k x Hi Hk. rewrite list_lookup_fmap in Hi, Hk. apply fmap_Some in Hi as (i' & Hi & ->), Hk as (k' & Hk & E).
    apply lookup_seq in Hi as [-> Hi], Hk as [-> Hk]. simpl in *. by apply H2. }
  assert (Hp : col <$> seq 0 n ≡ₚ seq 0 n).
  { apply submseteq_Permutation_length_eq; [by rewrite fmap_length|]. apply NoDup_submseteq; [done|].
    intros x (i & -> & Hi%elem_of_seq)%elem_of_list_fmap. apply elem_of_seq. specialize (H1 i). lia. }
  assert (Hin : j ∈ col <$> seq 0 n) by (rewrite Hp; apply elem_of_seq; lia).
  apply elem_of_list_fmap in Hin as (i & -> & Hi%elem_of_seq). exists i. split; [lia|done].
Qed.
Lemma permutes_comp n f h : permutes n f → permutes n h → permutes n (λ i, h (f i)).
Proof. intros (F1 & F2 & F3) (G1 & G2 & G3). apply inj_permutes; [auto|]. intros i j Hi Hj E. apply F2; [done|done|]. apply G2; auto. Qed.
Lemma permutes_id n : permutes n (λ i, i).
Proof. split_and!; [done|done|eauto]. Qed.

Definition no_number (o : mobj) : Prop := ∀ a k, o ≠ Transpose_ a (Axis k).
(** A single object above an operand with the value [b]. *)
Lemma local_right o p (b d : arr R) : (∃ ns, o = Reshape_ p ns ∧ nd_reshape ns b = Some d) ∨
    (∃ ax, o = Transpose_ p ax ∧ reorder 0%R (axes_rop ax) b = Some d) → no_number o →
  ∃ J col, local_jac o b = Some J ∧ asize d = asize b ∧ permutes (asize b) col ∧ picks J (asize b) (asize b) col ∧
    ∀ y z, mval p y = Some z → sh z = sh b → ∃ c, mval o y = Some c ∧ sh c = sh (atleast_1d d) ∧ ∀ i, i < asize b → dat c i = dat z (col i).
Proof.
  intros [(ns & -> & H)|(ax & -> & H)] Hno; cbn [local_jac].
  - eexists _, (λ i, i). split; [done|]. destruct (nd_reshape_same _ _ _ H) as [Hs Hd]. split_and!; [done|apply permutes_id|apply picks_diags|].
    intros y z Hz E. cbn [mval]. rewrite Hz. cbn [mbind option_bind]. assert (Hc : ∃ c, nd_reshape ns z = Some c ∧ sh c = sh d ∧ dat c = dat z).
    { destruct ns as [l|]; cbn [nd_reshape] in *; [|injection H as <-; eauto]. unfold reshaped, asize in *. rewrite E.
      apply fmap_Some in H as (s & -> & ->). eexists. split; [done|]. done. }
    destruct Hc as (c & Hc & Hsc & Hdc). rewrite Hc. eexists. split; [done|]. split; [by apply at1_sh|]. intros i Hi. by rewrite at1_dat, Hdc.
  - assert (Hj : local_jac (Transpose_ p ax) b = reorder_jac (axes_rop ax) b) by (destruct ax; [done|done|exfalso; by eapply Hno]).
    cbn [local_jac] in Hj. rewrite Hj. unfold axes_rop in H. set (al := match ax with NoAxes => None | Axes l => Some l | Axis k => Some [k] end) in H.
    pose proof (reorder_size al b d H) as [Hs Hl]. pose proof (reorder_is al b d H) as Ht.
    unfold reorder in H. apply fmap_Some in H as (q & Hq & ->).
    destruct (plan_jac (Transpose al) b q Hq) as (J & HJ & Hrows); [done|]. exists J, (plan_col q (sh b)).
    assert (Hsz : size q.1 = asize b) by exact Hs.
    assert (Hcol : ∀ i, i < asize b → ∃ jx, q.2 (unravel q.1 i) = Some jx ∧ inside (sh b) jx ∧ comes_from (Transpose al) (sh b) (unravel q.1 i) jx).
    { intros i Hi. apply (not_fills_some (Transpose al) (sh b) q i Hq); [by intros []|]. by rewrite Hsz. }
    assert (Hlt : ∀ i, i < asize b → plan_col q (sh b) i < asize b).
    { intros i Hi. destruct (Hcol i Hi) as (jx & E & Hin & _). unfold plan_col. rewrite E. by apply ravel_lt. }
    split_and!; [done|done| | |].
    + apply inj_permutes; [done|]. intros i j Hi Hj' E. destruct (Hcol i Hi) as (jx & E1 & H1 & C1), (Hcol j Hj') as (kx & E2 & H2 & C2).
      unfold plan_col in E. rewrite E1, E2 in E. assert (jx = kx) as <-.
      { rewrite <- (unravel_ravel _ _ H1), E. by apply unravel_ravel. }
      rewrite <- (ravel_unravel q.1 i), <- (ravel_unravel q.1 j) by (by rewrite Hsz). f_equal.
      eapply (comes_det al (sh b)); [| |by intros l; apply (transposed_length al b _ l Ht)|exact C1|exact C2].
      * simpl in Hl. rewrite <- Hl. apply (Forall2_length _ _ _ (unravel_inside q.1 i ltac:(by rewrite Hsz))).
      * simpl in Hl. rewrite <- Hl. apply (Forall2_length _ _ _ (unravel_inside q.1 j ltac:(by rewrite Hsz))).
    + rewrite Hsz in Hrows. by apply rows_picks.
    + intros y z Hz E. cbn [mval]. rewrite Hz. cbn [mbind option_bind]. change (axes_rop ax) with (Transpose al). unfold reorder. rewrite E, Hq.
      cbn [fmap option_fmap option_map]. eexists. split; [done|]. split; [by apply at1_sh|]. intros i Hi. rewrite at1_dat.
      destruct (Hcol i Hi) as (jx & E1 & H1 & C1). unfold plan_col. simpl. rewrite E1. unfold at_. by rewrite E.
Qed.
Fixpoint no_numbers (o : mobj) : Prop :=
  match o with Leaf => True | Reshape_ a _ => no_numbers a | Transpose_ a ax => no_number o ∧ no_numbers a end.
Lemma jac_right o x b : mval o x = Some b → no_numbers o → ∃ J col, mjac o x = Some J ∧ asize b = asize x ∧ permutes (asize x) col ∧
  picks J (asize x) (asize x) col ∧ ∀ y, sh y = sh x → ∃ c, mval o y = Some c ∧ sh c = sh b ∧ ∀ i, i < asize x → dat c i = dat y (col i).
Proof.
  revert b. assert (Hstep : ∀ o p, (∃ ns, o = Reshape_ p ns) ∨ (∃ ax, o = Transpose_ p ax) → no_number o →
    (∀ a, mval p x = Some a → ∃ J col, mjac p x = Some J ∧ asize a = asize x ∧ permutes (asize x) col ∧
      picks J (asize x) (asize x) col ∧ ∀ y, sh y = sh x → ∃ c, mval p y = Some c ∧ sh c = sh a ∧ ∀ i, i < asize x → dat c i = dat y (col i)) →
    ∀ b, mval o x = Some b → ∃ J col, mjac o x = Some J ∧ asize b = asize x ∧ permutes (asize x) col ∧
      picks J (asize x) (asize x) col ∧ ∀ y, sh y = sh x → ∃ c, mval o y = Some c ∧ sh c = sh b ∧ ∀ i, i < asize x → dat c i = dat y (col i)).
  { clear o. intros o p Ho Hno IH b Hb.
    assert (Hd : ∃ a d, mval p x = Some a ∧ b = atleast_1d d ∧ ((∃ ns, o = Reshape_ p ns ∧ nd_reshape ns a = Some d) ∨
      (∃ ax, o = Transpose_ p ax ∧ reorder 0%R (axes_rop ax) a = Some d))).
    { destruct Ho as [(ns & ->)|(ax & ->)]; cbn [mval] in Hb; apply bind_Some in Hb as (a & Ha & Hb); apply fmap_Some in Hb as (d & Hd & ->);
      exists a, d; split_and!; eauto. }
    destruct Hd as (a & d & Ha & -> & Hd). destruct (IH a Ha) as (K & ck & HK & Hsa & Hpk & HKp & Hy).
    destruct (local_right o p a d Hd Hno) as (J & cj & HJ & Hsd & Hpj & HJp & Hz). rewrite Hsa in *.
    assert (Hm : (p = Leaf ∧ mjac o x = Some J) ∨ (p ≠ Leaf ∧ mjac o x = Some (mmul J K))).
    { destruct p; [left|right..].
      - split; [done|]. cbn [mval] in Ha. injection Ha as <-. by destruct Ho as [(ns & ->)|(ax & ->)].
      - split; [done|]. destruct Ho as [(ns' & ->)|(ax & ->)]; cbn [mjac]; cbn [mjac] in HK; rewrite Ha; cbn [mbind option_bind]; rewrite HJ; cbn [mbind option_bind]; by rewrite HK.
      - split; [done|]. destruct Ho as [(ns' & ->)|(ax' & ->)]; cbn [mjac]; cbn [mjac] in HK; rewrite Ha; cbn [mbind option_bind]; rewrite HJ; cbn [mbind option_bind]; by rewrite HK. }
    destruct Hm as [[-> Hm]|[_ Hm]].
    - exists J, cj. split_and!; [done|by rewrite at1_size|done|done|]. intros y Ey. destruct (Hz y (atleast_1d y)) as (c & Hc & Hsc & Hdc); [done| |].
      + cbn [mval] in Ha. injection Ha as <-. by apply at1_sh.
      + exists c. split_and!; [done|done|]. intros i Hi. rewrite Hdc by done. by rewrite at1_dat.
    - exists (mmul J K), (λ i, ck (cj i)). split_and!; [done|by rewrite at1_size|by apply permutes_comp|by eapply picks_mmul|].
      intros y Ey. destruct (Hy y Ey) as (z & Hzv & Hzs & Hzd). destruct (Hz y z Hzv Hzs) as (c & Hc & Hsc & Hdc).
      exists c. split_and!; [done|done|]. intros i Hi. rewrite Hdc by done. apply Hzd. by apply Hpj. }
  induction o as [|o IH ns|o IH ax]; intros b Hb Hno.
  - cbn [mval] in Hb. injection Hb as <-. eexists _, (λ i, i). split; [done|]. split_and!; [by rewrite at1_size|apply permutes_id| |].
    + unfold reshape_jac. rewrite at1_size. apply picks_diags.
    + intros y Ey. eexists. split; [done|]. split; [by apply at1_sh|]. intros i Hi. by rewrite at1_dat.
  - apply (Hstep (Reshape_ o ns) o); [by left; eauto|done|auto|done].
  - apply (Hstep (Transpose_ o ax) o); [by right; eauto|apply Hno|intros a Ha; apply IH; [done|apply Hno]|done].
Qed.
Lemma picks_diff f s s' col J (a : arr R) : takes f s s' col → sh a = s → picks J (size s') (size s) col → diff1 f J a.
Proof.
  intros Hf Ha HJ y v Hy Hm. pose proof (amoves_shape _ _ Hm) as Hs. rewrite Hy, Ha in Hs. apply (amoves_intro _ _ s').
  - eapply near_mono; [|exact Hs]. intros t Ht. by apply Hf.
  - intros i Hi. rewrite (picks_act _ _ _ _ _ _ HJ) by done. eapply deriv_near; [|apply (amoves_dat y v (col i) Hm)].
    + eapply near_mono; [|exact Hs]. intros t Ht. symmetry. by apply (Hf (y t) Ht).
    + unfold asize. rewrite Hy, Ha. by apply (Hf a Ha).
  - intros i Hi. destruct HJ as [(H1 & H2 & H3) _]. apply mact_out; [done|]. lia.
Qed.
Lemma calls_no_numbers l o o' : no_numbers o → Forall tuples_only l → mcalls l o = Some o' → no_numbers o'.
Proof.
  assert (Hb : ∀ o, no_numbers o → no_numbers (below o)) by (clear; induction o; cbn [below no_numbers]; auto).
  revert o. induction l as [|c l IH]; intros o Ho Hl H; [by injection H as <-|]. cbn [mcalls] in H. apply bind_Some in H as (o1 & H1 & H).
  apply list.Forall_cons in Hl as [Hc Hl]. apply (IH o1); [|done|done].
  destruct c as [|args|args|]; cbn [mcall_] in H1.
  - by injection H1 as <-.
  - apply fmap_Some in H1 as (ax & Hax & ->). cbn [no_numbers]. split; [|done]. intros a k [= -> ->].
    destruct args as [|[k'|t|] [|? ?]]; cbn in Hax; try done. by apply (Hc k').
  - apply fmap_Some in H1 as (ns & _ & ->). by apply Hb.
  - injection H1 as <-. by apply Hb.
Qed.
Lemma chain_jacobian l o x b : mcalls l Leaf = Some o → Forall tuples_only l → mval o x = Some b → ∃ J col, mjac o x = Some J ∧
  fits J (asize b) (asize x) ∧ permutes (asize x) col ∧ asize b = asize x ∧ diff1 (λ y, default y (mval o y)) J x ∧
  (∀ i j, i < asize x → j < asize x → entry J i j = if decide (j = col i) then 1%R else 0%R) ∧
  ∀ y c, sh y = sh x → mval o y = Some c → sh c = sh b ∧ ∀ i, i < asize x → dat c i = dat y (col i).
Proof.
  intros Ho Hl Hb. destruct (jac_right o x b Hb) as (J & col & HJ & Hs & Hp & Hk & Hy); [by eapply (calls_no_numbers l Leaf)|].
  exists J, col. split_and!; [done|rewrite Hs; apply Hk|done|done| | |].
  - apply (picks_diff _ (sh x) (sh b) col); [|done|].
    + intros y Ey. destruct (Hy y Ey) as (c & -> & Hsc & Hdc). cbn. split; [done|]. intros i Hi. unfold asize in Hs. rewrite Hs in Hi.
      split; [by apply Hp|by apply Hdc].
    + unfold asize in *. by rewrite Hs.
  - intros i j Hi Hj. destruct Hk as [_ Hk]. by apply Hk.
  - intros y c Ey Hc. destruct (Hy y Ey) as (c' & Hc' & Hsc & Hdc). rewrite Hc in Hc'. injection Hc' as <-. done.
Qed.

(* ------------------------------------------------------------------ *)
(** Where it goes wrong. *)
Lemma separate_axes o a1 a2 args : mcall_ (CTranspose (a1 :: a2 :: args)) o = None.
Proof. by destruct a1. Qed.
Lemma number_axis k o o' x : mcall_ (CTranspose [ANum k]) o = Some o' → mjac o' x = None.
Proof. cbn. intros [= <-]. cbn [mjac local_jac]. destruct o; [done|..]; by destruct (mval _ x). Qed.
Definition six : arr R := Arr_ [6] INR.
Definition two_three : arr R := Arr_ [2; 3] INR.
Lemma separate_wrong : (∃ b, numpy_gives (CTranspose [ANum 1; ANum 0]) two_three b) ∧ mcall_ (CTranspose [ANum 1; ANum 0]) Leaf = None.
Proof.
  split; [|done]. assert (H : ∃ b, reorder 0%R (Transpose (Some [1; 0]%Z)) two_three = Some b) by (eexists; done).
  destruct H as (b & H%reorder_is). exists b. by apply (gives_transpose_numbers _ [1; 0]%Z).
Qed.
Lemma number_wrong : ∃ b, numpy_gives (CTranspose [ANum 0]) six b ∧ ∃ o b', mcall_ (CTranspose [ANum 0]) Leaf = Some o ∧ mval o six = Some b' ∧ aeq b' b ∧ mjac o six = None.
Proof.
  assert (H : ∃ b, reorder 0%R (Transpose (Some [0]%Z)) six = Some b) by (eexists; done).
  destruct H as (b & H). pose proof (reorder_is _ _ _ H) as Hg. exists b.
  assert (Hn : numpy_gives (CTranspose [ANum 0]) six b) by (by apply (gives_transpose_numbers _ [0]%Z)). split; [done|].
  apply (step_right Leaf six six) in Hn as (o & b' & Ho & Hv & E); [|done|split; [simpl; lia|by intros []]].
  exists o, b'. split_and!; try done. by eapply number_axis.
Qed.
Lemma none_wrong : ∃ l b, numpy_chain l six b ∧ sh b = [2; 3] ∧ ∃ o b', mcalls l Leaf = Some o ∧ mval o six = Some b' ∧ sh b' = [6].
Proof.
  exists [CReshape [ANum 2; ANum 3]; CReshape [ANone]], two_three. split_and!; [|done|eexists _, _; done].
  apply (chain_cons _ _ _ two_three).
  - apply (gives_reshape_numbers _ [2; 3]%Z); [done|done|]. by apply reshaped_is.
  - apply (chain_cons _ _ _ two_three); [by constructor|by constructor].
Qed.
Lemma impossible_wrong : ∃ l, (∀ b, ¬ numpy_chain l six b) ∧ ∃ o b', mcalls l Leaf = Some o ∧ mval o six = Some b'.
Proof.
  exists [CReshape [ANum 5]; CReshape [ANum 6]]. split; [|eexists _, _; done].
  intros b H. inversion H as [|? ? ? b1 ? Hg _]; subst. clear H.
  inversion Hg as [| | | | | | |args' l' ? ? E' _ Ht|]; subst. unfold numbers_ in E'. destruct l' as [|k [|]]; try done. injection E' as <-.
  apply is_reshaped_some in Ht as (c & Hc & _). done.
Qed.
Lemma zero_axes_wrong : ∃ x b, numpy_gives (CReshape [ATuple []]) x b ∧ sh x ≠ [] ∧
  ∃ o b', mcall_ (CReshape [ATuple []]) Leaf = Some o ∧ mval o x = Some b' ∧ sh b' ≠ sh b.
Proof.
  exists (Arr_ [1] INR), (Arr_ [] INR). split_and!; [|done|].
  - constructor. by apply reshaped_is.
  - eexists _, _. split; [done|]. split; [done|]. done.
Qed.
Lemma step_refuses o x a c : mval o x = Some a → fine_for o c → (∀ b, ¬ numpy_gives c a b) →
  ∀ o', mcall_ c o = Some o' → mval o' x = None.
Proof.
  intros Ha Hf Hn o' Ho. destruct (mval o' x) as [b|] eqn:E; [|done]. exfalso. apply (Hn b). apply (step_right o x a c b Ha Hf).
  exists o', b. by split_and!.
Qed.
Definition four_calls : list mcall := [CReshape [ATuple [2; -1]%Z]; CT; CReshape [ANum 2; ANum (-1)]; CTranspose [ATuple [1; -2]%Z]].
Lemma four_case : fine_chain false four_calls ∧ Forall tuples_only four_calls ∧
  (∃ b, numpy_chain four_calls (atleast_1d six) b) ∧ ∃ o b, mcalls four_calls Leaf = Some o ∧ mval o six = Some b ∧ sh b = [3; 2] ∧
    elems b = INR <$> [0; 4; 3; 2; 1; 5].
Proof.
  split_and!.
  - cbn. split_and!; (lia || done).
  - repeat constructor; done.
  - assert (H1 : reshaped [2; -1]%Z six = Some two_three) by done. apply reshaped_is in H1.
    assert (H2 : ∃ b, reorder 0%R (Transpose None) two_three = Some b ∧ asize b = 6) by (eexists; done). destruct H2 as (b2 & H2%reorder_is & S2).
    assert (H3 : ∃ b, reshaped [2; -1]%Z b2 = Some b ∧ sh b = [2; 3]) by (unfold reshaped; rewrite S2; eexists; done). destruct H3 as (b3 & H3%reshaped_is & S3).
    assert (H4 : ∃ b, reorder 0%R (Transpose (Some [1; -2]%Z)) b3 = Some b) by (unfold reorder; rewrite S3; eexists; done). destruct H4 as (b4 & H4%reorder_is).
    exists b4. apply (chain_cons _ _ _ two_three); [by constructor|]. apply (chain_cons _ _ _ b2); [by constructor|].
    apply (chain_cons _ _ _ b3); [by apply (gives_reshape_numbers _ [2; -1]%Z)|]. apply (chain_cons _ _ _ b4); [by constructor|by constructor].
  - eexists _, _. split_and!; try done.
Qed.
Lemma transposed_det ax a b b' : is_transposed ax a b → is_transposed ax a b' → aeq b b'.
Proof.
  intros (c & Hc & E)%is_transposed_some (c' & Hc' & E')%is_transposed_some. assert (c' = c) as -> by congruence.
  eapply aeq_trans; [by apply aeq_sym|done].
Qed.
Lemma reshaped_det ns a b b' : is_reshaped ns a b → is_reshaped ns a b' → aeq b b'.
Proof.
  intros (c & Hc & E)%is_reshaped_some (c' & Hc' & E')%is_reshaped_some. assert (c' = c) as -> by congruence.
  eapply aeq_trans; [by apply aeq_sym|done].
Qed.
Lemma gives_det c a b b' : numpy_gives c a b → numpy_gives c a b' → aeq b b'.
Proof.
  assert (N : ∀ l k, ANum <$> l = ANum <$> k → l = k) by apply nums_inj.
  destruct 1 as [a b H|a b H|a b H|l a b H|args l a b En Hl H|a b H|l a b H|args l a b En Hl H|a b Hs H]; inversion 1 as [? ? H'|? ? H'|? ? H'|l' ? ? H'|args' l' ? ? En' Hl' H'|? ? H'|l' ? ? H'|args' l' ? ? En' Hl' H'|? ? Hs' H'];
    unfold numbers_ in *; subst; try (by eapply transposed_det); try (by eapply reshaped_det);
    try (match goal with Hx : ?m = ANum <$> ?k |- _ => destruct k as [|? [|]]; done end);
    try (match goal with Hx : ANum <$> ?k = _ |- _ => destruct k as [|? [|]]; done end).
  - apply N in En' as ->. by eapply transposed_det.
  - eapply aeq_trans; [by apply aeq_sym|done].
  - apply N in En' as ->. by eapply reshaped_det.
  - split; [congruence|]. intros i Hi. unfold asize in Hi. rewrite Hs in Hi. cbn in Hi. rewrite H, H' by lia. done.
Qed.
