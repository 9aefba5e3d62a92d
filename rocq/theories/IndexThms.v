(** Reshaping, indexing and item assignment. *)
From Coq Require Import Reals Lra.
From stdpp Require Import gmap strings list list_numbers numbers relations.
From Verif Require Import ArrModel Curve ArrThms ElemModel ElemSpec ElemThms ReorderModel ReorderSpec ReorderThms ReorderCache.

(* ------------------------------------------------------------------ *)
(** Reshape. *)
Lemma fill_shape_size n ns s : fill_shape n ns = Some s → size s = n.
Proof. unfold fill_shape. destruct (decide _) as [(_ & _ & H & _)|]; [|done]. by intros [= <-]. Qed.
Lemma reshaped_value {T} ns (a b : arr T) : reshaped ns a = Some b → asize b = asize a ∧ ∀ i, dat b i = dat a i.
Proof. unfold reshaped. intros (s & Hs & ->)%fmap_Some. split; [by apply fill_shape_size in Hs|done]. Qed.
(** the new shape: the numbers given, except that -1 is whatever makes the size right *)
Definition shape_asked (n : nat) (ns : list Z) (s : shp) : Prop :=
  length s = length ns ∧ size s = n ∧ (∀ i d e, ns !! i = Some d → s !! i = Some e → d ≠ (-1)%Z → d = Z.of_nat e) ∧
  ∀ i j, ns !! i = Some (-1)%Z → ns !! j = Some (-1)%Z → i = j.
Lemma filter_one {A} (P : A → Prop) `{∀ x, Decision (P x)} l i j x y : length (filter P l) ≤ 1 →
  l !! i = Some x → P x → l !! j = Some y → P y → i = j.
Proof.
  revert i j. induction l as [|z l IH]; intros i j Hl Hi Hx Hj Hy; [done|].
  rewrite filter_cons in Hl. destruct (decide (P z)) as [Hz|Hz].
  - simpl in Hl. assert (Hn : ∀ k w, l !! k = Some w → ¬ P w).
    { intros k w Hk Hw. assert (Hin : w ∈ filter P l) by (apply elem_of_list_filter; split; [done|by eapply elem_of_list_lookup_2]).
      destruct (filter P l); [by apply elem_of_nil in Hin|simpl in Hl; lia]. }
    destruct i as [|i], j as [|j]; [done|exfalso; by eapply Hn|exfalso; by eapply Hn|exfalso; by eapply Hn].
  - destruct i as [|i], j as [|j]; simpl in *; [done|injection Hi as ->; done|injection Hj as ->; done|]. f_equal. by eapply IH.
Qed.
Lemma fill_shape_asked n ns s : fill_shape n ns = Some s → shape_asked n ns s.
Proof.
  unfold fill_shape. destruct (decide _) as [(H1 & H2 & H3 & _)|]; [|done]. intros [= <-]. split_and!.
  - by rewrite fmap_length.
  - done.
  - intros i d e Hi He Hd. rewrite list_lookup_fmap, Hi in He. cbn [fmap option_fmap option_map] in He.
    rewrite decide_False in He by done. injection He as <-. rewrite list.Forall_forall in H2.
    specialize (H2 d (elem_of_list_lookup_2 _ _ _ Hi)). simpl in H2. lia.
  - intros i j Hi Hj. by eapply (filter_one (λ d, d = -1)%Z).
Qed.
Lemma reshape_right ns a b : reshaped ns a = Some b → fits (reshape_jac a) (asize b) (asize a) ∧
  diff1 (λ x, default x (reshaped ns x)) (reshape_jac a) a ∧
  ∀ i j, i < asize a → entry (reshape_jac a) i j = if decide (j = i) then 1%R else 0%R.
Proof.
  intros Hb. destruct (reshaped_value ns a b Hb) as [Hs _]. split_and!.
  - unfold reshape_jac. rewrite Hs. pose proof (diags_fits (replicate (asize a) 1%R)) as H. by rewrite replicate_length in H.
  - intros y v Hy Hm. apply fmap_Some in Hb as (s & Hfs & ->). pose proof (amoves_shape _ _ Hm) as Hsh. rewrite Hy in Hsh.
    assert (Hz : size s = asize a) by (by apply fill_shape_size in Hfs).
    apply (amoves_intro _ _ s).
    + eapply near_mono; [|exact Hsh]. intros t Ht. unfold reshaped, asize. rewrite Ht. unfold asize in Hfs. by rewrite Hfs.
    + intros i Hi. unfold reshape_jac. rewrite mact_diags, lookup_replicate_2 by lia. rewrite Rmult_1_l.
      eapply deriv_near; [|apply (amoves_dat y v i Hm); rewrite Hy; lia].
      eapply near_mono; [|exact Hsh]. intros t Ht. unfold reshaped, asize. rewrite Ht. unfold asize in Hfs. by rewrite Hfs.
    + intros i Hi. unfold reshape_jac. rewrite mact_diags. rewrite lookup_ge_None_2; [done|]. rewrite replicate_length. lia.
  - intros i j Hi. unfold reshape_jac. rewrite entry_diags. destruct (decide (i = j)) as [->|Hne].
    + rewrite decide_True by done. rewrite nth_lookup, lookup_replicate_2 by done. done.
    + rewrite decide_False by done. done.
Qed.

(* ------------------------------------------------------------------ *)
(** Select. *)
Lemma select_rows idxs n : Forall (λ j, j < n) idxs → rows_are (select_jac idxs n) (length idxs) n (λ i, nth i idxs 0) (λ _, 1%R).
Proof.
  intros H. unfold select_jac.
  pose proof (position_rows (length idxs) n (of_list 0 [length idxs] idxs) (λ i, nth i idxs 0)) as Hp.
  unfold position_matrix in Hp.
  assert (Hs : asize (of_list 0 [length idxs] idxs) = length idxs) by (unfold asize; simpl; lia).
  rewrite Hs in Hp.
  assert (He : elems (of_list 0 [length idxs] idxs) = idxs).
  { apply list_eq. intros i. destruct (decide (i < length idxs)).
    - rewrite elems_lookup by lia. simpl. rewrite nth_lookup. destruct (lookup_lt_is_Some_2 idxs i) as [x ->]; done.
    - rewrite elems_lookup_None by lia. by rewrite lookup_ge_None_2 by lia. }
  rewrite He in Hp. apply Hp; [done|]. intros i Hi. simpl. split; [done|].
  rewrite list.Forall_forall in H. apply H. apply elem_of_list_lookup. exists i. rewrite nth_lookup.
  destruct (lookup_lt_is_Some_2 idxs i Hi) as [x ->]. done.
Qed.
Lemma select_value idxs pref a b : select idxs pref a = Some b →
  sh b = default [length idxs] pref ∧ asize b = length idxs ∧ Forall (λ j, j < asize a) idxs ∧
  ∀ i, i < length idxs → dat b i = dat a (nth i idxs 0).
Proof.
  unfold select. destruct (decide _) as [HF|]; [|done].
  assert (Hv : ∀ i, i < length idxs → nth i ((λ j, dat a j) <$> idxs) 0%R = dat a (nth i idxs 0)).
  { intros i Hi. rewrite !nth_lookup, list_lookup_fmap. destruct (lookup_lt_is_Some_2 idxs i Hi) as [x ->]. done. }
  destruct pref as [s|].
  - destruct (decide _) as [Hs|]; [|done]. intros [= <-]. split_and!; [done|done|done|]. simpl. exact Hv.
  - intros [= <-]. split_and!; [done|unfold asize; simpl; lia|done|]. simpl. exact Hv.
Qed.
Lemma select_sh idxs pref a x : sh x = sh a → select idxs pref a = None ↔ select idxs pref x = None.
Proof.
  intros E. unfold select, asize. rewrite E. destruct (decide _); [|done]. destruct pref; [|done]. by destruct (decide _).
Qed.
Lemma select_right idxs pref a b : select idxs pref a = Some b →
  rows_are (select_jac idxs (asize a)) (asize b) (asize a) (λ i, nth i idxs 0) (λ _, 1%R) ∧
  diff1 (λ x, default x (select idxs pref x)) (select_jac idxs (asize a)) a.
Proof.
  intros Hb. destruct (select_value _ _ _ _ Hb) as (Hsh & Hs & HF & _). pose proof (select_rows idxs (asize a) HF) as Hrows.
  rewrite Hs. split; [done|]. rewrite <- Hs in Hrows. eapply takes_diff; [|done|exact Hrows].
  intros x Hx. destruct (select idxs pref x) as [y|] eqn:Ey; [|apply (select_sh _ _ a x Hx) in Ey; congruence].
  simpl. destruct (select_value _ _ _ _ Ey) as (Hy & Hsy & HFx & Hv). split; [congruence|].
  intros i Hi. fold (asize b) in Hi. rewrite Hs in Hi. split; [|by apply Hv].
  rewrite list.Forall_forall in HF. apply HF. apply elem_of_list_lookup. exists i. rewrite nth_lookup.
  destruct (lookup_lt_is_Some_2 idxs i Hi) as [z ->]. done.
Qed.

(* ------------------------------------------------------------------ *)
(** numpy indexing stays in the array. *)
Definition sel_in (d : nat) (s : sel) : Prop := match s with SOne i => i < d | SMany l => Forall (λ i, i < d) l | SNew => False end.
Inductive sels_in : list sel → shp → Prop :=
  | sin_nil : sels_in [] []
  | sin_new l s : sels_in l s → sels_in (SNew :: l) s
  | sin_one i d l s : i < d → sels_in l s → sels_in (SOne i :: l) (d :: s)
  | sin_many es d l s : Forall (λ i, i < d) es → sels_in l s → sels_in (SMany es :: l) (d :: s).
Lemma sels_in_all s : sels_in ((λ d, SMany (seq 0 d)) <$> s) s.
Proof. induction s; constructor; [|done]. apply list.Forall_forall. intros i Hi%elem_of_seq. lia. Qed.
Lemma sels_in_app l1 s1 l2 s2 : sels_in l1 s1 → sels_in l2 s2 → sels_in (l1 ++ l2) (s1 ++ s2).
Proof. induction 1; simpl; [done|constructor..]; auto. Qed.
Lemma slice_in n b e st es : slice_elems n b e st = Some es → Forall (λ i, i < n) es.
Proof.
  unfold slice_elems. destruct (decide _) as [|Hst]; [done|]. destruct (decide _) as [Hp|Hp].
  - intros [= <-]. apply list.Forall_forall. intros x (i & -> & Hi%elem_of_seq)%elem_of_list_fmap.
    match type of Hi with context [((?e' - ?b' + st - 1) / st)%Z] => set (B := b') in *; set (E := e') in * end.
    assert (0 ≤ B)%Z by (unfold B, clip_to; lia). assert (E ≤ Z.of_nat n)%Z by (unfold E, clip_to; lia).
    assert (Hi' : (Z.of_nat i < (E - B + st - 1) / st)%Z) by lia.
    assert (st * (Z.of_nat i + 1) ≤ E - B + st - 1)%Z.
    { etransitivity; [|apply (Z.mul_div_le (E - B + st - 1) st); lia]. apply Z.mul_le_mono_nonneg_l; lia. }
    lia.
  - intros [= <-]. apply list.Forall_forall. intros x (i & -> & Hi%elem_of_seq)%elem_of_list_fmap.
    match type of Hi with context [((?b' - ?e' - st - 1) / - st)%Z] => set (B := b') in *; set (E := e') in * end.
    assert (B ≤ Z.of_nat n - 1)%Z by (unfold B, clip_to; lia).
    assert (-1 ≤ E)%Z by (unfold E, clip_to; destruct e; lia).
    assert (Hi' : (Z.of_nat i < (B - E - st - 1) / - st)%Z) by lia.
    assert (- st * (Z.of_nat i + 1) ≤ B - E - st - 1)%Z.
    { etransitivity; [|apply (Z.mul_div_le (B - E - st - 1) (- st)); lia]. apply Z.mul_le_mono_nonneg_l; lia. }
    assert (0 ≤ B + Z.of_nat i * st)%Z by lia. assert (Z.of_nat i * st ≤ 0)%Z by nia. lia.
Qed.
Lemma sels_ok l s sl : sels l s = Some sl → sels_in sl s.
Proof.
  revert s sl. induction l as [|i l IH]; intros s sl H; simpl in H.
  - injection H as <-. apply sels_in_all.
  - destruct i as [k|b e st| |].
    + destruct s as [|d s]; [done|]. apply bind_Some in H as (a & Ha & H). apply fmap_Some in H as (sl' & Hs & ->).
      constructor; [|by apply IH]. apply naxis_is in Ha. apply Ha.
    + destruct s as [|d s]; [done|]. apply bind_Some in H as (es & He & H). apply fmap_Some in H as (sl' & Hs & ->).
      constructor; [|by apply IH]. by eapply slice_in.
    + apply fmap_Some in H as (sl' & Hs & ->). constructor. by apply IH.
    + apply fmap_Some in H as (sl' & Hs & ->). generalize (length s - count_axes l) as m, Hs. intros m Hm.
      replace s with (take m s ++ drop m s) at 2 by apply take_drop. apply sels_in_app; [apply sels_in_all|by apply IH].
Qed.
Lemma sel_index_in sl s ix : sels_in sl s → inside (sel_shape sl) ix → inside s (sel_index sl ix).
Proof.
  intros H. revert ix. induction H as [|l s H IH|i d l s Hi H IH|es d l s He H IH]; intros ix Hin; simpl in *.
  - constructor.
  - inversion Hin as [|x y ix' s' Hx Hin' E1 E2]; subst. by apply IH.
  - constructor; [done|]. by apply IH.
  - inversion Hin as [|x y ix' s' Hx Hin' E1 E2]; subst. constructor; [|by apply IH].
    rewrite list.Forall_forall in He. apply He. apply elem_of_list_lookup. exists x. rewrite nth_lookup.
    destruct (lookup_lt_is_Some_2 es x Hx) as [z ->]. done.
Qed.
Lemma nth_in (l : list nat) i : i < length l → nth i l 0 ∈ l.
Proof.
  intros Hi. apply elem_of_list_lookup. exists i. rewrite nth_lookup. destruct (lookup_lt_is_Some_2 l i Hi) as [z ->]. done.
Qed.
Lemma inside_take t s ix : inside (t ++ s) ix → inside t (take (length t) ix) ∧ inside s (drop (length t) ix).
Proof.
  unfold inside. intros H. apply Forall2_app_inv_r in H as (i1 & i2 & H1 & H2 & ->).
  rewrite <- (Forall2_length _ _ _ H1). by rewrite take_app, drop_app.
Qed.
Lemma index_plan_in k s p ix : index_plan k s = Some p → inside p.1 ix → ∃ jx, p.2 ix = Some jx ∧ inside s jx.
Proof.
  destruct k as [l|t l|m]; simpl.
  - destruct (decide _); [|done]. intros (sl & Hs & [= <-])%bind_Some Hin. eexists. split; [done|].
    apply sel_index_in; [by eapply sels_ok|done].
  - destruct s as [|d s]; [done|]. intros (ns & Hn & H)%bind_Some Hin. destruct (decide _) as [Ht|]; [|done]. injection H as <-.
    simpl in Hin. destruct (inside_take t s ix Hin) as [H1 H2]. eexists. split; [done|]. constructor; [|done].
    assert (Hl : ravel t (take (length t) ix) < length ns).
    { pose proof (ravel_lt t _ H1). destruct (mapM_lookup _ _ _ Hn) as [E _]. lia. }
    apply mapM_Some in Hn. destruct (lookup_lt_is_Some_2 ns _ Hl) as [q E].
    destruct (Forall2_lookup_r _ _ _ _ _ Hn E) as (z & _ & Hz). rewrite nth_lookup, E. apply naxis_is in Hz. apply Hz.
  - destruct (decide _) as [Hs|]; [|done]. intros [= <-] Hin. simpl in Hin.
    inversion Hin as [|x y ix' s' Hx Hin' E1 E2]; subst. eexists. split; [done|]. simpl. apply unravel_inside.
    pose proof (nth_in (trues m) x Hx) as Hm. unfold trues in Hm at 2. apply elem_of_list_filter in Hm as [_ Hm].
    apply elem_of_seq in Hm. unfold asize in Hm. lia.
Qed.

(** a\[key\].r is numpy's a.r\[key\]. *)
Lemma getitem_numpy k a b : np_getitem 0%R k a = Some b → ∃ c, getitem k a = Some c ∧ aeq c (atleast_1d b).
Proof.
  unfold np_getitem. intros (p & Hp & ->)%fmap_Some. unfold getitem, getitem_terms, np_getitem.
  cbn [sh arange]. rewrite Hp. cbn [fmap option_fmap option_map mbind option_bind].
  assert (Hin : ∀ i, i < size p.1 → ∃ jx, p.2 (unravel p.1 i) = Some jx ∧ inside (sh a) jx).
  { intros i Hi. eapply index_plan_in; [done|by apply unravel_inside]. }
  set (tmp := moved 0 p (arange (sh a))).
  assert (Hlen : length (elems tmp) = size p.1) by (rewrite elems_length; done).
  assert (HF : Forall (λ j, j < asize a) (elems tmp)).
  { apply list.Forall_forall. intros j (i & -> & Hi%elem_of_seq)%elem_of_list_fmap. simpl.
    destruct (Hin i) as (jx & -> & Hj); [unfold asize in Hi; simpl in Hi; lia|]. by apply ravel_lt. }
  destruct (select (elems tmp) (Some (sh tmp)) a) as [c|] eqn:Ec.
  - exists (atleast_1d c). split; [done|]. destruct (select_value _ _ _ _ Ec) as (Hsh & Hs & _ & Hv). split; [by apply at1_sh|].
    intros i Hi. rewrite at1_size, Hs in Hi. rewrite !at1_dat, Hv by done. rewrite Hlen in Hi.
    destruct (Hin i Hi) as (jx & E & Hj). rewrite nth_lookup, elems_lookup by done. simpl. rewrite E. done.
  - exfalso. unfold select in Ec. rewrite decide_True in Ec by done. rewrite decide_True in Ec by done. done.
Qed.
Lemma getitem_raises k a : np_getitem 0%R k a = None → getitem k a = None.
Proof.
  unfold np_getitem. intros H%fmap_None. unfold getitem, getitem_terms, np_getitem. simpl. by rewrite H.
Qed.

(* ------------------------------------------------------------------ *)
(** Item assignment. *)
Lemma put_notin x l i : i ∉ l.*1 → put x l i = x i.
Proof.
  revert x. induction l as [|[j v] l IH]; intros x H; [done|]. simpl in *. apply not_elem_of_cons in H as [H1 H2].
  rewrite IH by done. by rewrite decide_False.
Qed.
Lemma put_app x l1 l2 i : put x (l1 ++ l2) i = put (put x l1) l2 i.
Proof. revert x. induction l1 as [|[j v] l1 IH]; intros x; [done|]. apply IH. Qed.
Lemma put_last x l1 l2 i v : i ∉ l2.*1 → put x (l1 ++ (i, v) :: l2) i = v.
Proof. intros H. rewrite put_app. simpl. rewrite put_notin by done. by rewrite decide_True. Qed.
Lemma np_setitem_writes k x v y : np_setitem k x v = Some y →
  ∃ tmp, np_getitem 0 k (arange (sh x)) = Some tmp ∧ sh y = sh x ∧ (∀ j, j ∉ elems tmp → dat y j = dat x j) ∧
  ∀ p, p < asize tmp → (∀ q, p < q → q < asize tmp → dat tmp q ≠ dat tmp p) →
    dat y (dat tmp p) = dat v (bidx (sh v) (sh tmp) p).
Proof.
  unfold np_setitem. intros (tmp & Ht & H)%bind_Some. destruct (decide _) as [Hb|]; [|done]. injection H as <-.
  exists tmp. split_and!; [done|done| |]; simpl.
  - intros j Hj. apply put_notin. rewrite fst_zip; [done|]. rewrite fmap_length, seq_length. by rewrite elems_length.
  - intros p Hp Hlast. set (f := λ i, dat v (bidx (sh v) (sh tmp) i)).
    assert (E : seq 0 (asize tmp) = seq 0 p ++ p :: seq (S p) (asize tmp - S p)).
    { replace (asize tmp) with (p + S (asize tmp - S p)) at 1 by lia. rewrite seq_app. done. }
    unfold elems. rewrite E, !fmap_app, !fmap_cons, zip_with_app by (by rewrite !fmap_length). 
    change (zip (dat tmp p :: ?a) (f p :: ?b)) with ((dat tmp p, f p) :: zip a b). rewrite put_last; [done|].
    rewrite fst_zip by (by rewrite !fmap_length). intros (q & Eq & Hq%elem_of_seq)%elem_of_list_fmap. apply (Hlast q); [lia|lia|done].
Qed.
(** Reading the key again. *)
Lemma np_setitem_reads k x v y tmp : np_setitem k x v = Some y → np_getitem 0 k (arange (sh x)) = Some tmp → NoDup (elems tmp) →
  ∃ z, np_getitem 0%R k y = Some z ∧ sh z = sh tmp ∧ ∀ p, p < asize tmp → dat z p = dat v (bidx (sh v) (sh tmp) p).
Proof.
  intros Hs Ht Hnd. destruct (np_setitem_writes _ _ _ _ Hs) as (tmp' & Ht' & Hsh & _ & Hw).
  rewrite Ht in Ht'. injection Ht' as <-. unfold np_getitem in *. simpl in Ht. rewrite Hsh.
  apply fmap_Some in Ht as (p & Hp & ->). rewrite Hp. eexists. split; [done|]. split; [done|].
  intros i Hi. unfold asize in Hi. simpl in Hi.
  destruct (index_plan_in k (sh x) p _ Hp (unravel_inside _ _ Hi)) as (jx & E & Hj). simpl. rewrite E.
  specialize (Hw i). simpl in Hw. rewrite E in Hw. simpl in Hw. unfold at_ in Hw. simpl in Hw. unfold at_. rewrite Hsh. apply Hw; [done|].
  intros q Hiq Hq. intros Eq. assert (i = q); [|lia].
  apply (NoDup_lookup _ i q (ravel (sh x) jx) Hnd).
  - rewrite elems_lookup by done. simpl. by rewrite E.
  - rewrite elems_lookup by done. simpl. rewrite <- Eq. done.
Qed.

(** ... through a view. *)
Lemma entry_mT m i j : entry (mT m) i j = entry m j i.
Proof.
  rewrite !entry_alt. unfold mT. cbn [trip]. rewrite <- list_fmap_compose. apply rsum_ext. intros [[r c] x] _. simpl.
  destruct (decide (c = i ∧ r = j)), (decide (r = j ∧ c = i)); tauto.
Qed.
Lemma mT_range m : in_range m → in_range (mT m).
Proof.
  unfold in_range, mT. simpl. intros H. apply list.Forall_forall. intros e (f & -> & Hf)%elem_of_list_fmap.
  rewrite list.Forall_forall in H. specialize (H f Hf). destruct f as [[r c] x]. simpl in *. tauto.
Qed.
Definition picks (dr : spm) (n c : nat) (col : nat → nat) : Prop :=
  fits dr n c ∧ ∀ i, i < n → col i < c ∧ ∀ j, j < c → entry dr i j = if decide (j = col i) then 1%R else 0%R.
Lemma picks_act dr n c col u i : picks dr n c col → i < n → mact dr u i = u (col i).
Proof.
  intros [(Hr & Hc & Hin) H] Hi. rewrite mact_entries, Hc by done. destruct (H i Hi) as [Hlt He].
  rewrite (rsum_single _ _ (col i)).
  - rewrite He, decide_True by done. ring.
  - apply NoDup_seq_.
  - apply elem_of_seq. lia.
  - intros j Hj%elem_of_seq Hne. rewrite He, decide_False by (done || lia). ring.
Qed.
Lemma picks_transpose dr n c col u j : picks dr n c col → j < c →
  mact (mT dr) u j = rsum ((λ i, if decide (col i = j) then u i else 0%R) <$> seq 0 n).
Proof.
  intros [(Hr & Hc & Hin) H] Hj. rewrite mact_entries by (by apply mT_range). simpl. rewrite Hr. apply rsum_ext.
  intros i Hi%elem_of_seq. rewrite entry_mT. destruct (H i ltac:(lia)) as [_ He]. rewrite He by done.
  destruct (decide (j = col i)), (decide (col i = j)); try congruence; ring.
Qed.
Lemma view_write dr x v n col : picks dr n (asize x) col → asize v = n → ∃ y, setitem_view dr x v = Some y ∧ sh y = sh (atleast_1d x) ∧
  ∀ j, j < asize x → dat y j = (dat x j + rsum ((λ i, if decide (col i = j) then dat v i - dat x j else 0) <$> seq 0 n))%R.
Proof.
  intros Hp Hv. unfold setitem_view. rewrite decide_True by (destruct Hp as [(-> & _) _]; done). eexists. split; [done|].
  split; [done|]. intros j Hj. simpl. rewrite !(picks_transpose _ _ _ _ _ _ Hp) by done.
  assert (E : rsum ((λ i, if decide (col i = j) then dat v i - dat x j else 0)%R <$> seq 0 n) =
    (rsum ((λ i, if decide (col i = j) then elem v i else 0%R) <$> seq 0 n) +
     -1 * rsum ((λ i, if decide (col i = j) then mact dr (elem x) i else 0%R) <$> seq 0 n))%R).
  { rewrite <- rsum_scal, <- rsum_plus. apply rsum_ext. intros i Hi%elem_of_seq. destruct (decide (col i = j)) as [<-|]; [|ring].
    rewrite (picks_act _ _ _ _ _ _ Hp) by lia. rewrite !elem_in by (done || lia). ring. }
  rewrite E. ring.
Qed.
Lemma view_write_once dr x v n col : picks dr n (asize x) col → asize v = n →
  (∀ i i', i < n → i' < n → col i = col i' → i = i') → ∃ y, setitem_view dr x v = Some y ∧ sh y = sh (atleast_1d x) ∧
  (∀ i, i < n → dat y (col i) = dat v i) ∧ ∀ j, j < asize x → (∀ i, i < n → col i ≠ j) → dat y j = dat x j.
Proof.
  intros Hp Hv Hinj. destruct (view_write dr x v n col Hp Hv) as (y & Hy & Hs & Hd). exists y. split_and!; [done|done| |].
  - intros i Hi. rewrite Hd by (by apply Hp). rewrite (rsum_single _ _ i).
    + rewrite decide_True by done. ring.
    + apply NoDup_seq_.
    + apply elem_of_seq. lia.
    + intros i' Hi'%elem_of_seq Hne. apply decide_False. intros E. apply Hne, Hinj; [lia|done|done].
  - intros j Hj Hnone. rewrite Hd by done. rewrite rsum_zero; [ring|]. intros i Hi%elem_of_seq. apply decide_False. apply Hnone. lia.
Qed.
(** A row that occurs twice: both values are added. *)
Lemma view_write_twice : ∃ x v y, select [0; 0] None x ≠ None ∧ setitem_view (select_jac [0; 0] (asize x)) x v = Some y ∧
  ∃ z, select [0; 0] None y = Some z ∧ dat z 0 ≠ dat v 0 ∧ dat z 0 ≠ dat v 1.
Proof.
  exists (Arr_ [1] (λ _, 0%R)), (Arr_ [2] (λ _, 1%R)). simpl.
  assert (Hp : picks (select_jac [0; 0] 1) 2 1 (λ _, 0)).
  { pose proof (select_rows [0; 0] 1 ltac:(repeat constructor)) as Hr. split; [apply Hr|]. intros i Hi. split; [lia|].
    intros j Hj. rewrite (rows_entry_full _ _ _ _ _ _ _ Hr Hi). destruct i as [|[|]]; [done|done|lia]. }
  destruct (view_write (select_jac [0; 0] 1) (Arr_ [1] (λ _, 0%R)) (Arr_ [2] (λ _, 1%R)) 2 (λ _, 0) Hp eq_refl) as (y & Hy & Hs & Hd).
  exists y. split_and!; [done|done|]. unfold select, asize. rewrite Hs. rewrite decide_True by (repeat constructor).
  eexists. split; [done|]. simpl. specialize (Hd 0 ltac:(unfold asize; simpl; lia)). simpl in Hd. rewrite Hd. lra.
Qed.
(** A single number for several elements raises, unlike in numpy. *)
Lemma view_scalar_raises dr x v : asize v = 1 → nrow dr ≠ 1 → setitem_view dr x v = None.
Proof. intros H1 H2. unfold setitem_view. rewrite decide_False; congruence. Qed.
Lemma setitem_base_spec k x v y tmp : setitem_base k x v = Some y → np_getitem 0 k (arange (sh (atleast_1d x))) = Some tmp →
  sh y = sh (atleast_1d x) ∧ (∀ j, j ∉ elems tmp → dat y j = dat x j) ∧
  (NoDup (elems tmp) → ∃ z, np_getitem 0%R k y = Some z ∧ sh z = sh tmp ∧ ∀ p, p < asize tmp → dat z p = dat v (bidx (sh v) (sh tmp) p)).
Proof.
  intros Hs Ht. destruct (np_setitem_writes _ _ _ _ Hs) as (tmp' & Ht' & Hsh & Hrest & _).
  rewrite Ht in Ht'. injection Ht' as <-. split_and!; [done|intros j Hj; by rewrite Hrest, at1_dat|].
  intros Hnd. exact (np_setitem_reads k _ v y tmp Hs Ht Hnd).
Qed.
Lemma reshape_value ns (a b : arr R) : reshaped ns a = Some b → shape_asked (asize a) ns (sh b) ∧ ∀ i, dat b i = dat a i.
Proof. unfold reshaped. intros (s & Hs & ->)%fmap_Some. split; [by apply fill_shape_asked|done]. Qed.
