(** Proofs about indexing. *)
From Coq Require Import Reals Lia.
From stdpp Require Import prelude.
From Verif Require Import ArrModel Curve ArrThms ElemModel ElemSpec ElemThms ReorderModel ReorderSpec ReorderThms ReorderCache IndexThms MixModel MixSpec.

Lemma same_sym {T} (x y : option (arr T)) : same x y → same y x.
Proof. destruct x as [a|], y as [b|]; try done. intros [H1 H2]. split; [done|]. intros i Hi. symmetry. apply H2. unfold asize in *. by rewrite H1. Qed.
Lemma same_trans {T} (x y z : option (arr T)) : same x y → same y z → same x z.
Proof. destruct x as [a|], y as [b|], z as [c|]; try done. intros [H1 H2] [H3 H4]. split; [congruence|]. intros i Hi. rewrite H2 by done. apply H4. unfold asize in *. by rewrite <- H1. Qed.

Section any.
  Context (F : indexer) (HF : moves F).
  (** the elements picked are elements of the array *)
  Lemma picked_lt s tmp : F nat (arange s) = Some tmp → ∀ i, i < asize tmp → dat tmp i < size s.
  Proof.
    intros Ht i Hi. destruct HF as [N R]. set (f := λ e, if decide (e < size s) then e else S e).
    pose proof (N nat nat f (arange s)) as H1. pose proof (R nat (arange s) (amap f (arange s))) as H2.
    assert (A : aeq (arange s) (amap f (arange s))). { split; [done|]. intros j Hj. simpl. unfold f. by rewrite decide_True. }
    specialize (H2 A). pose proof (same_trans _ _ _ H2 H1) as H. rewrite Ht in H. simpl in H. destruct H as [_ H]. specialize (H i Hi). simpl in H. unfold f in H.
    destruct (decide (dat tmp i < size s)); [done|lia].
  Qed.
  (** what the key does to [a], from what it does to np.arange *)
  Lemma any_picks (a : arr R) : match F nat (arange (sh a)), F R a with
    | Some tmp, Some b => sh b = sh tmp ∧ ∀ i, i < asize b → dat b i = dat a (dat tmp i)
    | None, None => True
    | _, _ => False
    end.
  Proof.
    destruct HF as [N R0]. pose proof (N nat R (dat a) (arange (sh a))) as H1. assert (A : aeq a (amap (dat a) (arange (sh a)))) by done. apply R0 in A.
    pose proof (same_trans _ _ _ A H1) as H. destruct (F nat (arange (sh a))) as [tmp|], (F R a) as [b|]; simpl in H; try done.
  Qed.
  Lemma any_terms_some (a b : arr R) : F R a = Some b → ∃ tmp, F nat (arange (sh a)) = Some tmp ∧ any_terms F (sh a) = Some (elems tmp, sh tmp) ∧
    sh b = sh tmp ∧ (∀ i, i < asize b → dat b i = dat a (dat tmp i)) ∧ Forall (λ j, j < asize a) (elems tmp).
  Proof.
    intros Hb. pose proof (any_picks a) as H. rewrite Hb in H. destruct (F nat (arange (sh a))) as [tmp|] eqn:Et; [|done]. destruct H as [H1 H2]. exists tmp.
    split_and!; [done|unfold any_terms; by rewrite Et|done|done|]. apply list.Forall_forall. intros j (i & -> & Hi%elem_of_seq)%elem_of_list_fmap. apply (picked_lt _ _ Et). lia.
  Qed.
  Theorem any_value (a b : arr R) : F R a = Some b → ∃ c, any_getitem F a = Some c ∧ aeq c (atleast_1d b).
  Proof.
    intros Hb. destruct (any_terms_some a b Hb) as (tmp & Et & Ea & H1 & H2 & HL). unfold any_getitem, any_later. rewrite Ea. cbn [mbind option_bind].
    destruct (select (elems tmp) (Some (sh tmp)) a) as [c|] eqn:Ec.
    - exists (atleast_1d c). split; [done|]. destruct (select_value _ _ _ _ Ec) as (Hsh & Hs & _ & Hv). simpl in Hsh. split; [apply at1_sh; congruence|].
      intros i Hi. rewrite at1_size, Hs in Hi. rewrite !at1_dat, Hv by done. rewrite elems_length in Hi. rewrite H2 by (unfold asize in *; by rewrite H1). rewrite nth_lookup, elems_lookup by done. done.
    - exfalso. unfold select in Ec. rewrite decide_True in Ec by done. rewrite decide_True in Ec by (rewrite elems_length; done). done.
  Qed.
  Theorem any_raises (a : arr R) : F R a = None → any_getitem F a = None.
  Proof.
    intros Hb. pose proof (any_picks a) as H. rewrite Hb in H. unfold any_getitem, any_later, any_terms. destruct (F nat (arange (sh a))) as [tmp|]; done.
  Qed.
  (** after an assignment of an array of the same shape *)
  Theorem any_stays (a a' b : arr R) : F R a' = Some b → sh a' = sh a → ∃ c, any_later F (sh a) a' = Some c ∧ aeq c (atleast_1d b).
  Proof. intros Hb <-. exact (any_value a' b Hb). Qed.
  Theorem any_derivative (a b : arr R) : F R a = Some b → ∃ J col, any_jac F a = Some J ∧ rows_are J (asize b) (asize a) col (λ _, 1%R) ∧
    (∀ i, i < asize b → dat b i = dat a (col i)) ∧ diff1 (λ x, default x (F R x)) J a.
  Proof.
    intros Hb. destruct (any_terms_some a b Hb) as (tmp & Et & Ea & H1 & H2 & HL). unfold any_jac. rewrite Ea. cbn [mbind option_bind]. exists (select_jac (elems tmp) (asize a)), (λ i, nth i (elems tmp) 0).
    assert (Hs : asize b = length (elems tmp)) by (rewrite elems_length; unfold asize; by rewrite H1). pose proof (select_rows (elems tmp) (asize a) HL) as Hrows.
    assert (Hn : ∀ i, i < asize b → nth i (elems tmp) 0 = dat tmp i). { intros i Hi. rewrite Hs, elems_length in Hi. rewrite nth_lookup, elems_lookup by done. done. }
    rewrite Hs. split; [done|]. split; [done|]. rewrite <- Hs in *. split; [intros i Hi; rewrite Hn by done; by apply H2|].
    eapply (takes_diff _ (sh a) (sh b)); [|done|exact Hrows]. intros x Hx. pose proof (any_picks x) as Hp. rewrite Hx, Et in Hp. destruct (F R x) as [y|]; [|done]. destruct Hp as [P1 P2]. simpl. split; [congruence|].
    intros i Hi. fold (asize b) in Hi. rewrite Hn by done. split; [|apply P2; unfold asize in *; congruence]. apply (picked_lt _ _ Et). unfold asize in *. congruence.
  Qed.
End any.

(** numpy's rules *)
Lemma fits_trans a b c : fits_in a b → fits_in b c → fits_in a c.
Proof.
  intros (l1 & t1 & -> & H1) (l2 & t2 & -> & H2). apply Forall2_app_inv_l in H2 as (u1 & u2 & U1 & U2 & ->). exists (l2 ++ u1), u2. split; [by rewrite app_assoc|].
  clear U1. revert u2 U2. induction H1 as [|d o s t Hd H IH]; intros u2 U2; [inversion U2; constructor|]. inversion U2 as [|? y ? u Hy Hu]; subst. constructor; [|by apply IH]. lia.
Qed.
Inductive parts_in (b : shp) : list part → shp → Prop :=
  | pin_nil : parts_in b [] []
  | pin_new l s : parts_in b l s → parts_in b (PNew :: l) s
  | pin_gap l s : parts_in b l s → parts_in b (PGap :: l) s
  | pin_slice es d l s : Forall (λ i, i < d) es → parts_in b l s → parts_in b (PSlice es :: l) (d :: s)
  | pin_index t ns d l s : Forall (λ i, i < d) ns → size t = length ns → fits_in t b → parts_in b l s → parts_in b (PIndex t ns :: l) (d :: s).
Lemma place_in b l s ib ir : parts_in b l s → inside b ib → inside (sliced l) ir → inside s (place b l ib ir).
Proof.
  intros H Hb. revert ir. induction H as [|l s H IH|l s H IH|es d l s He H IH|t ns d l s Hn Ht Hf H IH]; intros ir Hr; simpl in *.
  - constructor.
  - inversion Hr as [|x y ir' s' Hx Hin' E1 E2]; subst. by apply IH.
  - by apply IH.
  - inversion Hr as [|x y ir' s' Hx Hin' E1 E2]; subst. constructor; [|by apply IH]. rewrite list.Forall_forall in He. apply He. by apply nth_in.
  - constructor; [|by apply IH]. rewrite list.Forall_forall in Hn. apply Hn. apply nth_in. rewrite <- Ht. apply bidx_lt; [done|]. by apply ravel_lt.
Qed.
(** the axes, before the shapes of the index arrays are compared *)
Inductive axes_in : list part → shp → Prop :=
  | ain_nil : axes_in [] []
  | ain_new l s : axes_in l s → axes_in (PNew :: l) s
  | ain_gap l s : axes_in l s → axes_in (PGap :: l) s
  | ain_slice es d l s : Forall (λ i, i < d) es → axes_in l s → axes_in (PSlice es :: l) (d :: s)
  | ain_index t ns d l s : Forall (λ i, i < d) ns → size t = length ns → axes_in l s → axes_in (PIndex t ns :: l) (d :: s).
Lemma axes_common l s b b' : axes_in l s → common l = Some b → fits_in b b' → parts_in b' l s.
Proof.
  intros H. revert b. induction H as [|l s H IH|l s H IH|es d l s He H IH|t ns d l s Hn Ht H IH]; intros b Hb Hf; simpl in Hb; try (constructor; by eauto).
  apply bind_Some in Hb as (c & Hc & Hb). constructor; [done|done|eapply fits_trans; [by eapply bshape_l|done]|]. apply (IH c); [done|]. eapply fits_trans; [by eapply bshape_r|done].
Qed.
Lemma fits_refl b : fits_in b b.
Proof. exists [], b. split; [done|]. apply Forall_Forall2_diag, list.Forall_forall. auto. Qed.
Lemma axes_all s : axes_in (all_of s) s.
Proof. induction s; simpl; constructor; [|done]. apply list.Forall_forall. intros i Hi%elem_of_seq. lia. Qed.
Lemma axes_app l1 s1 l2 s2 : axes_in l1 s1 → axes_in l2 s2 → axes_in (l1 ++ l2) (s1 ++ s2).
Proof. induction 1; simpl; [done|constructor..]; auto. Qed.
Lemma naxes_in d ks ns : mapM (naxis d) ks = Some ns → Forall (λ i, i < d) ns ∧ length ns = length ks.
Proof.
  intros H. apply mapM_Some in H. split; [|symmetry; by eapply Forall2_length]. induction H as [|k n ks ns Hk H IH]; constructor; [|done]. apply naxis_is in Hk. apply Hk.
Qed.
Lemma mask_in m : axes_in (mask_parts m) (sh m).
Proof.
  assert (G : ∀ j s, drop j (sh m) = s → axes_in ((λ k, PIndex [length (trues m)] ((λ i, nth k (unravel (sh m) i) 0) <$> trues m)) <$> seq j (length s)) s).
  { intros j s. revert j. induction s as [|d s IH]; intros j Hd; [constructor|]. simpl. constructor.
    - apply list.Forall_forall. intros x (i & -> & Hi)%elem_of_list_fmap. unfold trues in Hi. apply elem_of_list_filter in Hi as [_ Hi]. apply elem_of_seq in Hi.
      assert (Hin : inside (sh m) (unravel (sh m) i)) by (apply unravel_inside; unfold asize in Hi; lia).
      assert (Hl : sh m !! j = Some d). { rewrite <- (take_drop j (sh m)), Hd. assert (Hlen : length (take j (sh m)) = j). { apply take_length_le. destruct (decide (j ≤ length (sh m))); [done|]. rewrite drop_ge in Hd by lia. done. }
        rewrite lookup_app_r by lia. rewrite Hlen, Nat.sub_diag. done. }
      destruct (Forall2_lookup_r _ _ _ _ _ Hin Hl) as (q & Hq & Hlt). rewrite nth_lookup, Hq. done.
    - rewrite fmap_length. simpl. lia.
    - apply IH. replace (Datatypes.S j) with (j + 1) by lia. rewrite <- drop_drop, Hd. done. }
  apply (G 0). done.
Qed.
Lemma parts_ok l s ps : parts l s = Some ps → axes_in ps s.
Proof.
  revert s ps. induction l as [|i l IH]; intros s ps H; simpl in H.
  - injection H as <-. apply axes_all.
  - destruct i as [k|b e st| | |t ks|m].
    + destruct s as [|d s]; [done|]. apply bind_Some in H as (a & Ha & H). apply fmap_Some in H as (sl' & Hs & ->). constructor; [|done|by apply IH]. apply naxis_is in Ha. repeat constructor. apply Ha.
    + destruct s as [|d s]; [done|]. apply bind_Some in H as (es & He & H). apply fmap_Some in H as (sl' & Hs & ->). constructor; [|by apply IH]. by eapply slice_in.
    + apply fmap_Some in H as (sl' & Hs & ->). constructor. by apply IH.
    + apply fmap_Some in H as (sl' & Hs & ->). constructor. match type of Hs with parts _ (drop ?m _) = _ => generalize m, Hs end. intros m Hm.
      replace s with (take m s ++ drop m s) at 2 by apply take_drop. apply axes_app; [apply axes_all|by apply IH].
    + destruct s as [|d s]; [done|]. apply bind_Some in H as (ns & Hn & H). destruct (decide _) as [Ht|]; [|done]. apply fmap_Some in H as (sl' & Hs & ->). destruct (naxes_in _ _ _ Hn) as [N1 N2]. constructor; [done|congruence|by apply IH].
    + destruct (decide _) as [[_ Ht]|]; [|done]. apply fmap_Some in H as (sl' & Hs & ->). rewrite <- (take_drop (length (sh m)) s), Ht. apply axes_app; [apply mask_in|]. by apply IH.
Qed.
Lemma front_le l : front l ≤ length (sliced l).
Proof.
  unfold front. destruct (decide _); [|lia]. clear. induction l as [|p l IH]; [done|]. simpl. destruct (decide _); [simpl; lia|]. destruct p; simpl; lia.
Qed.
Lemma mix_in k s p ix : mix_plan k s = Some p → inside p.1 ix → inside s (p.2 ix).
Proof.
  unfold mix_plan. destruct (decide _) as [Hdots|]; [|done]. intros (l & Hl & H)%bind_Some. apply bind_Some in H as (b & Hb & [= <-]). simpl. pose proof (front_le l) as Hf. revert Hf. generalize (front l). intros f Hf Hin.
  unfold inside in Hin. apply Forall2_app_inv_r in Hin as (i1 & i2 & H1 & H2 & ->). apply Forall2_app_inv_r in H2 as (ib & i3 & H2 & H3 & ->).
  assert (E : length i1 = f) by (rewrite (Forall2_length _ _ _ H1); by apply take_length_le). assert (E' : length ib = length b) by by eapply Forall2_length.
  apply place_in; [apply (axes_common l s b b); [by eapply parts_ok|done|apply fits_refl]|..].
  - rewrite <- E, drop_app, <- E', take_app. done.
  - rewrite <- E, <- E', take_app, <- drop_drop, drop_app, drop_app. rewrite <- (take_drop f (sliced l)). by apply Forall2_app.
Qed.
Theorem mixed_moves k : moves (np_mixed k).
Proof.
  split.
  - intros T U f a. unfold np_mixed. simpl. destruct (mix_plan k (sh a)) as [[s g]|]; done.
  - intros T a b [H1 H2]. unfold np_mixed. rewrite <- H1. destruct (mix_plan k (sh a)) as [[s g]|] eqn:Ep; [|done]. simpl. split; [done|]. simpl. intros i Hi. unfold at_. rewrite <- H1. apply H2.
    apply ravel_lt. apply (mix_in k _ (s, g)); [done|]. by apply unravel_inside.
Qed.
