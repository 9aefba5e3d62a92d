(** Reductions over several axes: the answers. *)
From Coq Require Import Reals Lra.
From stdpp Require Import strings list list_numbers numbers gmap.
From Verif Require Import ArrModel Curve ArrThms ElemModel ReorderModel ReorderSpec ReorderThms ReorderCache RedModel RedSpec RedThms
  ExtThms RedFine SeveralModel SeveralSpec SeveralThms SeveralSteps.

(** Every set of axes from the last to the first. *)
Fixpoint fall (l : list nat) (n : nat) : list nat :=
  match n with 0 => [] | S n' => if decide (n' ∈ l) then n' :: fall l n' else fall l n' end.
Lemma fall_in l n j : j ∈ fall l n ↔ j < n ∧ j ∈ l.
Proof.
  induction n as [|n IH]; simpl; [rewrite elem_of_nil; lia|].
  destruct (decide (n ∈ l)) as [H|H]; [rewrite elem_of_cons|]; rewrite IH; split.
  - intros [->|[? ?]]; [by split; [lia|]|split; [lia|done]].
  - intros [Hj Hl]. destruct (decide (j = n)); [by left|right; split; [lia|done]].
  - intros [? ?]. split; [lia|done].
  - intros [Hj Hl]. split; [|done]. assert (j ≠ n) by (intros ->; done). lia.
Qed.
Lemma fall_falling l n : falling (fall l n).
Proof. induction n as [|n IH]; simpl; [constructor|]. destruct (decide (n ∈ l)); [|done]. constructor; [|done]. intros j [? _]%fall_in. done. Qed.

Lemma parts_ext l l' s i : (∀ b, b ∈ l ↔ b ∈ l') → parts l s i = parts l' s i.
Proof.
  intros H. unfold parts. rewrite (kept_ext l l' s H). apply list_filter_iff. intros p. by rewrite (kept_ext l l' _ H).
Qed.
Lemma fold_axes_ext f l l' a : (∀ b, b ∈ l ↔ b ∈ l') → same (fold_axes f l a) (fold_axes f l' a).
Proof. intros H. split; [by apply kept_ext|]. intros i _. simpl. by rewrite (parts_ext l l' _ _ H). Qed.
Lemma size_kept_pos o l (s : shp) : 0 < size (kept_from o l s) → (∀ b, o + b ∈ l → s !! b ≠ Some 0) → 0 < size s.
Proof.
  revert o. induction s as [|d s IH]; intros o H Hl; simpl in *; [done|].
  assert (H' : ∀ b, S o + b ∈ l → s !! b ≠ Some 0) by (intros b Hb; apply (Hl (S b)); by replace (o + S b) with (S o + b) by lia).
  destruct (decide (o ∈ l)) as [Ho|Ho].
  - specialize (IH (S o) H H'). assert (d ≠ 0) by (intros ->; apply (Hl 0); [by rewrite Nat.add_0_r|done]). destruct d; [lia|]. simpl. lia.
  - simpl in H. destruct d; [lia|]. assert (H2 : 0 < size (kept_from (S o) l s)) by (destruct (size (kept_from (S o) l s)); [lia|lia]).
    specialize (IH (S o) H2 H'). simpl. lia.
Qed.
Lemma parts_nonempty l s i : (∀ k, k ∈ l → k < length s) → 0 < size s → i < size (kept l s) → parts l s i ≠ [].
Proof.
  intros Hb Hs Hi. assert (E : ∀ b, b ∈ l ↔ b ∈ fall l (length s)) by (intros b; rewrite fall_in; split; [intros H; split; [by apply Hb|done]|by intros [_ ?]]).
  rewrite (parts_ext _ _ _ _ E). apply parts_ne; [apply fall_falling|intros k [? _]%fall_in; done|done|]. by rewrite <- (kept_ext _ _ _ E).
Qed.
Lemma f_op_reduces o a ps : (match o with Oext _ => ps ≠ [] | _ => True end) → reduces o a ps (f_op o (dat a <$> ps)).
Proof.
  destruct o as [| |mx]; [done|done|]. intros Hne. destruct (argbest_spec mx (dat a <$> ps)) as (b & Hb & E & H & _); [by destruct ps|].
  apply elem_of_list_lookup_2, elem_of_list_fmap in Hb as (p & -> & Hp). exists p. split_and!; [done|exact E|].
  intros q Hq. specialize (H (dat a q)). assert (Hin : dat a q ∈ dat a <$> ps) by (apply elem_of_list_fmap; by exists q).
  specialize (H Hin). unfold attains, geq in *. by destruct mx.
Qed.

Lemma make_plain f o ax x : make f o ax [] = Some x → x = Robj o ax [].
Proof. destruct f; simpl; congruence. Qed.
Lemma tuple_value f o t a x y : make f o (AxTuple t) [] = Some x → value x a = Some y → ∃ l, axes_are (length (sh a)) t l ∧ leaves l (sh a) (sh y) ∧
  ∀ i, i < asize y → ∃ ps, agreeing l (sh a) (sh y) i ps ∧ reduces o a ps (dat y i).
Proof.
  intros ->%make_plain. unfold value. simpl. unfold np_axes. intros (l & Hl & E)%bind_Some. apply naxes_is in Hl. exists l.
  assert (Ey : y = fold_axes (f_op o) l a) by (destruct o; [congruence|congruence|]; by destruct (decide _); simplify_eq).
  split; [done|]. rewrite Ey. split; [apply kept_leaves|]. intros i Hi. exists (parts l (sh a) i). split; [apply parts_agreeing|]. simpl. apply f_op_reduces.
  destruct o as [| |mx]; [done|done|]. pose proof (axes_below _ _ _ Hl) as Hb. destruct (decide _) as [|Hz] in E; [done|].
  apply parts_nonempty; [done| |done]. apply (size_kept_pos 0 l); [unfold asize in Hi; simpl in Hi; fold (@kept nat l (sh a)); lia|].
  intros b Hbl E0. apply Hz. apply elem_of_list_fmap. exists b. split; [|done]. symmetry. by apply nth_of.
Qed.
Lemma no_zero (s : shp) (l : list nat) : 0 < size s → (∀ k, k ∈ l → k < length s) → 0 ∉ ((λ k, nth k s 0) <$> l).
Proof.
  intros Hs Hb (k & E & Hk)%elem_of_list_fmap. destruct (lookup_lt_is_Some_2 s k (Hb k Hk)) as [d Hd]. rewrite (nth_of _ _ _ Hd) in E. subst d.
  rewrite (size_delete k 0 s Hd) in Hs. lia.
Qed.
Lemma np_axes_some o t l a : axes_are (length (sh a)) t l → smooth o ∨ 0 < size (sh a) → np_axes o t a = Some (fold_axes (f_op o) l a).
Proof.
  intros Hl Ho. unfold np_axes. rewrite (proj2 (naxes_is _ _ _) Hl). simpl. destruct o as [| |mx]; [done|done|]. destruct Ho as [[]|Hs].
  rewrite decide_False; [done|]. apply no_zero; [done|]. by eapply axes_below.
Qed.
Lemma tuple_raises f o t a x : make f o (AxTuple t) [] = Some x → smooth o ∨ 0 < size (sh a) →
  value x a = None ↔ ¬ ∃ l, axes_are (length (sh a)) t l.
Proof.
  intros ->%make_plain Ho. unfold value. simpl. split.
  - intros E (l & Hl). by rewrite (np_axes_some o t l a Hl Ho) in E.
  - intros H. unfold np_axes. destruct (naxes _ t) as [l|] eqn:E; [|done]. exfalso. apply H. exists l. by apply naxes_is.
Qed.
Lemma tuple_order f g o t t' l l' a x x' : axes_are (length (sh a)) t l → axes_are (length (sh a)) t' l' → l ≡ₚ l' →
  make f o (AxTuple t) [] = Some x → make g o (AxTuple t') [] = Some x' → agree (value x a) (value x' a).
Proof.
  intros Hl Hl' P ->%make_plain ->%make_plain. unfold value. simpl. unfold np_axes.
  rewrite (proj2 (naxes_is _ _ _) Hl), (proj2 (naxes_is _ _ _) Hl'). simpl.
  assert (E : ∀ b, b ∈ l ↔ b ∈ l') by (intros b; by rewrite P).
  destruct o as [| |mx]; [by apply fold_axes_ext..|].
  assert (Ez : 0 ∈ ((λ k, nth k (sh a) 0) <$> l) ↔ 0 ∈ ((λ k, nth k (sh a) 0) <$> l')) by (by rewrite P).
  destruct (decide (0 ∈ ((λ k, nth k (sh a) 0) <$> l))) as [H|H], (decide (0 ∈ ((λ k, nth k (sh a) 0) <$> l'))) as [H'|H']; simpl; try tauto.
  by apply fold_axes_ext.
Qed.
Lemma tuple_steps f g o t l ks a x : axes_are (length (sh a)) t l → falling ks → ks ≡ₚ l → 0 < size (sh a) →
  make g o (AxTuple t) [] = Some x → steps f o ks a ≠ None ∧ agree (steps f o ks a) (value x a).
Proof.
  intros Hl Hf P Hs ->%make_plain. unfold value. simpl. rewrite (np_axes_some o t l a Hl) by (by right).
  assert (E : ∀ b, b ∈ ks ↔ b ∈ l) by (intros b; by rewrite P).
  destruct (steps_right f o ks a Hf) as (y & -> & Hy); [|done|].
  - intros k Hk. apply (axes_below _ _ _ Hl). by apply E.
  - split; [done|]. simpl. eapply same_trans; [exact Hy|]. by apply fold_axes_ext.
Qed.
Lemma agreeing_perm l s out i ps qs : agreeing l s out i ps → agreeing l s out i qs → ps ≡ₚ qs.
Proof. intros [H1 H2] [H3 H4]. apply NoDup_Permutation; [done|done|]. intros p. by rewrite H2, H4. Qed.
Lemma tuple_jacobian f o t l ks a : smooth o → axes_are (length (sh a)) t l → falling ks → ks ≡ₚ l → 0 < size (sh a) → ∃ J y,
  steps_jac f o ks a = Some J ∧ np_axes o t a = Some y ∧ fits J (asize y) (asize a) ∧
  (∀ i p ps, i < asize y → p < asize a → agreeing l (sh a) (sh y) i ps → entry J i p = if decide (p ∈ ps) then share o (length ps) else 0%R) ∧
  diff1 (λ x, default x (np_axes o t x)) J a.
Proof.
  intros Ho Hl Hf P Hs. assert (E : ∀ b, b ∈ ks ↔ b ∈ l) by (intros b; by rewrite P).
  destruct (steps_jac_right f o ks a Ho Hf) as (J & HJ & Hfit & Hact); [|done|].
  { intros k Hk. apply (axes_below _ _ _ Hl). by apply E. }
  exists J, (fold_axes (f_op o) l a). split; [done|]. split; [apply np_axes_some; [done|by left]|].
  pose proof (kept_ext ks l (sh a) E) as Es. rewrite Es in Hfit, Hact. split; [exact Hfit|]. split.
  - intros i p ps Hi Hp Hps. rewrite <- mact_unit. pose proof (Hact (Arr_ (sh a) (unit_ p)) eq_refl i Hi) as Ha. simpl in Ha.
    rewrite (mact_ext J _ (elem (Arr_ (sh a) (unit_ p)))).
    2:{ intros q. unfold elem, unit_, asize in *. simpl. destruct (decide (q < size (sh a))); [done|]. rewrite decide_False by lia. done. }
    rewrite <- Ha, (parts_ext ks l _ _ E). pose proof (agreeing_perm _ _ _ _ _ _ (parts_agreeing l (sh a) i) Hps) as Pp.
    rewrite (f_op_perm o _ (unit_ p <$> ps)) by (by rewrite Pp).
    assert (Em : ∃ m, f_op o = f_red m ∧ share o (length ps) = weight m (length ps)) by (destruct o; [exists Fsum|exists Fmean|done]; done).
    destruct Em as (m & -> & ->). rewrite f_red_weight, fmap_length, <- list_fmap_compose. destruct (decide (p ∈ ps)) as [Hin|Hin].
    + rewrite (rsum_single _ _ p); [unfold compose, unit_; rewrite decide_True by done; ring|by apply Hps|done|].
      intros q _ Hq. unfold compose, unit_. rewrite decide_False by congruence. ring.
    + apply rsum_zero. intros q Hq. unfold compose, unit_. rewrite decide_False; [ring|]. intros ->. done.
  - destruct Hfit as (F1 & F2 & F3). apply (linear_diff _ J a (kept l (sh a))); [done|done|]. intros x Hx.
    rewrite (np_axes_some o t l x) by (try (by left); by rewrite Hx). cbn [default from_option]. split; [simpl; by rewrite Hx|].
    intros i Hi. rewrite <- (Hact x Hx i Hi). simpl. by rewrite Hx, (parts_ext ks l _ _ E).
Qed.

(* ------------------------------------------------------------------ *)
(** Keywords. *)
Lemma place_le o l n : place_from o l n ≤ n.
Proof. unfold place_from. pose proof (filter_length (λ c, c ∉ l) (seq o n)) as H. by rewrite seq_length in H. Qed.
Lemma place_lt o l n b : b < n → o + b ∈ l → place_from o l n < n.
Proof.
  revert o b. induction n as [|n IH]; intros o b Hb Hin; [lia|]. unfold place_from. simpl. rewrite filter_cons. destruct b as [|b].
  - rewrite Nat.add_0_r in Hin. rewrite decide_False by (intros ?; done). pose proof (place_le (S o) l n) as H. unfold place_from in H. lia.
  - pose proof (IH (S o) b ltac:(lia) ltac:(by replace (S o + b) with (o + S b) by lia)) as H. unfold place_from in H.
    destruct (decide (o ∉ l)); simpl; lia.
Qed.
Lemma reduced_shorter o ax a y l : np_red o ax a = Some y → reduced_axes (length (sh a)) ax l → l ≠ [] → length (sh y) < length (sh a).
Proof.
  intros Hy Hl Hne. destruct ax as [|k|t]; simpl in *.
  - assert (length (sh a) ≠ 0) by (intros E; apply Hne; subst l; by rewrite E).
    assert (sh y = []) as ->; [|simpl; lia]. destruct o as [| |mx]; [by injection Hy as <-..|]. unfold ext_r in Hy. simpl in Hy. destruct (decide _); [done|]. by injection Hy as <-.
  - destruct Hl as (b & Hb & ->). assert (E : naxis (length (sh a)) k = Some b) by (by apply naxis_is).
    assert (Ey : sh y = delete b (sh a)).
    { destruct o as [| |mx]; [unfold red_r in Hy; simpl in Hy; rewrite E in Hy; by injection Hy as <-..|].
      unfold ext_r in Hy. simpl in Hy. rewrite E in Hy. simpl in Hy. destruct (sh a !! b); [|done]. simpl in Hy. destruct (decide _); [done|]. by injection Hy as <-. }
    destruct Hb as [Hb _]. rewrite Ey, length_delete by (by apply lookup_lt_is_Some_2). lia.
  - unfold np_axes in Hy. rewrite (proj2 (naxes_is _ _ _) Hl) in Hy. simpl in Hy.
    assert (Ey : sh y = kept l (sh a)) by (destruct o; [by injection Hy as <-..|]; destruct (decide _); [done|]; by injection Hy as <-).
    rewrite Ey. unfold kept. rewrite kept_from_length. destruct l as [|b l]; [done|]. apply (place_lt _ _ _ b); [|left].
    apply (axes_below _ _ _ Hl). left.
Qed.
Lemma keepdims_ignored o ax kws a x y l : make Function o ax kws = Some x → value x a = Some y → reduced_axes (length (sh a)) ax l → l ≠ [] →
  ¬ ones_at l (sh a) (sh y).
Proof.
  intros Hx Hy Hl Hne [H _]. assert (np_red o ax a = Some y). { simpl in Hx. destruct (existsb _ _); [done|]. by injection Hx as <-. }
  pose proof (reduced_shorter o ax a y l ltac:(done) Hl Hne). lia.
Qed.

(* ------------------------------------------------------------------ *)
(** The object with the tuple has a value and a derivative, which it does not give. *)
Lemma tuple_raises_always f o t l a : smooth o → axes_are (length (sh a)) t l → 0 < size (sh a) → ∃ x,
  make f o (AxTuple t) [] = Some x ∧ value x a ≠ None ∧ (∃ J, diff1 (λ z, default z (value x z)) J a) ∧ jacobian x a = None.
Proof.
  intros Ho Hl Hs. exists (Robj o (AxTuple t) []). split; [by destruct f|].
  assert (P : fall l (length (sh a)) ≡ₚ l).
  { apply NoDup_Permutation; [|apply Hl|].
    - assert (H : ∀ ks, falling ks → NoDup ks); [|apply H, fall_falling]. induction 1 as [|k ks Hk _ IH]; [constructor|].
      apply NoDup_cons. split; [|done]. intros Hin. specialize (Hk k Hin). lia.
    - intros b. rewrite fall_in. split; [by intros [_ ?]|]. intros Hb. split; [|done]. by apply (axes_below _ _ _ Hl). }
  destruct (tuple_jacobian f o t l _ a Ho Hl (fall_falling l _) P Hs) as (J & y & _ & Hy & _ & _ & Hd).
  split_and!; [unfold value; simpl; by rewrite Hy|exists J; exact Hd|done].
Qed.
