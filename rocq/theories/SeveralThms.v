(** Reductions over several axes. *)
From Coq Require Import Reals Lra.
From stdpp Require Import strings list list_numbers numbers gmap.
From Verif Require Import ArrModel Curve ArrThms ElemModel ReorderModel ReorderSpec ReorderThms ReorderCache RedModel RedSpec RedThms
  ExtThms RedFine SeveralModel SeveralSpec.

(* ------------------------------------------------------------------ *)
(** What stays. *)
Lemma kept_from_app {T} o l (u w : list T) : kept_from o l (u ++ w) = kept_from o l u ++ kept_from (o + length u) l w.
Proof.
  revert o. induction u as [|x u IH]; intros o; simpl; [by rewrite Nat.add_0_r|].
  rewrite IH. replace (S o + length u) with (o + S (length u)) by lia. by destruct (decide (o ∈ l)).
Qed.
Lemma kept_from_above {T} o l (v : list T) : (∀ k, k ∈ l → k < o) → kept_from o l v = v.
Proof.
  revert o. induction v as [|x v IH]; intros o H; simpl; [done|].
  rewrite decide_False by (intros Hin; specialize (H _ Hin); lia). f_equal. apply IH. intros k Hk. specialize (H k Hk). lia.
Qed.
Lemma kept_from_ext {T} o l l' (v : list T) : (∀ b, o ≤ b < o + length v → b ∈ l ↔ b ∈ l') → kept_from o l v = kept_from o l' v.
Proof.
  revert o. induction v as [|x v IH]; intros o H; simpl in *; [done|].
  rewrite (IH (S o)) by (intros b Hb; apply H; lia). pose proof (H o ltac:(lia)) as E.
  destruct (decide (o ∈ l)), (decide (o ∈ l')); tauto.
Qed.
Lemma kept_nil {T} (v : list T) : kept [] v = v.
Proof. apply kept_from_above. intros k Hk. by apply elem_of_nil in Hk. Qed.
Lemma kept_ext {T} l l' (v : list T) : (∀ b, b ∈ l ↔ b ∈ l') → kept l v = kept l' v.
Proof. intros H. apply kept_from_ext. naive_solver. Qed.
(** The last of the axes first. *)
Lemma kept_delete {T} k l (v : list T) : (∀ j, j ∈ l → j < k) → k < length v → kept (k :: l) v = kept l (delete k v).
Proof.
  intros H Hk. destruct (lookup_lt_is_Some_2 v k Hk) as [x Hx]. rewrite delete_take_drop.
  rewrite <- (take_drop_middle v k x Hx) at 1. unfold kept. rewrite !kept_from_app, take_length. simpl.
  replace (k `min` length v) with k by lia. rewrite decide_True by (left). f_equal.
  - apply kept_from_ext. intros b Hb. rewrite take_length in Hb. rewrite elem_of_cons. split; [|by right]. intros [->|?]; [lia|done].
  - rewrite !kept_from_above; [done| |]; [intros j Hj; specialize (H j Hj); lia|].
    intros j [->|Hj]%elem_of_cons; [lia|specialize (H j Hj); lia].
Qed.
Lemma kept_inside_from o l (s jx : list nat) : inside s jx → inside (kept_from o l s) (kept_from o l jx).
Proof.
  unfold inside. intros H. revert o. induction H as [|i d jx s Hid _ IH]; intros o; simpl; [constructor|].
  destruct (decide (o ∈ l)); [apply IH|]. constructor; [done|apply IH].
Qed.
Lemma kept_inside l (s jx : list nat) : inside s jx → inside (kept l s) (kept l jx).
Proof. apply kept_inside_from. Qed.

(** [kept] is what the specification leaves. *)
Definition place_from (o : nat) (l : list nat) (n : nat) : nat := length (filter (λ c, c ∉ l) (seq o n)).
Lemma kept_from_length {T} o l (v : list T) : length (kept_from o l v) = place_from o l (length v).
Proof.
  unfold place_from. revert o. induction v as [|x v IH]; intros o; simpl; [done|]. rewrite filter_cons.
  destruct (decide (o ∈ l)) as [H|H]; [rewrite decide_False by (intros E; done)|rewrite decide_True by done; simpl; f_equal]; apply IH.
Qed.
Lemma kept_from_lookup {T} o l (v : list T) b : b < length v → o + b ∉ l → kept_from o l v !! place_from o l b = v !! b.
Proof.
  unfold place_from. revert o b. induction v as [|x v IH]; intros o b Hb Hl; simpl in *; [lia|]. destruct b as [|b]; simpl.
  - rewrite Nat.add_0_r in Hl. by rewrite decide_False.
  - rewrite filter_cons. assert (E : kept_from (S o) l v !! length (filter (λ c, c ∉ l) (seq (S o) b)) = v !! b).
    { apply IH; [lia|]. by replace (S o + b) with (o + S b) by lia. }
    destruct (decide (o ∈ l)) as [H|H]; [rewrite decide_False by (intros ?; done)|rewrite decide_True by done]; done.
Qed.
Lemma kept_leaves {T} l (v : list T) : leaves l v (kept l v).
Proof. split; [apply (kept_from_length 0)|]. intros b Hb Hl. by apply (kept_from_lookup 0). Qed.
(** Every position below is the place of an axis that stays. *)
Lemma place_onto o l n c : c < place_from o l n → ∃ b, b < n ∧ o + b ∉ l ∧ place_from o l b = c.
Proof.
  unfold place_from. revert o c. induction n as [|n IH]; intros o c; simpl; [lia|]. rewrite filter_cons.
  destruct (decide (o ∈ l)) as [H|H]; [rewrite decide_False by (intros ?; done)|rewrite decide_True by done; simpl].
  - intros Hc. destruct (IH (S o) c Hc) as (b & Hb & Hl & E). exists (S b). split_and!; [lia|by replace (o + S b) with (S o + b) by lia|].
    simpl. rewrite filter_cons, decide_False by (intros ?; done). done.
  - intros Hc. destruct c as [|c]; [exists 0; split_and!; [lia|by rewrite Nat.add_0_r|done]|].
    destruct (IH (S o) c ltac:(lia)) as (b & Hb & Hl & E). exists (S b). split_and!; [lia|by replace (o + S b) with (S o + b) by lia|].
    simpl. rewrite filter_cons, decide_True by done. simpl. by f_equal.
Qed.
Lemma leaves_unique {T} l (v w w' : list T) : leaves l v w → leaves l v w' → w = w'.
Proof.
  intros [H1 H2] [H3 H4]. apply list_eq_same_length with (length w); [lia|done|]. intros c x y Hc Hx Hy. rewrite H1 in Hc.
  destruct (place_onto 0 l (length v) c Hc) as (b & Hb & Hl & E). simpl in Hl.
  change (new_place l b = c) in E. rewrite <- E in Hx, Hy. rewrite H2 in Hx by done. rewrite H4 in Hy by done. congruence.
Qed.
Lemma kept_is {T} l (v w : list T) : kept l v = w ↔ leaves l v w.
Proof. split; [intros <-; apply kept_leaves|]. intros H. eapply leaves_unique; [apply kept_leaves|done]. Qed.

Lemma naxes_is n t l : naxes n t = Some l ↔ axes_are n t l.
Proof.
  unfold naxes, axes_are. rewrite bind_Some. split.
  - intros (l' & Hl & E). destruct (decide (NoDup l')); [|done]. injection E as <-. split; [|done].
    apply mapM_Some in Hl. eapply Forall2_impl; [exact Hl|]. intros k a. apply naxis_is.
  - intros [Hl Hn]. exists l. rewrite decide_True by done. split; [|done]. apply mapM_Some. eapply Forall2_impl; [exact Hl|]. intros k a. apply naxis_is.
Qed.
Lemma axes_below n t l : axes_are n t l → ∀ k, k ∈ l → k < n.
Proof. intros [H _] k Hk. apply elem_of_list_lookup in Hk as [j Hj]. destruct (Forall2_lookup_r _ _ _ _ _ H Hj) as (z & _ & Hz & _). done. Qed.

(* ------------------------------------------------------------------ *)
(** The parts. *)
Lemma parts_agreeing l s i : agreeing l s (kept l s) i (parts l s i).
Proof.
  unfold agreeing, parts. split; [apply NoDup_filter, NoDup_seq_|]. intros p. rewrite elem_of_list_filter, elem_of_seq, kept_is. intuition lia.
Qed.
Lemma parts_in l s i p : p ∈ parts l s i ↔ kept l (unravel s p) = unravel (kept l s) i ∧ p < size s.
Proof. unfold parts. rewrite elem_of_list_filter, elem_of_seq. intuition lia. Qed.
Lemma nodup_bind (f : nat → list nat) (l : list nat) : NoDup l → (∀ x, x ∈ l → NoDup (f x)) →
  (∀ x y p, x ∈ l → y ∈ l → p ∈ f x → p ∈ f y → x = y) → NoDup (l ≫= f).
Proof.
  induction l as [|x l IH]; intros Hl Hf Hd; [constructor|]. apply NoDup_cons in Hl as [Hx Hl]. rewrite bind_cons. apply NoDup_app. split_and!.
  - apply Hf. by left.
  - intros p Hp Hq. apply elem_of_list_bind in Hq as (y & Hy & Hyl). apply Hx. rewrite (Hd x y p); [done|by left|by right|done|done].
  - apply IH; [done| |]; intros; [apply Hf; by right|eapply Hd; try done; by right].
Qed.
Lemma parts_nil s i : i < size s → parts [] s i ≡ₚ [i].
Proof.
  intros Hi. apply NoDup_Permutation; [apply parts_agreeing|apply NoDup_singleton|]. intros p. rewrite parts_in, !kept_nil, elem_of_list_singleton. split.
  - intros [E Hp]. rewrite <- (ravel_unravel s p Hp), E. by apply ravel_unravel.
  - intros ->. done.
Qed.
Lemma parts_step k d l s i : s !! k = Some d → (∀ j, j ∈ l → j < k) → i < size (kept (k :: l) s) →
  parts (k :: l) s i ≡ₚ (parts l (delete k s) i ≫= slice k s).
Proof.
  intros Hk Hl Hi. pose proof (lookup_lt_Some _ _ _ Hk) as Hlt. pose proof (kept_delete k l s Hl Hlt) as Es.
  assert (Hin : ∀ q, q ∈ parts l (delete k s) i → q < size (delete k s)) by (intros q [_ Hq]%parts_in; done).
  apply NoDup_Permutation; [apply parts_agreeing| |].
  - apply nodup_bind; [apply parts_agreeing|intros q Hq; eapply slice_nodup; [done|by apply Hin]|].
    intros q q' p Hq Hq' [_ H1]%(slice_in k d) [_ H2]%(slice_in k d); [|done|by apply Hin|done|by apply Hin]. rewrite H1 in H2.
    rewrite <- (ravel_unravel (delete k s) q), H2, ravel_unravel by (by apply Hin). done.
  - intros p. rewrite elem_of_list_bind, parts_in, Es. split.
    + intros [E Hp]. pose proof (unravel_inside _ _ Hp) as Hs. rewrite kept_delete in E by (try done; by rewrite unravel_length).
      pose proof (delete_inside k _ _ Hs) as Hd. exists (ravel (delete k s) (delete k (unravel s p))). split.
      * apply (slice_in k d); [done|by apply ravel_lt|]. split; [done|]. by rewrite unravel_ravel.
      * apply parts_in. rewrite unravel_ravel by done. split; [done|by apply ravel_lt].
    + intros (q & Hp & Hq). pose proof (Hin q Hq) as Hqs. apply (slice_in k d) in Hp as [Hp E]; [|done|done]. apply parts_in in Hq as [Hq _]. split; [|done].
      rewrite kept_delete by (try done; by rewrite unravel_length). by rewrite E.
Qed.
Lemma size_pos_delete k d (s : shp) : s !! k = Some d → 0 < size s → 0 < d ∧ 0 < size (delete k s).
Proof. intros Hk Hs. rewrite (size_delete k d s Hk) in Hs. destruct d; [lia|]. split; [lia|]. destruct (size (delete k s)); lia. Qed.
Lemma parts_ne l s i : falling l → (∀ k, k ∈ l → k < length s) → 0 < size s → i < size (kept l s) → parts l s i ≠ [].
Proof.
  intros Hf. revert s. induction Hf as [|k l Hk _ IH]; intros s Hb Hs Hi E.
  - rewrite kept_nil in Hi. pose proof (parts_nil s i Hi) as P. rewrite E in P. by apply Permutation_nil_cons in P.
  - destruct (lookup_lt_is_Some_2 s k (Hb k ltac:(left))) as [d Hd]. destruct (size_pos_delete k d s Hd Hs) as [Hd0 Hs'].
    pose proof (parts_step k d l s i Hd Hk Hi) as P. rewrite E in P. apply Permutation_nil_l in P.
    pose proof (lookup_lt_Some _ _ _ Hd) as Hlt. rewrite kept_delete in Hi by done.
    specialize (IH (delete k s)). destruct (parts l (delete k s) i) as [|q qs] eqn:Eq.
    + apply IH; [|done|done|done]. intros j Hj. rewrite length_delete by done. specialize (Hk j Hj). lia.
    + rewrite bind_cons in P. symmetry in P. apply app_nil in P as [P _]. apply (f_equal length) in P. rewrite slice_length, (nth_of _ _ _ Hd) in P. simpl in P. lia.
Qed.
