From Coq Require Import Reals Sorting.Sorted Lra.
From stdpp Require Import list.
From Verif Require Import TimerModel TimerSpec.

(** the timer's state and the specification: what it will measure *)
Definition agrees (w : timer) (on : bool) (from acc : R) : Prop :=
  match started w with Some s => on = true ∧ (elapsed w + from - s)%R = acc | None => on = false ∧ elapsed w = acc end.
Lemma act_agrees w on from acc t o : agrees w on from acc → agrees (act w (t, o)).1 (turned on o) t (acc + (if on then t - from else 0))%R.
Proof.
  unfold agrees, act, pause, resume. destruct o; cbn [snd fst]; destruct (started w) as [s|] eqn:E; cbn; rewrite ?E; intros [-> H]; split; try done; lra.
Qed.
Lemma act_outcome w on from acc t o : agrees w on from acc →
  match (act w (t, o)).2 with
  | Value x => o = Read ∧ x = (acc + if on then t - from else 0)%R
  | Done => o = Pause ∧ on = true ∨ o = Resume ∧ on = false
  | Rejected => o = Pause ∧ on = false ∨ o = Resume ∧ on = true
  end.
Proof.
  unfold agrees, act, read, pause, resume. destruct o; cbn [snd fst]; destruct (started w) as [s|]; cbn; intros [-> H]; auto; split; try done; lra.
Qed.
Lemma outcomes_at w on from acc l i t o : agrees w on from acc → l !! i = Some (t, o) →
  ∃ out, outcomes w l !! i = Some out ∧
  match out with
  | Value x => o = Read ∧ x = (acc + unpaused on from (take i l) t)%R
  | Done => o = Pause ∧ running on (take i l) = true ∨ o = Resume ∧ running on (take i l) = false
  | Rejected => o = Pause ∧ running on (take i l) = false ∨ o = Resume ∧ running on (take i l) = true
  end.
Proof.
  revert w on from acc l. induction i as [|i IH]; intros w on from acc [|[t' o'] l] H Hl; try done.
  - simpl in Hl. injection Hl as -> ->. eexists. split; [done|]. pose proof (act_outcome w on from acc t o H) as G. destruct (act w (t, o)).2; exact G.
  - destruct (IH _ _ _ _ l (act_agrees w on from acc t' o' H) Hl) as (out & H1 & H2). exists out. split; [done|]. destruct out as [x| |]; [|done..].
    destruct H2 as [-> ->]. split; [done|]. simpl. lra.
Qed.
Lemma new_agrees t0 : agrees (new_timer t0) true t0 0.
Proof. unfold agrees, new_timer; cbn. split; [done|lra]. Qed.
Lemma uses_at t0 l i t o : l !! i = Some (t, o) → ∃ out, uses t0 l !! i = Some out ∧
  match out with
  | Value x => o = Read ∧ x = unpaused true t0 (take i l) t
  | Done => o = Pause ∧ running true (take i l) = true ∨ o = Resume ∧ running true (take i l) = false
  | Rejected => o = Pause ∧ running true (take i l) = false ∨ o = Resume ∧ running true (take i l) = true
  end.
Proof.
  intros H. destruct (outcomes_at _ _ _ _ l i t o (new_agrees t0) H) as (out & H1 & H2). exists out. split; [done|]. destruct out; [|done..]. rewrite Rplus_0_l in H2. done.
Qed.
Lemma uses_read t0 l i t : l !! i = Some (t, Read) → uses t0 l !! i = Some (Value (unpaused true t0 (take i l) t)).
Proof. intros H. destruct (uses_at t0 l i t Read H) as (out & H1 & H2). destruct out; [by destruct H2 as [_ ->]|by destruct H2 as [[]|[]]..]. Qed.
Lemma uses_reject t0 l i t o : l !! i = Some (t, o) → uses t0 l !! i = Some Rejected ↔ o = Pause ∧ running true (take i l) = false ∨ o = Resume ∧ running true (take i l) = true.
Proof.
  intros H. destruct (uses_at t0 l i t o H) as (out & -> & H2). split.
  - by intros [= ->].
  - intros G. destruct out; [destruct H2 as [-> _]; by destruct G as [[]|[]]|destruct H2 as [[-> E]|[-> E]], G as [[? ?]|[? ?]]; congruence|done].
Qed.
(** later readings are not smaller *)
Lemma unpaused_bounds on from l now : (∀ t, t ∈ l.*1 → from <= t <= now)%R → StronglySorted Rle l.*1 → (from <= now)%R → (0 <= unpaused on from l now <= now - from)%R.
Proof.
  revert on from. induction l as [|[t o] l IH]; intros on from Hb Hs Hn; [destruct on; simpl; lra|]. cbn [unpaused]. simpl in Hs. apply StronglySorted_inv in Hs as [Hs Hf].
  assert (Ht : (from <= t <= now)%R) by (apply Hb; by left). destruct (IH (turned on o) t); [|done|lra|destruct on; lra].
  intros t' Ht'. split; [|apply Hb; by right]. rewrite Forall_forall in Hf. by apply Hf.
Qed.
Lemma unpaused_app on from l1 t1 l2 now : unpaused on from (l1 ++ (t1, Read) :: l2) now = (unpaused on from l1 t1 + unpaused (running on l1) t1 l2 now)%R.
Proof.
  revert on from. induction l1 as [|[t o] l1 IH]; intros on from; [done|]. cbn [app unpaused]. rewrite IH. change (running on ((t, o) :: l1)) with (running (turned on o) l1). lra.
Qed.
Lemma sorted_app_inv {A} (P : A → A → Prop) (l1 l2 : list A) : StronglySorted P (l1 ++ l2) → StronglySorted P l1 ∧ StronglySorted P l2 ∧ ∀ a b, a ∈ l1 → b ∈ l2 → P a b.
Proof.
  induction l1 as [|a l1 IH]; intros H; [split; [constructor|split; [done|by intros ? ? ?%elem_of_nil]]|]. simpl in H. apply StronglySorted_inv in H as [H Hf]. destruct (IH H) as (H1 & H2 & H3).
  rewrite Forall_forall in Hf. split; [constructor; [done|]|split; [done|]].
  - apply Forall_forall. intros b Hb. apply Hf. apply elem_of_app. by left.
  - intros b c [->|Hb]%elem_of_cons Hc; [|by apply H3]. apply Hf. apply elem_of_app. by right.
Qed.
Lemma uses_monotone t0 l i j ti tj x y : monotone t0 l → i ≤ j → l !! i = Some (ti, Read) → l !! j = Some (tj, Read) →
  uses t0 l !! i = Some (Value x) → uses t0 l !! j = Some (Value y) → (0 <= x <= y)%R ∧ (y <= tj - t0)%R.
Proof.
  intros Hm Hij Hi Hj. rewrite (uses_read _ _ _ _ Hi), (uses_read _ _ _ _ Hj). intros [= <-] [= <-]. unfold monotone in Hm.
  apply StronglySorted_inv in Hm as [Hs Hf]. rewrite Forall_forall in Hf.
  assert (B : ∀ k tk o, l !! k = Some (tk, o) → (t0 <= tk)%R ∧ (0 <= unpaused true t0 (take k l) tk <= tk - t0)%R).
  { intros k tk o Hk. pose proof (take_drop_middle l k _ Hk) as Hd. assert (Ht : (t0 <= tk)%R). { apply Hf. apply elem_of_list_fmap. exists (tk, o). split; [done|]. by eapply elem_of_list_lookup_2. }
    split; [done|]. rewrite <- Hd, fmap_app in Hs. apply sorted_app_inv in Hs as (S1 & S2 & S3). apply unpaused_bounds; [|done|done].
    intros t Hin. split; [|apply S3; [done|by left]]. apply Hf. rewrite <- Hd, fmap_app. apply elem_of_app. by left. }
  destruct (B i ti Read Hi) as [B1 B2]. destruct (B j tj Read Hj) as [B3 B4]. split; [|lra]. split; [lra|].
  destruct (decide (i = j)) as [->|Hne]; [replace tj with ti by congruence; lra|].
  pose proof (take_drop_middle l i _ Hi) as Hd.
  assert (Et : take j l = take i l ++ (ti, Read) :: take (j - S i) (drop (S i) l)).
  { rewrite <- Hd at 1. assert (Hl : length (take i l) = i). { apply take_length_le. apply lookup_lt_Some in Hi. lia. }
    rewrite firstn_app, Hl. rewrite (take_ge (take i l)) by (rewrite Hl; lia). f_equal. destruct (j - i) as [|k] eqn:Ek; [lia|]. simpl. f_equal. f_equal. lia. }
  rewrite Et, unpaused_app. assert (0 <= unpaused (running true (take i l)) ti (take (j - S i) (drop (S i) l)) tj)%R; [|lra].
  assert (Hj' : drop (S i) l !! (j - S i) = Some (tj, Read)). { rewrite lookup_drop. rewrite <- Hj. f_equal. lia. }
  pose proof (take_drop_middle _ _ _ Hj') as Hd'. assert (S2 : StronglySorted Rle (ti :: (drop (S i) l).*1)). { rewrite <- Hd, fmap_app in Hs. by apply sorted_app_inv in Hs as (_ & S2 & _). }
  apply StronglySorted_inv in S2 as [S2 F2]. rewrite Forall_forall in F2. pose proof S2 as S3. rewrite <- Hd', fmap_app in S3. apply sorted_app_inv in S3 as (S4 & _ & S5).
  apply unpaused_bounds; [|done|].
  - intros t Hin. split; [|apply S5; [done|by left]]. apply F2. rewrite <- Hd', fmap_app. apply elem_of_app. by left.
  - apply F2. apply elem_of_list_fmap. exists (tj, Read). split; [done|]. by eapply elem_of_list_lookup_2.
Qed.
