(** The work done by dr_wrt of FmtModel.v, and expressions that take much of it. *)
From stdpp Require Import gmap list list_numbers.
From Verif Require Import ArrModel RepModel FmtModel CostModel CostSpec CostThms.

(** The operands of an object of a graph of FmtModel.v. *)
Definition ops_of (g : fgraph) (o : nat) : list nat := match g !! o with Some nd => ops (base nd) | None => [] end.
Lemma fdr_works blank n g par w : ∀ c o c' res, fdr blank n g par w c o = (c', Some res) →
  ∃ l, work n (ops_of g) par w (dom c) o = Some (dom c', l).
Proof.
  induction n as [|n IH]; intros c o c' res; [done|]. cbn [fdr work].
  destruct (c !! o) as [r|] eqn:Ec; [intros [= <- <-]; exists []; rewrite decide_True; [done|]; by apply elem_of_dom|].
  rewrite decide_False by (rewrite elem_of_dom, Ec; by intros []). unfold ops_of at 2. destruct (g !! o) as [nd|] eqn:Eg; [|done].
  assert (Hn : ∀ ps c, foldl (visit w (λ c p, fdr blank n g par w c p)) (c, None) ps = (c, None)) by (intros ps; by induction ps).
  assert (Hf : ∀ ps c1 m l c2 m2, foldl (visit w (λ c p, fdr blank n g par w c p)) (c1, Some m) ps = (c2, Some m2) →
    ∃ l2, foldl (ask w (work n (ops_of g) par w)) (Some (dom c1, l)) ps = Some (dom c2, l2)).
  { induction ps as [|p ps IHp]; intros c1 m l c2 m2; cbn [foldl]; [intros [= <- _]; by exists l|].
    unfold visit at 2, ask at 2. simpl. destruct (decide (p = w)); [apply IHp|].
    destruct (fdr blank n g par w c1 p) as [c3 [r|]] eqn:Ef; simpl; [|by rewrite Hn].
    destruct (IH c1 p c3 r Ef) as [l3 E3]. rewrite E3. simpl. apply IHp. }
  destruct (foldl _ (c, Some ∅) _) as [c1 [m|]] eqn:Ef; simpl; [|done]. destruct (Hf _ _ _ [] _ _ Ef) as [l1 El].
  destruct (round w (base nd) (λ p, m !! p)) as [r|]; [|done]. intros [= <- _]. rewrite El. simpl. eexists. repeat f_equal.
  destruct (decide _); [done|]. by rewrite dom_insert_L.
Qed.

(** x1 = x*x, x2 = x1*x1, …: each object has one parent but is its operand twice. *)
Definition sq_ops (n k : nat) : list nat := if decide (1 ≤ k ≤ n) then [k - 1; k - 1] else [].
Definition sq_par (n k : nat) : nat := if decide (k < n) then 1 else 0.
Lemma sq_ranked n : ranked (sq_ops n) (λ k, k).
Proof. intros o p. unfold sq_ops. destruct (decide _); [|by intros ?%elem_of_nil]. rewrite !elem_of_cons, elem_of_nil. lia. Qed.
Lemma sq_parents n : parents_are (sq_ops n) (sq_par n).
Proof.
  intros o. unfold sq_par. destruct (decide (o < n)) as [H|H].
  - exists [S o]. split; [apply NoDup_singleton|]. split; [done|]. intros p. unfold sq_ops. rewrite elem_of_list_singleton.
    destruct (decide _); rewrite ?elem_of_cons, elem_of_nil; lia.
  - exists []. split; [constructor|]. split; [done|]. intros p. unfold sq_ops. rewrite elem_of_nil.
    destruct (decide _); rewrite ?elem_of_cons, elem_of_nil; lia.
Qed.
Lemma sq_work n k m : 1 ≤ k ≤ n → k ≤ m → ∃ l, work m (sq_ops n) (sq_par n) 0 ∅ k = Some (if decide (k < n) then ∅ else {[k]}, l) ∧
  cnt l 1 = 2 ^ (k - 1).
Proof.
  revert m. induction k as [|k IH]; intros m Hk Hm; [lia|]. destruct m as [|m]; [lia|]. cbn [work].
  rewrite decide_False by apply not_elem_of_empty. unfold sq_ops at 2. rewrite decide_True by lia.
  replace (S k - 1) with k by lia. cbn [foldl]. unfold ask. simpl.
  assert (Hpar : ∀ c1 : gset nat, (if decide (sq_par n (S k) = 1) then ∅ else {[S k]} ∪ ∅ : gset nat) = if decide (S k < n) then ∅ else {[S k]}).
  { intros _. unfold sq_par. destruct (decide (S k < n)); simpl; [done|]. apply (right_id_L ∅ (∪)). }
  destruct (decide (k = 0)) as [->|H0].
  - simpl. eexists. split; [by rewrite (Hpar ∅)|done].
  - destruct (IH m) as (l & E & C); [lia|lia|]. rewrite decide_True in E by lia. rewrite E. simpl. rewrite E. simpl.
    eexists. split; [by rewrite (Hpar ∅)|]. rewrite app_nil_l || idtac. rewrite !count_occ_app, C, cnt_one.
    rewrite decide_False by lia. replace (2 ^ k) with (2 * 2 ^ (k - 1)); [lia|].
    rewrite <- Nat.pow_succ_r'. f_equal. lia.
Qed.

(** a1 = a0 + b0, b1 = a0 - b0, a2 = a1 + b1, …: object 2i+1 is ai, 2i+2 is bi, a0 and b0
    have the variable 0 as operand. *)
Definition fly_ops (k : nat) : list nat :=
  if decide (k = 0) then [] else if decide (k ≤ 2) then [0] else [2 * ((k - 1) / 2) - 1; 2 * ((k - 1) / 2)].
Lemma fly_even i : 1 ≤ i → (2 * i + 1 - 1) / 2 = i.
Proof. intros. replace (2 * i + 1 - 1) with (i * 2) by lia. by rewrite Nat.div_mul by lia. Qed.
Lemma fly_odd i : 1 ≤ i → (2 * i + 2 - 1) / 2 = i.
Proof. intros. replace (2 * i + 2 - 1) with (1 + i * 2) by lia. rewrite Nat.div_add by lia. done. Qed.
Lemma fly_cases k : k = 0 ∨ k = 1 ∨ k = 2 ∨ ∃ i, 1 ≤ i ∧ (k = 2 * i + 1 ∨ k = 2 * i + 2).
Proof.
  destruct k as [|[|[|k]]]; [by left|by right; left|by right; right; left|]. right; right; right.
  exists (S (k / 2)). split; [lia|]. pose proof (Nat.div_mod k 2 ltac:(lia)). pose proof (Nat.mod_upper_bound k 2 ltac:(lia)). lia.
Qed.
Lemma fly_layer i k : 1 ≤ i → k = 2 * i + 1 ∨ k = 2 * i + 2 → fly_ops k = [2 * i - 1; 2 * i].
Proof.
  intros Hi Hk. unfold fly_ops. rewrite !decide_False by lia.
  destruct Hk as [->| ->]; [by rewrite fly_even|by rewrite fly_odd].
Qed.
Lemma fly_ranked : ranked fly_ops (λ k, k).
Proof.
  intros o p. destruct (fly_cases o) as [->|[->|[->|(i & Hi & Hk)]]]; [by intros ?%elem_of_nil|..].
  - intros ->%elem_of_list_singleton. lia.
  - intros ->%elem_of_list_singleton. lia.
  - rewrite (fly_layer i o Hi Hk), !elem_of_cons, elem_of_nil. lia.
Qed.
Lemma fly_once : operands_once fly_ops.
Proof.
  intros o. destruct (fly_cases o) as [->|[->|[->|(i & Hi & Hk)]]]; [constructor|apply NoDup_singleton..|].
  rewrite (fly_layer i o Hi Hk). repeat constructor; rewrite ?elem_of_list_singleton, ?elem_of_nil; lia.
Qed.
Lemma fly_parents : parents_are fly_ops (λ _, 2).
Proof.
  intros o. set (i := (o + 1) / 2). exists [2 * i + 1; 2 * i + 2]. split; [|split; [done|]].
  { repeat constructor; rewrite ?elem_of_list_singleton, ?elem_of_nil; lia. }
  assert (Hi : i = 0 ∧ o = 0 ∨ 1 ≤ i ∧ (o = 2 * i - 1 ∨ o = 2 * i)).
  { unfold i. pose proof (Nat.div_mod (o + 1) 2 ltac:(lia)). pose proof (Nat.mod_upper_bound (o + 1) 2 ltac:(lia)). lia. }
  clearbody i. intros p. rewrite !elem_of_cons, elem_of_nil.
  destruct (fly_cases p) as [->|[->|[->|(j & Hj & Hp)]]].
  - rewrite elem_of_nil. lia.
  - change (fly_ops 1) with [0]. rewrite elem_of_list_singleton. lia.
  - change (fly_ops 2) with [0]. rewrite elem_of_list_singleton. lia.
  - rewrite (fly_layer j p Hj Hp), !elem_of_cons, elem_of_nil. lia.
Qed.
(** Functions that go through all operands above the first layer. *)
Lemma fly_walk use : use 0 = [] → (∀ k, k = 1 ∨ k = 2 → use k = [] ∨ use k = [0]) →
  (∀ i k, 1 ≤ i → k = 2 * i + 1 ∨ k = 2 * i + 2 → use k = [2 * i - 1; 2 * i]) →
  ∀ i, (∃ l, walk (i + 2) use (2 * i + 1) = Some l ∧ cnt l 1 = 2 ^ (i - 1)) ∧
       (∃ l, walk (i + 2) use (2 * i + 2) = Some l ∧ cnt l 1 = if decide (i = 0) then 0 else 2 ^ (i - 1)).
Proof.
  intros U0 U1 U2. induction i as [|i [(l1 & E1 & C1) (l2 & E2 & C2)]].
  - assert (H0 : walk 1 use 0 = Some [0]) by (cbn [walk]; by rewrite U0).
    split.
    + change (walk (0 + 2) use (2 * 0 + 1)) with (ls ← mapM (walk 1 use) (use 1); Some (1 :: concat ls)).
      destruct (U1 1) as [E|E]; [by left|..]; rewrite E; cbn [mapM]; rewrite ?H0; by eexists.
    + change (walk (0 + 2) use (2 * 0 + 2)) with (ls ← mapM (walk 1 use) (use 2); Some (2 :: concat ls)).
      destruct (U1 2) as [E|E]; [by right|..]; rewrite E; cbn [mapM]; rewrite ?H0; by eexists.
  - assert (Hstep : ∀ k, k = 2 * S i + 1 ∨ k = 2 * S i + 2 → ∃ l, walk (S i + 2) use k = Some l ∧ cnt l 1 = 2 ^ (S i - 1)).
    { intros k Hk. change (walk (S i + 2) use k) with (ls ← mapM (walk (i + 2) use) (use k); Some (k :: concat ls)).
      rewrite (U2 (S i) k) by (done || lia). replace (2 * S i - 1) with (2 * i + 1) by lia. replace (2 * S i) with (2 * i + 2) by lia.
      cbn [mapM]. rewrite E1. cbn [mbind option_bind]. rewrite E2. cbn [mbind option_bind mret option_ret concat]. eexists. split; [done|]. rewrite app_nil_r.
      rewrite count_occ_cons_neq by lia. rewrite count_occ_app, C1, C2. replace (S i - 1) with i by lia.
      destruct (decide (i = 0)) as [->|Hi]; [done|]. replace (2 ^ i) with (2 * 2 ^ (i - 1)); [lia|].
      rewrite <- Nat.pow_succ_r'. f_equal. lia. }
    split; [apply Hstep; by left|]. rewrite decide_False by lia. apply Hstep. by right.
Qed.
Lemma fly_lop : ∀ i, ∃ l, walk (i + 2) (lop_use fly_ops (λ _ _, true) 0) (2 * i + 1) = Some l ∧ cnt l 1 = 2 ^ (i - 1).
Proof.
  intros i. apply (fly_walk (lop_use fly_ops (λ _ _, true) 0)); [done| |].
  - intros k [->| ->]; by left.
  - intros j k Hj Hk. unfold lop_use. rewrite (fly_layer j k Hj Hk). rewrite !filter_cons, filter_nil. rewrite !decide_True by lia. done.
Qed.
Lemma fly_isdr : ∀ i, ∃ l, walk (i + 2) (isdr_use fly_ops 0) (2 * i + 1) = Some l ∧ cnt l 1 = 2 ^ (i - 1).
Proof.
  intros i. apply (fly_walk (isdr_use fly_ops 0)); [done| |].
  - intros k [->| ->]; by left.
  - intros j k Hj Hk. unfold isdr_use. rewrite (fly_layer j k Hj Hk). rewrite decide_False; [done|].
    rewrite !elem_of_cons, elem_of_nil. lia.
Qed.
Lemma fly_loop : ∀ i, ∃ l, walk (i + 2) (loop_use fly_ops) (2 * i + 1) = Some l ∧ cnt l 1 = 2 ^ (i - 1).
Proof.
  intros i. apply (fly_walk (loop_use fly_ops)); [done| |].
  - intros k [->| ->]; by right.
  - intros j k Hj Hk. by apply fly_layer.
Qed.

(** Functions that look at some of the operands. *)
Lemma sublist_once (l k : list nat) : sublist l k → NoDup k → NoDup l.
Proof.
  induction 1 as [|x l k H IH|x l k H IH]; [done|..]; intros [Hx Hk]%NoDup_cons; [|by apply IH].
  constructor; [|by apply IH]. intros Hin. apply Hx. eapply elem_of_submseteq; [done|]. by apply sublist_submseteq.
Qed.
Lemma use_once ops use rank n o l : (∀ o, sublist (use o) (ops o)) → ranked ops rank → tree ops → operands_once ops →
  walk n use o = Some l → NoDup l ∧ ∀ x, x ∈ l → below ops o x.
Proof.
  intros Hs Hr Ht Ho Hw.
  assert (Hin : ∀ a b, b ∈ use a → b ∈ ops a) by (intros a b Hb; eapply elem_of_submseteq; [done|]; by apply sublist_submseteq).
  assert (Hr' : ranked use rank) by (intros a b Hb; by apply Hr, Hin).
  split.
  - apply (walk_once use rank Hr' n o l); [| |done].
    + intros x p q Hp Hq. eapply Ht; by apply Hin.
    + intros x. apply (sublist_once _ (ops x)); [apply Hs|apply Ho].
  - intros x Hx. destruct (walk_props use rank Hr' n o l Hw) as [H _]. eapply below_more; [|by apply H].
    intros y z Hz. by apply Hin.
Qed.
Lemma sublist_filter_use ops link w o : sublist (lop_use ops link w o) (ops o).
Proof. unfold lop_use. induction (ops o) as [|p ps IH]; [done|]. rewrite filter_cons. case_decide; by constructor. Qed.
Lemma sublist_isdr_use ops w o : sublist (isdr_use ops w o) (ops o).
Proof. unfold isdr_use. case_decide; [apply sublist_nil_l|done]. Qed.
Lemma tree_once ops rank link w n o l use : use = lop_use ops link w ∨ use = isdr_use ops w ∨ use = loop_use ops →
  ranked ops rank → tree ops → operands_once ops → walk n use o = Some l → NoDup l ∧ ∀ x, x ∈ l → below ops o x.
Proof.
  intros Hu. apply use_once. intros x. destruct Hu as [->|[->| ->]]; [apply sublist_filter_use|apply sublist_isdr_use|done].
Qed.
Lemma sq_shape n k : sq_ops n k = [] ∨ sq_ops n k = [k - 1; k - 1] ∧ 1 ≤ k ≤ n.
Proof. unfold sq_ops. destruct (decide _); [by right|by left]. Qed.
