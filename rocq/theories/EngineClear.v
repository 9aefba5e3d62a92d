(** Analysis of the clear_cache loop. *)
From stdpp Require Import gmap strings list relations.
From Verif Require Import EngineModel EngineSpec.

Section clear.
Context (L : lib).
Notation heap := (gmap oid (node L)).
Notation node := (node L).

Lemma touch_empty (n : node) : touch L ∅ n = n.
Proof.
  destruct n as [c p r d di i pc]. unfold touch, invalidate, map_pc, set_dirty; simpl.
  f_equal; [set_solver|].
  apply map_eq; intros k. destruct (pc !! k) eqn:E.
  - apply map_filter_lookup_Some. split; [done|]. simpl. set_solver.
  - apply map_filter_lookup_None. by left.
Qed.

Lemma touch_touch (a b : gset name) (n : node) : touch L a (touch L b n) = touch L (a ∪ b) n.
Proof.
  destruct n as [c p r d di i pc]. unfold touch, invalidate, map_pc, set_dirty; simpl.
  f_equal; [set_solver|].
  apply map_eq; intros k. apply option_eq; intros v.
  rewrite !map_filter_lookup_Some; simpl. set_solver.
Qed.

Lemma touch_core a n : n_core L (touch L a n) = n_core L n. Proof. by destruct n. Qed.
Lemma touch_par a n : n_par L (touch L a n) = n_par L n. Proof. by destruct n. Qed.
Lemma touch_r a n : n_r L (touch L a n) = n_r L n. Proof. by destruct n. Qed.
Lemma touch_dr a n : n_dr L (touch L a n) = n_dr L n. Proof. by destruct n. Qed.
Lemma touch_itr a n : n_itr L (touch L a n) = n_itr L n. Proof. by destruct n. Qed.
Lemma touch_dirty a n : n_dirty L (touch L a n) = n_dirty L n ∪ a. Proof. by destruct n. Qed.
Lemma touch_clear a i n : touch L a (clear_node L i n) = clear_node L i (touch L a n).
Proof. by destruct n. Qed.

(** [a]'s parent entry for [x]. *)
Definition par_names (h : heap) (a x : oid) : gset name :=
  match h !! a with Some nd => default ∅ (n_par L nd !! x) | None => ∅ end.

(** Names through which the nodes of [D] touch [x]. *)
Definition touched (h : heap) (D : gset oid) (x : oid) : gset name :=
  ⋃ ((λ a, par_names h a x) <$> elements D).

Lemma elem_of_touched h D x k :
  k ∈ touched h D x ↔ ∃ a, a ∈ D ∧ k ∈ par_names h a x.
Proof.
  unfold touched. rewrite elem_of_union_list. split.
  - intros (X & HX & Hk). apply elem_of_list_fmap in HX as (a & -> & Ha).
    apply elem_of_elements in Ha. eauto.
  - intros (a & Ha & Hk). eexists. split; [|exact Hk].
    apply elem_of_list_fmap. exists a. by rewrite elem_of_elements.
Qed.

Lemma touched_empty h x : touched h ∅ x = ∅.
Proof. apply set_eq; intros k. rewrite elem_of_touched. set_solver. Qed.

Lemma touched_add h D a x : touched h ({[a]} ∪ D) x = par_names h a x ∪ touched h D x.
Proof.
  apply set_eq; intros k. rewrite elem_of_union, !elem_of_touched.
  split.
  - intros (b & Hb & Hk). apply elem_of_union in Hb as [Hb|Hb].
    + apply elem_of_singleton in Hb as ->. by left.
    + right; eauto.
  - intros [Hk|(b & Hb & Hk)]; [exists a|exists b]; split; try done; set_solver.
Qed.

(** What clearing the nodes [D] does to node [x]. *)
Definition effect (h : heap) (itr : option Z) (D : gset oid) (x : oid) (n : node) : node :=
  let n1 := touch L (touched h D x) n in
  if decide (x ∈ D) then clear_node L itr n1 else n1.

Lemma effect_core h i D x n : n_core L (effect h i D x n) = n_core L n.
Proof. unfold effect. case_decide; by destruct n. Qed.
Lemma effect_par h i D x n : n_par L (effect h i D x n) = n_par L n.
Proof. unfold effect. case_decide; by destruct n. Qed.
Lemma effect_dirty h i D x n : n_dirty L (effect h i D x n) = n_dirty L n ∪ touched h D x.
Proof. unfold effect. case_decide; by destruct n. Qed.
Lemma effect_pc h i D x n : n_pc L (effect h i D x n) =
  filter (λ pv, deps_of L (n_core L n) pv.1 ∩ touched h D x = ∅) (n_pc L n).
Proof. unfold effect. case_decide; by destruct n. Qed.
Lemma effect_in_r h i D x n : x ∈ D → n_r L (effect h i D x n) = None.
Proof. unfold effect. intros. by rewrite decide_True. Qed.
Lemma effect_in_dr h i D x n : x ∈ D → n_dr L (effect h i D x n) = ∅.
Proof. unfold effect. intros. by rewrite decide_True. Qed.
Lemma effect_in_itr h i D x n : x ∈ D → n_itr L (effect h i D x n) = i.
Proof. unfold effect. intros. by rewrite decide_True. Qed.
Lemma effect_out_r h i D x n : x ∉ D → n_r L (effect h i D x n) = n_r L n.
Proof. unfold effect. intros. by rewrite decide_False. Qed.
Lemma effect_out_dr h i D x n : x ∉ D → n_dr L (effect h i D x n) = n_dr L n.
Proof. unfold effect. intros. by rewrite decide_False. Qed.
Lemma effect_out_itr h i D x n : x ∉ D → n_itr L (effect h i D x n) = n_itr L n.
Proof. unfold effect. intros. by rewrite decide_False. Qed.

Lemma touch_parents_lookup_notin ps (h : heap) x :
  x ∉ ps.*1 → touch_parents L ps h !! x = h !! x.
Proof.
  revert h. induction ps as [|[p ks] ps IH]; intros h Hx; [done|].
  simpl in *. apply not_elem_of_cons in Hx as [Hxp Hx].
  unfold touch_parents in *; simpl. rewrite IH by done. by rewrite lookup_alter_ne.
Qed.

Lemma touch_parents_lookup ps (h : heap) x ks :
  NoDup ps.*1 → (x, ks) ∈ ps → touch_parents L ps h !! x = touch L ks <$> h !! x.
Proof.
  revert h. induction ps as [|[p ks'] ps IH]; intros h Hnd Hin; [by apply elem_of_nil in Hin|].
  simpl in *. apply NoDup_cons in Hnd as [Hp Hnd].
  apply elem_of_cons in Hin as [[= -> ->]|Hin].
  - unfold touch_parents; simpl. fold (touch_parents L ps (alter (touch L ks') p h)).
    rewrite touch_parents_lookup_notin by done. by rewrite lookup_alter.
  - unfold touch_parents; simpl. fold (touch_parents L ps (alter (touch L ks') p h)).
    rewrite IH by done. rewrite lookup_alter_ne; [done|].
    intros ->. apply Hp. apply elem_of_list_fmap. by exists (x, ks).
Qed.

Lemma touch_parents_of (h h1 : heap) (m : gmap oid (gset name)) x :
  touch_parents L (map_to_list m) h1 !! x = touch L (default ∅ (m !! x)) <$> h1 !! x.
Proof.
  destruct (m !! x) as [ks|] eqn:E; simpl.
  - apply touch_parents_lookup; [apply NoDup_fst_map_to_list|].
    by apply elem_of_map_to_list.
  - rewrite touch_parents_lookup_notin.
    + destruct (h1 !! x); simpl; [by rewrite touch_empty|done].
    + intros Hin. apply elem_of_list_fmap in Hin as ([? ks] & -> & Hin).
      apply elem_of_map_to_list in Hin. simpl in *. congruence.
Qed.

(** One step of the parent relation recorded in the heap. *)
Definition pstep (h : heap) (a p : oid) : Prop :=
  ∃ nd, h !! a = Some nd ∧ is_Some (n_par L nd !! p).

Definition skips (itr : option Z) (h : heap) (x : oid) : Prop :=
  itr ≠ None ∧ ∃ nd, h !! x = Some nd ∧ n_itr L nd = itr.

Definition wsum (h : heap) (D : gset oid) : nat :=
  sum_list_with (n_parents L h) (elements D).

Lemma size_len {A} (m : gmap oid A) : size m = length (map_to_list m).
Proof. reflexivity. Qed.

Lemma sum_list_with_perm {A} (f : A → nat) l1 l2 :
  l1 ≡ₚ l2 → sum_list_with f l1 = sum_list_with f l2.
Proof. induction 1; simpl; lia. Qed.

Lemma wsum_add h D a : a ∉ D → wsum h ({[a]} ∪ D) = n_parents L h a + wsum h D.
Proof.
  intros. unfold wsum.
  rewrite (sum_list_with_perm _ _ _ (elements_disj_union {[a]} D ltac:(set_solver))).
  by rewrite elements_singleton.
Qed.

Lemma wsum_le h D : D ⊆ dom h → wsum h D ≤ n_links L h.
Proof.
  intros HD. unfold wsum, n_links.
  rewrite (union_difference_L D (dom h) HD).
  rewrite (sum_list_with_perm _ _ _ (elements_disj_union D (dom h ∖ D) ltac:(set_solver))).
  rewrite sum_list_with_app. lia.
Qed.

(** Result of the loop started from [todo] with [done] already processed. *)
Definition loop_result (itr : option Z) (h0 : heap) (D : gset oid) (h' : heap) : Prop :=
  ∀ x, h' !! x = effect h0 itr D x <$> h0 !! x.

Lemma clear_loop_spec itr (h0 : heap) fuel : ∀ h todo done cnt h' cnt',
  clear_loop L fuel itr h todo done cnt = Some (h', cnt') →
  loop_result itr h0 done h →
  (∀ x, x ∈ done → x ∈ dom h0 ∧ ¬ skips itr h0 x) →
  (∀ x p, x ∈ done → pstep h0 x p → p ∈ done ∨ p ∈ todo ∨ skips itr h0 p ∨ p ∉ dom h0) →
  ∃ D, done ⊆ D ∧
    (∀ x, x ∈ todo → x ∈ D ∨ skips itr h0 x ∨ x ∉ dom h0) ∧
    (∀ x, x ∈ D → x ∈ dom h0 ∧ ¬ skips itr h0 x) ∧
    (∀ x p, x ∈ D → pstep h0 x p → p ∈ D ∨ skips itr h0 p ∨ p ∉ dom h0) ∧
    (∀ x, x ∈ D → x ∈ done ∨ ∃ t, t ∈ todo ∧ rtc (pstep h0) t x) ∧
    loop_result itr h0 D h' ∧
    cnt' + wsum h0 done = cnt + length todo + wsum h0 D.
Proof.
  induction fuel as [|fuel IH]; intros h todo done cnt h' cnt' Hrun Hh Hdone Hclosed.
  { destruct todo as [|nx todo]; [|discriminate]. simpl in Hrun. injection Hrun as <- <-.
    exists done. split_and!; [done| |done| | |done|simpl; lia].
    - intros x Hx. by apply elem_of_nil in Hx.
    - intros x p Hx Hp. destruct (Hclosed x p Hx Hp) as [?|[Hn|?]]; [by left| |by right].
      by apply elem_of_nil in Hn.
    - intros x Hx. by left. }
  destruct todo as [|nx todo].
  { simpl in Hrun. injection Hrun as <- <-.
    exists done. split_and!; [done| |done| | |done|simpl; lia].
    - intros x Hx. by apply elem_of_nil in Hx.
    - intros x p Hx Hp. destruct (Hclosed x p Hx Hp) as [?|[Hn|?]]; [by left| |by right].
      by apply elem_of_nil in Hn.
    - intros x Hx. by left. }
  simpl in Hrun.
  assert (Hskip : ∀ h' cnt', clear_loop L fuel itr h todo done (S cnt) = Some (h', cnt') →
     nx ∈ done ∨ skips itr h0 nx ∨ nx ∉ dom h0 → ∃ D, done ⊆ D ∧
    (∀ x, x ∈ nx :: todo → x ∈ D ∨ skips itr h0 x ∨ x ∉ dom h0) ∧
    (∀ x, x ∈ D → x ∈ dom h0 ∧ ¬ skips itr h0 x) ∧
    (∀ x p, x ∈ D → pstep h0 x p → p ∈ D ∨ skips itr h0 p ∨ p ∉ dom h0) ∧
    (∀ x, x ∈ D → x ∈ done ∨ ∃ t, t ∈ nx :: todo ∧ rtc (pstep h0) t x) ∧
    loop_result itr h0 D h' ∧
    cnt' + wsum h0 done = cnt + length (nx :: todo) + wsum h0 D).
  { intros h1 c1 Hr Hnx. apply IH in Hr as (D & H1 & H2 & H3 & H4 & H5 & H6 & H7); try done.
    - exists D. split_and!; try done.
      + intros x [->|Hx]%elem_of_cons; [|auto].
        destruct Hnx as [?|[?|?]]; [left; by apply H1|auto|auto].
      + intros x Hx. destruct (H5 x Hx) as [?|(t & Ht & Hp)]; [by left|right].
        exists t. split; [by apply elem_of_list_further|done].
      + simpl. lia.
    - intros x p Hx Hp. destruct (Hclosed x p Hx Hp) as [?|[[->|?]%elem_of_cons|?]]; auto.
      tauto. }
  pose proof (Hh nx) as Hnx.
  destruct (h !! nx) as [nd|] eqn:End.
  2:{ apply (Hskip _ _ Hrun). right; right.
      destruct (h0 !! nx) eqn:E0; [discriminate|]. by apply not_elem_of_dom. }
  destruct (h0 !! nx) as [nd0|] eqn:E0; [|discriminate]. simpl in Hnx.
  injection Hnx as ->.
  destruct (decide (itr ≠ None ∧ _)) as [[Hi1 Hi2]|Hi].
  { apply (Hskip _ _ Hrun).
    destruct (decide (nx ∈ done)) as [?|Hn]; [by left|right; left].
    rewrite effect_out_itr in Hi2 by done. split; [done|]. exists nd0. done. }
  destruct (decide (nx ∈ done)) as [?|Hn].
  { apply (Hskip _ _ Hrun). by left. }
  rewrite effect_par in Hrun.
  assert (Hnsk : ¬ skips itr h0 nx).
  { intros [Ha (n' & Hb & Hc)]. rewrite E0 in Hb. injection Hb as <-.
    apply Hi. split; [done|]. by rewrite effect_out_itr. }
  assert (Hps : ∀ p, pstep h0 nx p ↔ p ∈ (map_to_list (n_par L nd0)).*1).
  { intros p. unfold pstep. rewrite elem_of_list_fmap. split.
    - intros (n' & Hb & [ks Hks]). rewrite E0 in Hb. injection Hb as <-.
      exists (p, ks). by rewrite elem_of_map_to_list.
    - intros ([? ks] & -> & Hin). apply elem_of_map_to_list in Hin. exists nd0. simpl. eauto. }
  apply IH in Hrun as (D & H1 & H2 & H3 & H4 & H5 & H6 & H7).
  - apply union_subseteq in H1 as [H1a H1]. apply singleton_subseteq_l in H1a.
    exists D. split_and!; try done.
    + intros x [->|Hx]%elem_of_cons; [by left|].
      apply H2. apply elem_of_app. by right.
    + intros x Hx. destruct (H5 x Hx) as [Hd|(t & Ht & Hp)].
      * apply elem_of_union in Hd as [->%elem_of_singleton|?]; [right|by left].
        exists nx. split; [by left|constructor].
      * right. apply elem_of_app in Ht as [Ht|Ht].
        -- apply elem_of_reverse, Hps in Ht. exists nx. split; [by left|].
           by econstructor.
        -- exists t. split; [by right|done].
    + rewrite app_length, reverse_length, fmap_length in H7.
      rewrite wsum_add in H7 by done.
      unfold n_parents in H7. rewrite E0 in H7.
      rewrite size_len in H7. simpl. lia.
  - intros x. rewrite (touch_parents_of h).
    destruct (decide (x = nx)) as [->|Hne].
    + rewrite lookup_alter. rewrite (Hh nx), E0. simpl. f_equal.
      unfold effect. rewrite decide_False by done. rewrite decide_True by (apply elem_of_union; first [by right|left; by apply elem_of_singleton]).
      rewrite touch_clear, touch_touch. f_equal. f_equal. rewrite touched_add.
      unfold par_names. by rewrite E0.
    + rewrite lookup_alter_ne by done. rewrite (Hh x).
      destruct (h0 !! x) as [n0|]; simpl; [|done]. f_equal.
      unfold effect. rewrite touched_add. unfold par_names. rewrite E0.
      destruct (decide (x ∈ done)).
      * rewrite decide_True by (apply elem_of_union; first [by right|left; by apply elem_of_singleton]). by rewrite touch_clear, touch_touch.
      * rewrite decide_False by (rewrite not_elem_of_union, not_elem_of_singleton; done). by rewrite touch_touch.
  - intros x [->%elem_of_singleton|Hx]%elem_of_union; [|auto].
    split; [|done]. apply elem_of_dom. eauto.
  - intros x p [->%elem_of_singleton|Hx]%elem_of_union Hp.
    + right; left. apply elem_of_app; left. apply elem_of_reverse. by apply Hps.
    + destruct (Hclosed x p Hx Hp) as [?|[[->|?]%elem_of_cons|?]].
      * left. apply elem_of_union. by right.
      * left. apply elem_of_union. left. by apply elem_of_singleton.
      * right; left. apply elem_of_app. by right.
      * right; by right.
Qed.

(** The loop never runs out of iterations, on any graph. *)
Lemma clear_loop_total itr (h0 : heap) fuel : ∀ h todo done cnt,
  loop_result itr h0 done h →
  done ⊆ dom h0 →
  length todo + n_links L h0 ≤ fuel + wsum h0 done →
  is_Some (clear_loop L fuel itr h todo done cnt).
Proof.
  induction fuel as [|fuel IH]; intros h todo done cnt Hh Hdone Hfuel.
  { pose proof (wsum_le h0 done Hdone). destruct todo; simpl in *; [eauto|lia]. }
  destruct todo as [|nx todo]; [simpl; eauto|]. simpl in Hfuel |- *.
  pose proof (Hh nx) as Hnx.
  destruct (h !! nx) as [nd|] eqn:End; [|apply IH; try done; lia].
  destruct (h0 !! nx) as [nd0|] eqn:E0; [|discriminate]. simpl in Hnx.
  injection Hnx as ->.
  destruct (decide _); [apply IH; try done; lia|].
  destruct (decide (nx ∈ done)) as [?|Hn]; [apply IH; try done; lia|].
  rewrite effect_par. apply IH.
  - intros x. rewrite (touch_parents_of h).
    destruct (decide (x = nx)) as [->|Hne].
    + rewrite lookup_alter. rewrite (Hh nx), E0. simpl. f_equal.
      unfold effect. rewrite decide_False by done. rewrite decide_True by (apply elem_of_union; first [by right|left; by apply elem_of_singleton]).
      rewrite touch_clear, touch_touch. f_equal. f_equal. rewrite touched_add.
      unfold par_names. by rewrite E0.
    + rewrite lookup_alter_ne by done. rewrite (Hh x).
      destruct (h0 !! x) as [n0|]; simpl; [|done]. f_equal.
      unfold effect. rewrite touched_add. unfold par_names. rewrite E0.
      destruct (decide (x ∈ done)).
      * rewrite decide_True by (apply elem_of_union; first [by right|left; by apply elem_of_singleton]). by rewrite touch_clear, touch_touch.
      * rewrite decide_False by (rewrite not_elem_of_union, not_elem_of_singleton; done). by rewrite touch_touch.
  - apply union_subseteq. split; [|done]. apply singleton_subseteq_l, elem_of_dom. eauto.
  - rewrite wsum_add by done. unfold n_parents at 1. rewrite E0.
    rewrite app_length, reverse_length, fmap_length.
    rewrite size_len. lia.
Qed.

Lemma loop_result_init itr (h : heap) : loop_result itr h ∅ h.
Proof.
  intros x. destruct (h !! x) as [n|]; simpl; [|done]. f_equal.
  unfold effect. rewrite decide_False by set_solver. by rewrite touched_empty, touch_empty.
Qed.

(** Everything there is to know about one clear_cache call. *)
Record cleared (itr : option Z) (h : heap) (o : oid) (D : gset oid) (h' : heap) : Prop := {
  cl_start : o ∈ D ∨ skips itr h o ∨ o ∉ dom h;
  cl_in : ∀ x, x ∈ D → x ∈ dom h ∧ ¬ skips itr h x ∧ rtc (pstep h) o x;
  cl_closed : ∀ x p, x ∈ D → pstep h x p → p ∈ D ∨ skips itr h p ∨ p ∉ dom h;
  cl_result : loop_result itr h D h'
}.

Lemma clear_run_spec itr (h : heap) o :
  ∃ h' D, clear_run L itr h o = Some (h', 1 + wsum h D) ∧ cleared itr h o D h'.
Proof.
  unfold clear_run.
  destruct (clear_loop_total itr h (S (n_links L h)) h [o] ∅ 0) as [[h' c] Hrun].
  { apply loop_result_init. } { set_solver. } { simpl. lia. }
  rewrite Hrun. pose proof Hrun as Hrun'.
  apply (clear_loop_spec itr h) in Hrun as (D & H1 & H2 & H3 & H4 & H5 & H6 & H7).
  - exists h', D. split.
    + do 2 f_equal. assert (wsum h ∅ = 0) by (unfold wsum; by rewrite elements_empty).
      simpl in H7. lia.
    + split; try done.
      * apply H2. by left.
      * intros x Hx. destruct (H3 x Hx). split_and!; [done..|].
        destruct (H5 x Hx) as [?|(t & Ht & Hp)]; [set_solver|].
        apply elem_of_list_singleton in Ht as ->. done.
  - apply loop_result_init.
  - set_solver.
  - set_solver.
Qed.

Lemma clear_cache_spec itr (h : heap) o :
  ∃ D, cleared itr h o D (clear_cache L itr h o).
Proof.
  destruct (clear_run_spec itr h o) as (h' & D & Hr & Hc).
  unfold clear_cache. rewrite Hr. eauto.
Qed.

(** Without an iteration tag the cleared set is exactly the closure. *)
Lemma cleared_none_iff (h : heap) o D h' :
  cleared None h o D h' → o ∈ dom h →
  (∀ x p, x ∈ dom h → pstep h x p → p ∈ dom h) →
  ∀ x, x ∈ D ↔ rtc (pstep h) o x.
Proof.
  intros [Hs Hi Hc _] Ho Hdom.
  assert (Hns : ∀ y, ¬ skips None h y) by (intros y [? _]; done).
  intros x. split; [intros Hx; by apply Hi|].
  assert (o ∈ D) as HoD. { destruct Hs as [?|[Hk|?]]; [done|destruct (Hns _ Hk)|done]. }
  assert (Hi' : ∀ x, x ∈ D → x ∈ dom h) by (intros; by apply Hi).
  intros Hrtc. revert HoD. clear Hs Ho Hi. induction Hrtc as [|a p x Hap Hrtc IH]; [done|].
  intros HaD. apply IH. destruct (Hc a p HaD Hap) as [?|[Hk|Hp]]; [done|destruct (Hns _ Hk)|].
  exfalso. apply Hp. eapply Hdom; [|done]. by apply Hi'.
Qed.

End clear.
