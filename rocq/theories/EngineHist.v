(** Histories: the invariant, the cache-free machine, notifications. *)
From stdpp Require Import gmap strings list relations.
From Verif Require Import EngineModel EngineSpec EngineClear EngineEval EngineSet EngineInv
  EngineOps EngineEffect EngineRead EngineObs.

Section hist.
Context (L : lib).
Notation graph := (gmap oid (core L)).
Notation heap := (gmap oid (node L)).
Notation node := (node L).
Notation cores := (cores L).
Notation state := (state L).
Notation st_h := (st_h L).
Notation st_log := (st_log L).
Implicit Types (g : graph) (c : core L) (h : heap) (n : node) (st : state).

(** Iteration tags present in the heap come from earlier batches. *)
Definition tags_in (used : gset Z) h : Prop :=
  ∀ x n, h !! x = Some n → n_itr L n = None ∨ ∃ i, i ∈ used ∧ n_itr L n = Some i.

Lemma tags_in_mono used used' h : used ⊆ used' → tags_in used h → tags_in used' h.
Proof. intros Hs H x n Hx. destruct (H x n Hx) as [?|(i & ? & ?)]; [by left|right]. exists i. set_solver. Qed.

Lemma tags_fresh used h i : tags_in used h → i ∉ used → ∀ o nd, h !! o = Some nd → n_itr L nd ≠ Some i.
Proof. intros H Hi o nd Ho E. destruct (H o nd Ho) as [?|(j & ? & ?)]; congruence. Qed.

Lemma tags_tag_inv used h i : tags_in used h → i ∉ used → tag_inv L (Some i) h.
Proof. intros H Hi x nx Hx _ E. by destruct (tags_fresh _ _ _ H Hi x nx Hx). Qed.

Lemma tracks_in h o k : tracks L (cores h) o k ↔ tracked_in L h o k.
Proof.
  unfold tracks, tracked_in. split.
  - intros (c & Hc & Ht). apply cores_Some_inv in Hc as (n & Hn & <-). eauto.
  - intros (n & Hn & Ht). exists (n_core L n). split; [by apply cores_Some|done].
Qed.

Lemma dirty_lookup h x n : h !! x = Some n → dirty_of L h x = n_dirty L n.
Proof. intros H. unfold dirty_of. by rewrite H. Qed.
Lemma dirty_none h x : h !! x = None → dirty_of L h x = ∅.
Proof. intros H. unfold dirty_of. by rewrite H. Qed.

(** Back from the heap after an assignment. *)
Lemma assign_dom itr h o k v o' x : lib_ok L → assign_ok L (cores h) o k v o' →
  is_Some (assign L itr h o k v o' !! x) ↔ is_Some (gassign L (cores h) (o, k, v, o') !! x).
Proof.
  intros Hlib Hok. rewrite <- (assign_cores L itr) by (done || by eapply assign_ok_fresh).
  rewrite cores_lookup. by rewrite fmap_is_Some.
Qed.

Lemma assign_dirty itr h o k v o' :
  lib_ok L → sinv L h → assign_ok L (cores h) o k v o' → tag_inv L itr h →
  ∀ x d, d ∈ dirty_of L (assign L itr h o k v o') x ↔
    due_assign L (cores h) (o, k, v, o') (λ x d, d ∈ dirty_of L h x) x d.
Proof.
  intros Hlib Hs Hok Htag x d.
  destruct (assign_eff L itr h o k v o' Hlib Hs Hok) as [He Hnew].
  pose proof (assign_dom itr h o k v o' x Hlib Hok) as Hdom.
  pose proof (assign_cores L itr h o k v o' Hlib (assign_ok_fresh L _ _ _ _ _ Hok)) as Hcs.
  unfold due_assign. rewrite <- Hcs. rewrite cores_lookup in *. rewrite <- Hcs in Hdom.
  rewrite cores_lookup, fmap_is_Some in Hdom. rewrite tracks_in.
  destruct (h !! x) as [n|] eqn:Hx.
  - destruct (He x n Hx) as (n' & Hn' & [N1 N2 N3 N4 N5 N6 N7 N8]).
    rewrite (dirty_lookup _ _ _ Hn'), (dirty_lookup _ _ _ Hx). split.
    + intros Hd. destruct (N5 d Hd); auto.
    + intros [Hd|[[Ht Ha]|(? & _)]]; [by apply N4|by apply N6|done].
  - rewrite (dirty_none _ _ Hx). split.
    + intros Hd. right. right.
      destruct (assign L itr h o k v o' !! x) as [n'|] eqn:Hx'.
      * rewrite (dirty_lookup _ _ _ Hx') in Hd.
        rewrite (nn_dirty _ _ (Hnew x n' Hx Hx')) in Hd. apply elem_of_singleton in Hd as ->.
        split_and!; [done| |done]. simpl. rewrite cores_lookup, Hx'. simpl. eauto.
      * rewrite (dirty_none _ _ Hx') in Hd. by apply elem_of_empty in Hd.
    + rewrite cores_lookup, fmap_is_Some. intros [Hd|[[Ht Ha]|(_ & [n' Hn'] & ->)]].
      * by apply elem_of_empty in Hd.
      * exfalso. pose proof (assign_ok_dom _ _ _ _ _ _ Hok) as (Hn & no & Ho & _).
        destruct Ha as [[-> ->]|(a & (c & Hc & Hb & _) & _)]; [congruence|].
        apply cores_Some_inv in Hc as (n' & Hn' & <-).
        rewrite (nn_base _ _ (Hnew x n' Hx Hn')) in Hb. done.
      * rewrite (dirty_lookup _ _ _ Hn'), (nn_dirty _ _ (Hnew x n' Hx Hn')). set_solver.
Qed.

Lemma due_assign_iff g s D D' : (∀ x d, D x d ↔ D' x d) →
  ∀ x d, due_assign L g s D x d ↔ due_assign L g s D' x d.
Proof. intros H x d. unfold due_assign. destruct s as [[[o k] v] o']. by rewrite H. Qed.
Lemma due_assigns_iff sets : ∀ g D D', (∀ x d, D x d ↔ D' x d) →
  ∀ x d, due_assigns L g sets D x d ↔ due_assigns L g sets D' x d.
Proof.
  induction sets as [|s sets IH]; intros g D D' H; [done|]. simpl. apply IH. by apply due_assign_iff.
Qed.

Lemma assign_tags itr used h o k v o' :
  lib_ok L → sinv L h → assign_ok L (cores h) o k v o' →
  (∀ i, itr = Some i → i ∈ used) → tags_in used h → tags_in used (assign L itr h o k v o').
Proof.
  intros Hlib Hs Hok Hi Ht x n' Hx'.
  destruct (assign_eff L itr h o k v o' Hlib Hs Hok) as [He Hnew].
  destruct (h !! x) as [n|] eqn:Hx.
  - destruct (He x n Hx) as (n2 & Hn2 & Hne). rewrite Hx' in Hn2. injection Hn2 as <-.
    destruct (ne_itr _ _ _ _ _ _ _ _ _ Hne) as [E|[E _]]; rewrite E; [by eapply Ht|].
    destruct itr as [i|]; [|by left]. right. exists i. auto.
  - left. apply (nn_itr _ _ (Hnew x n' Hx Hx')).
Qed.

Lemma batch_step i sets : ∀ used h,
  lib_ok L → sinv L h → tag_inv L (Some i) h → tags_in used h → i ∈ used →
  assigns_ok L (cores h) sets →
  tags_in used (batch L i sets h) ∧
  (∀ x d, d ∈ dirty_of L (batch L i sets h) x ↔
     due_assigns L (cores h) sets (λ x d, d ∈ dirty_of L h x) x d).
Proof.
  induction sets as [|[[[o k] v] o'] sets IH]; intros used h Hlib Hs Htag Ht Hi Hok; [done|].
  destruct Hok as [Hok1 Hok].
  change (batch L i ((o, k, v, o') :: sets) h) with (batch L i sets (assign L (Some i) h o k v o')).
  pose proof (assign_facts_ok L (Some i) h o k v o' Hlib Hs Hok1) as [F1 F2 F3 F4 F5 F6 F7].
  rewrite <- (assign_cores L (Some i)) in Hok by (done || by eapply assign_ok_fresh).
  destruct (IH used (assign L (Some i) h o k v o')) as [I1 I2]; auto.
  { apply assign_tags; try done. by intros ? [= <-]. }
  split; [done|]. intros x d. rewrite I2. simpl.
  rewrite (assign_cores L (Some i)) by (done || by eapply assign_ok_fresh).
  apply due_assigns_iff. intros y e. by apply assign_dirty.
Qed.

(** Between the assignments of one set(): 9999 marks dependents of [o] only. *)
Definition kw_tags (used : gset Z) h (o : oid) : Prop :=
  ∀ x n, h !! x = Some n →
    n_itr L n = None ∨ (∃ i, i ∈ used ∧ n_itr L n = Some i) ∨
    (n_itr L n = Some 9999%Z ∧ above L h o x).

Lemma set_kw_step kws : ∀ used h o,
  lib_ok L → sinv L h → tag_inv L (Some 9999%Z) h → kw_tags used h o →
  assigns_ok L (cores h) (kw_sets L o kws) →
  (∀ k v o', last kws = Some (k, v, o') → tracked_in L h o k) →
  (kws = [] → tags_in used h) →
  tags_in used (set_kw L h o kws) ∧
  (∀ x d, d ∈ dirty_of L (set_kw L h o kws) x ↔
     due_assigns L (cores h) (kw_sets L o kws) (λ x d, d ∈ dirty_of L h x) x d).
Proof.
  induction kws as [|[[k v] o'] kws IH]; intros used h o Hlib Hs Htag Ht Hok Hl Hnil; [by split; auto|].
  destruct Hok as [Hok1 Hok].
  destruct kws as [|kv kws].
  - simpl. split; [|intros x d; apply assign_dirty; try done; apply tag_none].
    specialize (Hl k v o' eq_refl). intros x n' Hx'.
    destruct (assign_eff L None h o k v o' Hlib Hs Hok1) as [He Hnew].
    destruct (h !! x) as [n|] eqn:Hx; [|left; apply (nn_itr _ _ (Hnew x n' Hx Hx'))].
    destruct (He x n Hx) as (n2 & Hn2 & Hne). rewrite Hx' in Hn2. injection Hn2 as <-.
    destruct (ne_itr _ _ _ _ _ _ _ _ _ Hne) as [E|[E _]]; [|by left].
    destruct (Ht x n Hx) as [E'|[E'|[E' Hab]]]; [left; congruence|right; by rewrite E|].
    left. apply (ne_itr_none _ _ _ _ _ _ _ _ _ Hne); [done|done|].
    apply (af_above _ _ _ _ _ _ (assign_facts_ok L None h o k v o' Hlib Hs Hok1)); eauto.
  - change (set_kw L h o ((k, v, o') :: kv :: kws)) with
      (set_kw L (assign L (Some 9999%Z) h o k v o') o (kv :: kws)).
    change (assigns_ok L (gassign L (cores h) (o, k, v, o')) (kw_sets L o (kv :: kws))) in Hok.
    pose proof (assign_facts_ok L (Some 9999%Z) h o k v o' Hlib Hs Hok1) as [F1 F2 F3 F4 F5 F6 F7].
    pose proof (assign_ok_dom _ _ _ _ _ _ Hok1) as (_ & no & Ho & _).
    rewrite <- (assign_cores L (Some 9999%Z)) in Hok by (done || by eapply assign_ok_fresh).
    destruct (IH used (assign L (Some 9999%Z) h o k v o') o) as [I1 I2]; auto.
    + intros x n' Hx'.
      destruct (assign_eff L (Some 9999%Z) h o k v o' Hlib Hs Hok1) as [He Hnew].
      destruct (h !! x) as [n|] eqn:Hx; [|left; apply (nn_itr _ _ (Hnew x n' Hx Hx'))].
      destruct (He x n Hx) as (n2 & Hn2 & Hne). rewrite Hx' in Hn2. injection Hn2 as <-.
      destruct (ne_itr _ _ _ _ _ _ _ _ _ Hne) as [E|[E Hab]].
      * rewrite E. destruct (Ht x n Hx) as [E'|[E'|[E' Hab]]]; [by left|by right;left|].
        right. right. split; [done|]. apply F3; eauto.
      * right. right. split; [done|]. apply F3; eauto.
    + intros k2 v2 o2 Hl2. rewrite extends_tracked; [|done|eauto]. by eapply Hl.
    + intros ?; done.
    + split; [done|]. intros x d. rewrite I2.
      rewrite (assign_cores L (Some 9999%Z)) by (done || by eapply assign_ok_fresh).
      change (due_assigns L (cores h) (kw_sets L o ((k, v, o') :: kv :: kws))) with
        (λ D, due_assigns L (gassign L (cores h) (o, k, v, o')) (kw_sets L o (kv :: kws))
           (due_assign L (cores h) (o, k, v, o') D)).
      apply due_assigns_iff. intros y e. by apply assign_dirty.
Qed.

Lemma set_kw_step_untracked kws : ∀ used h o,
  lib_ok L → sinv L h → tags_in used h → 9999%Z ∉ used →
  assigns_ok L (cores h) (kw_sets L o kws) →
  (∀ x, x ∈ kws → ¬ tracked_in L h o x.1.1) →
  tags_in used (set_kw L h o kws) ∧
  (∀ x d, d ∈ dirty_of L (set_kw L h o kws) x ↔
     due_assigns L (cores h) (kw_sets L o kws) (λ x d, d ∈ dirty_of L h x) x d).
Proof.
  induction kws as [|[[k v] o'] kws IH]; intros used h o Hlib Hs Ht Hu Hok Hl; [done|].
  destruct Hok as [Hok1 Hok].
  assert (Hk : ¬ tracked_in L h o k) by (apply (Hl (k, v, o')); by left).
  assert (Hstep : ∀ itr, tags_in used (assign L itr h o k v o')).
  { intros itr x n' Hx'. destruct (assign_eff L itr h o k v o' Hlib Hs Hok1) as [He Hnew].
    destruct (h !! x) as [n|] eqn:Hx; [|left; apply (nn_itr _ _ (Hnew x n' Hx Hx'))].
    destruct (He x n Hx) as (n2 & Hn2 & Hne). rewrite Hx' in Hn2. injection Hn2 as <-.
    destruct (ne_r _ _ _ _ _ _ _ _ _ Hne) as (_ & _ & ->); [tauto|]. by eapply Ht. }
  destruct kws as [|kv kws].
  - simpl. split; [done|]. intros x d. apply assign_dirty; try done.
  - change (set_kw L h o ((k, v, o') :: kv :: kws)) with
      (set_kw L (assign L (Some 9999%Z) h o k v o') o (kv :: kws)).
    change (assigns_ok L (gassign L (cores h) (o, k, v, o')) (kw_sets L o (kv :: kws))) in Hok.
    pose proof (assign_facts_ok L (Some 9999%Z) h o k v o' Hlib Hs Hok1) as [F1 F2 F3 F4 F5 F6 F7].
    pose proof (assign_ok_dom _ _ _ _ _ _ Hok1) as (_ & no & Ho & _).
    rewrite <- (assign_cores L (Some 9999%Z)) in Hok by (done || by eapply assign_ok_fresh).
    destruct (IH used (assign L (Some 9999%Z) h o k v o') o) as [I1 I2]; auto.
    + intros x Hx. rewrite extends_tracked by eauto. apply Hl. by right.
    + split; [done|]. intros x d. rewrite I2.
      rewrite (assign_cores L (Some 9999%Z)) by (done || by eapply assign_ok_fresh).
      change (due_assigns L (cores h) (kw_sets L o ((k, v, o') :: kv :: kws))) with
        (λ D, due_assigns L (gassign L (cores h) (o, k, v, o')) (kw_sets L o (kv :: kws))
           (due_assign L (cores h) (o, k, v, o') D)).
      apply due_assigns_iff. intros y e. apply assign_dirty; try done. by eapply tags_tag_inv.
Qed.

Lemma set_kw_full used h o kws :
  lib_ok L → sinv L h → tags_in used h → 9999%Z ∉ used →
  assigns_ok L (cores h) (kw_sets L o kws) → kws_ok L (cores h) o kws →
  tags_in used (set_kw L h o kws) ∧
  (∀ x d, d ∈ dirty_of L (set_kw L h o kws) x ↔
     due_assigns L (cores h) (kw_sets L o kws) (λ x d, d ∈ dirty_of L h x) x d).
Proof.
  intros Hlib Hs Ht Hu Hok Hl. destruct (last kws) as [[[k v] o']|] eqn:El.
  2:{ apply last_None in El as ->. done. }
  destruct kws as [|[[k1 v1] o1] kws]; [done|].
  pose proof (proj1 Hok) as Hok1. apply assign_ok_dom in Hok1 as (_ & no & Ho & _).
  destruct (Hl _ _ _ _ (cores_Some _ _ _ _ Ho) El) as [Htr|Hn].
  - apply set_kw_step; try done.
    + by eapply tags_tag_inv.
    + intros x n Hx. destruct (Ht x n Hx) as [?|?]; auto.
    + intros k' v' o2 Hl'. rewrite El in Hl'. injection Hl' as <- <- <-. by exists no.
  - apply set_kw_step_untracked; try done. intros x Hx (n & Hn' & Htr).
    rewrite Ho in Hn'. injection Hn' as <-. by apply (Hn x Hx).
Qed.

(* ------------------------------------------------------------------ *)
(** Clearing. *)
Record clear_facts h (o x : oid) n n' : Prop := {
  cf_r : ¬ above L h o x → n_r L n' = n_r L n ∧ n_dr L n' = n_dr L n;
  cf_clear : above L h o x → n_r L n' = None ∧ n_dr L n' = ∅;
  cf_pc : ∀ k' u, n_pc L n !! k' = Some u →
    (∀ d, d ∈ deps_of L (n_core L n) k' → ¬ below L (cores h) x d o) → n_pc L n' !! k' = Some u;
  cf_pc_back : ∀ k' u, n_pc L n' !! k' = Some u → n_pc L n !! k' = Some u;
  cf_dirty : ∀ d, d ∈ n_dirty L n' ↔ d ∈ n_dirty L n ∨ below L (cores h) x d o;
  cf_itr : n_itr L n' = n_itr L n ∨ n_itr L n' = None;
  cf_core : n_core L n' = n_core L n;
  cf_par : n_par L n' = n_par L n
}.

Lemma par_names_edge h a x d : sinv L h → is_Some (h !! a) →
  d ∈ par_names L h a x ↔ edge L (cores h) x d a.
Proof.
  intros Hs [na Ha]. unfold par_names. rewrite Ha. rewrite <- (si_par _ _ Hs a na x d Ha).
  unfold in_par. destruct (n_par L na !! x) as [ks|]; simpl.
  - naive_solver.
  - split; [set_solver|naive_solver].
Qed.

Lemma pstep_child h a p : sinv L h → is_Some (h !! a) → pstep L h a p ↔ child L (cores h) p a.
Proof.
  intros Hs [na Ha]. unfold pstep, child. rewrite Ha. split.
  - intros (nd & [= <-] & [ks Hks]). pose proof (si_ne _ _ Hs a na Ha p ks Hks) as Hne.
    apply set_choose_L in Hne as [d Hd]. exists d. apply (si_par _ _ Hs a na p d Ha). by exists ks.
  - intros [d He]. apply (si_par _ _ Hs a na p d Ha) in He as (ks & Hks & _). eauto.
Qed.

Lemma edge_src h p d a : edge L (cores h) p d a → is_Some (h !! p).
Proof.
  intros He. apply edge_dom in He as [c Hc]. apply cores_Some_inv in Hc as (n & ? & _). eauto.
Qed.

Lemma rtc_above h o x : sinv L h → is_Some (h !! o) → rtc (pstep L h) o x ↔ above L h o x.
Proof.
  intros Hs Ho. unfold above, dep. split.
  - assert (Hgen : ∀ y, rtc (pstep L h) y x → is_Some (h !! y) → rtc (child L (cores h)) x y).
    { intros y. induction 1 as [|a p x Hap _ IH]; [constructor|]. intros Ha.
      apply pstep_child in Hap; [|done|done]. eapply rtc_r; [|exact Hap]. apply IH.
      destruct Hap as [d Hd]. by eapply edge_src. }
    intros Hr. by apply Hgen.
  - intros Hd. induction Hd as [|x p o [d He] _ IH]; [constructor|].
    eapply rtc_r; [by apply IH|]. apply pstep_child; [done| |by exists d].
    by eapply (si_closed _ _ Hs).
Qed.

Lemma clear_none_D h o D h' : sinv L h → cleared L None h o D h' → is_Some (h !! o) →
  ∀ x, x ∈ D ↔ above L h o x.
Proof.
  intros Hs Hc Ho x. rewrite <- rtc_above by done.
  eapply cleared_none_iff; [done|by apply elem_of_dom|].
  intros y p Hy Hp. apply elem_of_dom in Hy. apply pstep_child in Hp; [|done|done].
  destruct Hp as [d Hd]. apply elem_of_dom. by eapply edge_src.
Qed.

Lemma clear_facts_ok h o : sinv L h →
  ∀ x n, h !! x = Some n → ∃ n', clear_cache L None h o !! x = Some n' ∧ clear_facts h o x n n'.
Proof.
  intros Hs x n Hx. destruct (clear_cache_spec L None h o) as [D Hc].
  pose proof Hc as [Hst Hin _ Hr]. exists (effect L h None D x n).
  split; [by rewrite Hr, Hx|].
  assert (HD : ∀ y, is_Some (h !! y) → y ∈ D ↔ above L h o y).
  { intros y Hy. destruct (h !! o) as [no|] eqn:Ho.
    - eapply clear_none_D; [done|done|]. eauto.
    - split.
      + intros Hy'. destruct (Hin y Hy') as (_ & _ & Hrt). exfalso.
        inversion Hrt as [E1 E2|? ? ? (nd & Hnd & _)]; subst; [|congruence].
        destruct Hy as [? ?]. congruence.
      + intros Hab. destruct (dep_dom L h y o Hs Hy Hab) as [? ?]. congruence. }
  assert (Hxs : is_Some (h !! x)) by eauto.
  assert (Htd : ∀ d, d ∈ touched L h D x ↔ below L (cores h) x d o).
  { intros d. rewrite elem_of_touched. unfold below. split.
    - intros (a & Ha & Hd). destruct (Hin a Ha) as (Hda & _ & _). apply elem_of_dom in Hda.
      exists a. rewrite <- par_names_edge by done. split; [done|]. by apply HD.
    - intros (a & He & Hd). assert (is_Some (h !! a)) by (by eapply (si_closed _ _ Hs)).
      exists a. rewrite par_names_edge by done. split; [|done]. by apply HD. }
  split.
  - intros Hab. rewrite effect_out_r, effect_out_dr; [done|..]; by rewrite HD.
  - intros Hab. rewrite effect_in_r, effect_in_dr; [done|..]; by rewrite HD.
  - intros k' u Hu Hd. rewrite effect_pc. apply map_filter_lookup_Some. split; [done|]. simpl.
    apply set_eq; intros d. rewrite elem_of_intersection. split; [|set_solver].
    intros [Hd1 Hd2]. exfalso. apply (Hd d Hd1). by apply Htd.
  - intros k' u. rewrite effect_pc, map_filter_lookup_Some. by intros [? _].
  - intros d. by rewrite effect_dirty, elem_of_union, Htd.
  - destruct (decide (x ∈ D)).
    + right. by rewrite effect_in_itr.
    + left. by rewrite effect_out_itr.
  - apply effect_core.
  - apply effect_par.
Qed.

Lemma clear_back h o x n' : clear_cache L None h o !! x = Some n' → is_Some (h !! x).
Proof.
  intros Hx. apply (cores_Some L) in Hx. rewrite clear_cores in Hx.
  apply cores_Some_inv in Hx as (? & ? & _). eauto.
Qed.

(* ------------------------------------------------------------------ *)
(** One step. *)
Record ok_state (used : gset Z) st : Prop := {
  os_inv : inv L (st_h st);
  os_tags : tags_in used (st_h st);
  os_9999 : 9999%Z ∉ used
}.

Lemma kept_tags used h h' : kept L h h' → tags_in used h → tags_in used h'.
Proof.
  intros Hk Ht x n' Hx'. destruct (kept_Some_inv _ _ _ _ _ Hk Hx') as (n & Hx & Hkn).
  rewrite (kn_itr _ _ _ Hkn). by eapply Ht.
Qed.

Lemma step_cores used a st : lib_ok L → ok_state used st → op_ok L used a (cores (st_h st)) →
  ok_state (op_tags L a ∪ used) (step L a st) ∧
  cores (st_h (step L a st)) = gstep L a (cores (st_h st)).
Proof.
  intros Hlib [Hi Ht H9] Hok. pose proof Hi as [Hs Hc].
  destruct a as [o c dt tm|o k v o'|o kws|i sets|o|m o w|m o w|X]; simpl in *.
  - destruct Hok as [Hn Hco].
    assert (Hn' : st_h st !! o = None).
    { apply not_elem_of_dom in Hn. rewrite cores_lookup in Hn. by destruct (st_h st !! o). }
    assert (Hb : blank L (fresh_node L c dt tm)) by (by apply fresh_blank).
    split; [split; simpl|apply cores_insert].
    + split; [by apply ins_sinv|by apply ins_cinv].
    + intros x n Hx. apply lookup_insert_Some in Hx as [[<- <-]|[_ Hx]]; [by left|].
      apply tags_in_mono with (used' := ∅ ∪ used) in Ht; [by eapply Ht|set_solver].
    + set_solver.
  - split; [split; simpl|].
    + by apply assign_inv.
    + apply tags_in_mono with used; [set_solver|]. by apply assign_tags.
    + set_solver.
    + apply assign_cores; [done|]. by eapply assign_ok_fresh.
  - destruct Hok as [Hok Hkw]. split; [split; simpl|].
    + by apply set_kw_inv.
    + apply tags_in_mono with used; [set_solver|]. by apply set_kw_full.
    + set_solver.
    + by apply set_kw_cores.
  - destruct Hok as (Hf & Hi9 & Hok).
    destruct (batch_inv L i sets (st_h st) Hlib Hi) as [I1 I2]; [by eapply tags_fresh|done|].
    split; [split; simpl|done].
    + done.
    + apply (batch_step i sets ({[i]} ∪ used) (st_h st)); try done.
      * by eapply tags_tag_inv.
      * apply tags_in_mono with used; [set_solver|done].
      * set_solver.
    + set_solver.
  - split; [split; simpl|apply clear_cores].
    + by apply clear_inv.
    + intros x n' Hx'. destruct (clear_back _ _ _ _ Hx') as [n Hx].
      destruct (clear_facts_ok (st_h st) o Hs x n Hx) as (n2 & Hn2 & Hcf).
      rewrite Hx' in Hn2. injection Hn2 as <-.
      destruct (cf_itr _ _ _ _ _ Hcf) as [E|E]; rewrite E; [|by left].
      apply tags_in_mono with (used' := ∅ ∪ used) in Ht; [by eapply Ht|set_solver].
    + set_solver.
  - destruct (read_is_good L (cores (st_h st)) m o w st Hi eq_refl) as (I1 & I2 & _).
    split; [split|by apply kept_cores].
    + done.
    + apply tags_in_mono with used; [set_solver|]. by eapply kept_tags.
    + set_solver.
  - destruct (read_dr_good L (cores (st_h st)) m w o st Hi eq_refl) as (I1 & I2 & _); [by apply elem_of_dom|].
    split; [split|by apply kept_cores].
    + done.
    + apply tags_in_mono with used; [set_solver|]. by eapply kept_tags.
    + set_solver.
  - split; [split; simpl|].
    + by apply collect_inv.
    + intros x n' Hx'. destruct (col_back _ _ _ _ _ Hx') as (n & Hn & -> & _).
      apply tags_in_mono with (used' := ∅ ∪ used) in Ht; [by apply (Ht x n)|set_solver].
    + set_solver.
    + apply map_eq; intros x. rewrite col_cores. case_decide as Hx.
      * symmetry. apply map_filter_lookup_None. right. intros c _ Hc'. simpl in Hc'. done.
      * destruct (cores (st_h st) !! x) as [c|] eqn:E; symmetry.
        -- by apply map_filter_lookup_Some.
        -- apply map_filter_lookup_None. by left.
Qed.

Fixpoint tags_of (l : list (op L)) (used : gset Z) : gset Z :=
  match l with [] => used | a :: l' => tags_of l' (op_tags L a ∪ used) end.

Lemma exec_from l : ∀ used st, lib_ok L → ok_state used st → valid_from L used l (cores (st_h st)) →
  ok_state (tags_of l used) (exec L l st) ∧ cores (st_h (exec L l st)) = gexec L l (cores (st_h st)).
Proof.
  induction l as [|a l IH]; intros used st Hlib Hos Hv; [done|]. simpl in *.
  destruct Hv as [Ha Hv]. destruct (step_cores used a st Hlib Hos Ha) as [Hos' Hcs].
  rewrite <- Hcs in Hv |- *. by apply IH.
Qed.

Lemma ok_init : ok_state ∅ (init L).
Proof.
  split.
  - split; split; try done. intros o k p (c & Hc & _). exfalso. unfold init in Hc. simpl in Hc.
    rewrite cores_lookup, lookup_empty in Hc. done.
  - by intros x n Hx.
  - set_solver.
Qed.

Lemma exec_ok l : lib_ok L → valid L l →
  ok_state (tags_of l ∅) (exec L l (init L)) ∧ cores (st_h (exec L l (init L))) = gexec L l ∅.
Proof.
  intros Hlib Hv.
  assert (E : cores (st_h (init L)) = ∅) by apply fmap_empty.
  destruct (exec_from l ∅ (init L) Hlib ok_init) as [H1 H2]; [by rewrite E|]. by rewrite E in H2.
Qed.

Lemma valid_app l1 l2 used g : valid_from L used (l1 ++ l2) g ↔
  valid_from L used l1 g ∧ valid_from L (tags_of l1 used) l2 (gexec L l1 g).
Proof.
  revert used g. induction l1 as [|a l1 IH]; intros used g; simpl; [tauto|]. rewrite IH. tauto.
Qed.
Lemma exec_app l1 l2 st : exec L (l1 ++ l2) st = exec L l2 (exec L l1 st).
Proof. apply foldl_app. Qed.
Lemma gexec_app l1 l2 g : gexec L (l1 ++ l2) g = gexec L l2 (gexec L l1 g).
Proof. apply foldl_app. Qed.

(* ------------------------------------------------------------------ *)
(** Notifications. *)
Lemma new_events_app st st' evs : st_log st' = evs ++ st_log st → new_events L st st' = evs.
Proof.
  intros E. unfold new_events. rewrite E, app_length.
  replace (length evs + length (st_log st) - length (st_log st)) with (length evs) by lia.
  apply take_app.
Qed.
Lemma new_events_same st f : new_events L st (on_heap L f st) = [].
Proof. apply (new_events_app _ _ []). done. Qed.

Lemma obs_events st st' : obs L st st' → obs_by L (new_events L st st') st st'.
Proof. intros [evs H]. by rewrite (new_events_app _ _ evs) by apply H. Qed.

Lemma step_due used a st : lib_ok L → ok_state used st → op_ok L used a (cores (st_h st)) →
  ∀ x d, d ∈ dirty_of L (st_h (step L a st)) x ↔
    due_step L a (cores (st_h st)) (new_events L st (step L a st)) (λ x d, d ∈ dirty_of L (st_h st) x) x d.
Proof.
  intros Hlib [Hi Ht H9] Hok x d. pose proof Hi as [Hs Hc].
  assert (Hobs : ∀ st', obs L st st' →
    d ∈ dirty_of L (st_h st') x ↔ d ∈ dirty_of L (st_h st) x ∧ ∀ ks, EvChanged x ks ∉ new_events L st st').
  { intros st' Ho%obs_events. destruct (ob_dirty _ _ _ _ Ho x) as [[Hn ->]|[[ks Hks] ->]].
    - split; [|by intros [? _]]. intros Hd. split; [done|]. intros ks Hks. apply Hn. by exists ks.
    - split; [set_solver|]. intros [_ Hno]. by destruct (Hno ks). }
  destruct a as [o c dt tm|o k v o'|o kws|i sets|o|m o w|m o w|X]; simpl in *.
  - destruct Hok as [Hn Hco].
    assert (Hn' : st_h st !! o = None).
    { apply not_elem_of_dom in Hn. rewrite cores_lookup in Hn. by destruct (st_h st !! o). }
    unfold dirty_of. destruct (decide (x = o)) as [->|].
    + rewrite lookup_insert, Hn'. simpl. set_solver.
    + rewrite lookup_insert_ne by done. tauto.
  - apply assign_dirty; try done.
  - destruct Hok as [Hok Hkw]. by eapply set_kw_full.
  - destruct Hok as (Hf & Hi9 & Hok).
    apply (batch_step i sets ({[i]} ∪ used) (st_h st)); try done.
    + by eapply tags_tag_inv.
    + apply tags_in_mono with used; [set_solver|done].
    + set_solver.
  - destruct (st_h st !! x) as [n|] eqn:Hx.
    + destruct (clear_facts_ok (st_h st) o Hs x n Hx) as (n2 & Hn2 & Hcf).
      rewrite (dirty_lookup _ _ _ Hn2), (dirty_lookup _ _ _ Hx). apply Hcf.
    + assert (Hx' : clear_cache L None (st_h st) o !! x = None).
      { apply eq_None_not_Some. intros [n' Hn']. apply clear_back in Hn' as [? ?]. congruence. }
      rewrite (dirty_none _ _ Hx'), (dirty_none _ _ Hx). split; [set_solver|].
      intros [Hd|(a & He & _)]; [set_solver|]. apply edge_src in He as [? ?]. congruence.
  - apply Hobs. apply read_obs.
  - apply Hobs. apply read_dr_obs.
  - unfold dirty_of. rewrite col_lookup. case_decide; [set_solver|].
    destruct (st_h st !! x); simpl; [tauto|]. set_solver.
Qed.

Lemma due_step_iff a g evs D D' : (∀ x d, D x d ↔ D' x d) →
  ∀ x d, due_step L a g evs D x d ↔ due_step L a g evs D' x d.
Proof.
  intros H x d. destruct a; simpl; try (by rewrite H); by apply due_assigns_iff.
Qed.
Lemma due_after_iff l : ∀ st D D', (∀ x d, D x d ↔ D' x d) →
  ∀ x d, due_after L l st D x d ↔ due_after L l st D' x d.
Proof.
  induction l as [|a l IH]; intros st D D' H; [done|]. simpl. apply IH. by apply due_step_iff.
Qed.

Lemma exec_due l : ∀ used st, lib_ok L → ok_state used st → valid_from L used l (cores (st_h st)) →
  ∀ x d, d ∈ dirty_of L (st_h (exec L l st)) x ↔
    due_after L l st (λ x d, d ∈ dirty_of L (st_h st) x) x d.
Proof.
  induction l as [|a l IH]; intros used st Hlib Hos Hv x d; [done|]. simpl in *.
  destruct Hv as [Ha Hv]. destruct (step_cores used a st Hlib Hos Ha) as [Hos' Hcs].
  rewrite <- Hcs in Hv. rewrite (IH _ _ Hlib Hos' Hv). apply due_after_iff.
  intros y e. by eapply step_due.
Qed.

Lemma exec_due_init l : lib_ok L → valid L l →
  ∀ x d, d ∈ dirty_of L (st_h (exec L l (init L))) x ↔ due_after L l (init L) nothing_due x d.
Proof.
  intros Hlib Hv x d.
  assert (E : cores (st_h (init L)) = ∅) by apply fmap_empty.
  rewrite (exec_due l ∅); [|done|apply ok_init|by rewrite E].
  apply due_after_iff. intros y e. unfold dirty_of, nothing_due. simpl. rewrite lookup_empty. set_solver.
Qed.

(* ------------------------------------------------------------------ *)
(** Caches that survive. *)
Definition caches h (o : oid) (v : Arr L) : Prop := ∃ n, h !! o = Some n ∧ n_r L n = Some v.
Definition caches_prop h (o : oid) (k : name) (v : Arr L) : Prop :=
  ∃ n, h !! o = Some n ∧ n_pc L n !! k = Some v.

Lemma kept_caches h h' o v : kept L h h' → caches h o v → caches h' o v.
Proof.
  intros Hk (n & Hn & Hr). destruct (kept_Some _ _ _ _ _ Hk Hn) as (n' & Hn' & Hkn).
  exists n'. split; [done|]. by apply (kn_r _ _ _ Hkn).
Qed.
Lemma kept_caches_prop h h' o k v : kept L h h' → caches_prop h o k v → caches_prop h' o k v.
Proof.
  intros Hk (n & Hn & Hr). destruct (kept_Some _ _ _ _ _ Hk Hn) as (n' & Hn' & Hkn).
  exists n'. split; [done|]. by apply (kn_pc _ _ _ Hkn).
Qed.

Lemma assign_caches itr h o k v o' x u :
  lib_ok L → sinv L h → assign_ok L (cores h) o k v o' →
  (tracks L (cores h) o k → ¬ dep L (cores h) x o) →
  caches h x u → caches (assign L itr h o k v o') x u.
Proof.
  intros Hlib Hs Hok Hq (n & Hn & Hr). destruct (assign_eff L itr h o k v o' Hlib Hs Hok) as [He _].
  destruct (He x n Hn) as (n' & Hn' & Hne). exists n'. split; [done|].
  destruct (ne_r _ _ _ _ _ _ _ _ _ Hne) as (-> & _ & _); [|done].
  intros [Ht Hab]. apply Hq; [by apply tracks_in|done].
Qed.

Lemma assign_caches_prop itr h o k v o' x k' u :
  lib_ok L → sinv L h → assign_ok L (cores h) o k v o' →
  (tracks L (cores h) o k → ∀ c ds, cores h !! x = Some c → prop_deps L (c_cls L c) !! k' = Some ds →
     ∀ d, d ∈ ds → ¬ announced L (gassign L (cores h) (o, k, v, o')) o k x d) →
  caches_prop h x k' u → caches_prop (assign L itr h o k v o') x k' u.
Proof.
  intros Hlib Hs Hok Hq (n & Hn & Hr). destruct (assign_eff L itr h o k v o' Hlib Hs Hok) as [He _].
  destruct (He x n Hn) as (n' & Hn' & Hne). exists n'. split; [done|].
  apply (ne_pc _ _ _ _ _ _ _ _ _ Hne); [done|].
  intros d Hd Ht. rewrite (assign_cores L itr) by (done || by eapply assign_ok_fresh).
  unfold deps_of in Hd.
  destruct (prop_deps L (c_cls L (n_core L n)) !! k') as [ds|] eqn:Ed; simpl in Hd; [|set_solver].
  apply (Hq (proj2 (tracks_in _ _ _) Ht) (n_core L n) ds); [by apply cores_Some|done|done].
Qed.

(** Generic propagation through a list of assignments. *)
Lemma assigns_keep (K : heap → Prop) (P : graph → oid → name → graph → Prop) :
  lib_ok L →
  (∀ itr h o k v o', sinv L h → assign_ok L (cores h) o k v o' →
     P (cores h) o k (gassign L (cores h) (o, k, v, o')) → K h → K (assign L itr h o k v o')) →
  (∀ i sets h, sinv L h → assigns_ok L (cores h) sets → all_assigns L P (cores h) sets → K h → K (batch L i sets h)) ∧
  (∀ kws o h, sinv L h → assigns_ok L (cores h) (kw_sets L o kws) →
     all_assigns L P (cores h) (kw_sets L o kws) → K h → K (set_kw L h o kws)).
Proof.
  intros Hlib HK. split.
  - intros i sets. induction sets as [|[[[o k] v] o'] sets IH]; intros h Hs Hok Hq Hk; [done|].
    destruct Hok as [Hok1 Hok]. destruct Hq as [Hq1 Hq].
    change (batch L i ((o, k, v, o') :: sets) h) with (batch L i sets (assign L (Some i) h o k v o')).
    rewrite <- (assign_cores L (Some i)) in Hok, Hq by (done || by eapply assign_ok_fresh).
    apply IH; [|done|done|by apply HK].
    apply (assign_facts_ok L (Some i) h o k v o' Hlib Hs Hok1).
  - intros kws o. induction kws as [|[[k v] o'] kws IH]; intros h Hs Hok Hq Hk; [done|].
    destruct Hok as [Hok1 Hok]. destruct Hq as [Hq1 Hq].
    destruct kws as [|kv kws]; [by apply HK|].
    change (set_kw L h o ((k, v, o') :: kv :: kws)) with
      (set_kw L (assign L (Some 9999%Z) h o k v o') o (kv :: kws)).
    change (assigns_ok L (gassign L (cores h) (o, k, v, o')) (kw_sets L o (kv :: kws))) in Hok.
    change (all_assigns L P (gassign L (cores h) (o, k, v, o')) (kw_sets L o (kv :: kws))) in Hq.
    rewrite <- (assign_cores L (Some 9999%Z)) in Hok, Hq by (done || by eapply assign_ok_fresh).
    apply IH; [|done|done|by apply HK].
    apply (assign_facts_ok L (Some 9999%Z) h o k v o' Hlib Hs Hok1).
Qed.

Lemma step_caches used a st o v : lib_ok L → ok_state used st → op_ok L used a (cores (st_h st)) →
  spares L (λ g p k _, tracks L g p k → ¬ dep L g o p) (λ g p, ¬ dep L g o p) o a (cores (st_h st)) →
  caches (st_h st) o v →
  caches (st_h (step L a st)) o v ∧ EvCompute o ∉ new_events L st (step L a st).
Proof.
  intros Hlib [Hi Ht H9] Hok Hq Hc. pose proof Hi as [Hs _].
  destruct (assigns_keep (λ h, caches h o v) (λ g p k _, tracks L g p k → ¬ dep L g o p) Hlib) as [KB KK].
  { intros. by apply assign_caches. }
  assert (Hhas : has_r L (st_h st) o).
  { destruct Hc as (n & Hn & Hr). exists n. split; [done|]. eauto. }
  destruct a as [o1 c dt tm|o1 k v1 o'|o1 kws|i sets|o1|m o1 w|m o1 w|X]; simpl in *;
    try (rewrite new_events_same; split; [|by apply not_elem_of_nil]).
  - destruct Hc as (n & Hn & Hr). exists n. split; [|done]. rewrite lookup_insert_ne; [done|].
    intros ->. destruct Hok as [Hok _]. apply Hok. rewrite elem_of_dom, cores_lookup, Hn. simpl. eauto.
  - apply assign_caches; try done. apply Hq.
  - destruct Hok as [Hok _]. by apply KK.
  - destruct Hok as (_ & _ & Hok). by apply KB.
  - destruct Hc as (n & Hn & Hr). destruct (clear_facts_ok (st_h st) o1 Hs o n Hn) as (n' & Hn' & Hcf).
    exists n'. split; [done|]. destruct (cf_r _ _ _ _ _ Hcf Hq) as [-> _]. done.
  - destruct (read_is_good L (cores (st_h st)) m o1 w st Hi eq_refl) as (I1 & I2 & _).
    split; [by eapply kept_caches|]. intros He.
    pose proof (obs_events _ _ (read_obs L m o1 w st)) as Ho. by apply (ob_r _ _ _ _ Ho o He).
  - destruct (read_dr_good L (cores (st_h st)) m w o1 st Hi eq_refl) as (I1 & I2 & _); [by apply elem_of_dom|].
    split; [by eapply kept_caches|]. intros He.
    pose proof (obs_events _ _ (read_dr_obs L m w o1 st)) as Ho. by apply (ob_r _ _ _ _ Ho o He).
  - destruct Hc as (n & Hn & Hr). eexists. rewrite col_lookup, decide_False, Hn by done. done.
Qed.

Lemma step_caches_prop used a st o k ds v c : lib_ok L → ok_state used st → op_ok L used a (cores (st_h st)) →
  cores (st_h st) !! o = Some c → prop_deps L (c_cls L c) !! k = Some ds →
  spares L (λ g p k' g', tracks L g p k' → ∀ d, d ∈ ds → ¬ announced L g' p k' o d)
    (λ g p, ∀ d, d ∈ ds → ¬ below L g o d p) o a (cores (st_h st)) →
  caches_prop (st_h st) o k v →
  caches_prop (st_h (step L a st)) o k v ∧ EvProp o k ∉ new_events L st (step L a st).
Proof.
  intros Hlib [Hi Ht H9] Hok Hco Hds Hq Hc. pose proof Hi as [Hs _].
  set (P := λ (g : graph) p k' g', tracks L g p k' → ∀ d, d ∈ ds → ¬ announced L g' p k' o d) in *.
  set (K := λ h, caches_prop h o k v ∧ ∃ c, cores h !! o = Some c ∧ prop_deps L (c_cls L c) !! k = Some ds).
  assert (HK : ∀ itr h o1 k1 v1 o1', sinv L h → assign_ok L (cores h) o1 k1 v1 o1' →
     P (cores h) o1 k1 (gassign L (cores h) (o1, k1, v1, o1')) → K h → K (assign L itr h o1 k1 v1 o1')).
  { intros itr h o1 k1 v1 o1' Hs1 Hok1 HP [Hk (c1 & Hc1 & Hd1)]. split.
    - apply assign_caches_prop; try done. intros Htr c2 ds2 Hc2 Hds2 d Hd.
      rewrite Hc1 in Hc2. injection Hc2 as <-. rewrite Hd1 in Hds2. injection Hds2 as <-.
      by apply HP.
    - pose proof (assign_facts_ok L itr h o1 k1 v1 o1' Hlib Hs1 Hok1) as Hf.
      apply cores_Some_inv in Hc1 as (n1 & Hn1 & <-).
      destruct (af_ext _ _ _ _ _ _ Hf o n1 Hn1) as (n1' & Hn1' & E & _).
      exists (n_core L n1'). split; [by apply cores_Some|]. by rewrite E. }
  destruct (assigns_keep K P Hlib HK) as [KB KK].
  assert (Hhas : has_prop L (st_h st) o k).
  { destruct Hc as (n & Hn & Hr). exists n. split; [done|]. eauto. }
  assert (HKst : K (st_h st)) by (split; eauto).
  destruct a as [o1 c1 dt tm|o1 k1 v1 o'|o1 kws|i sets|o1|m o1 w|m o1 w|X]; simpl in *;
    try (rewrite new_events_same; split; [|by apply not_elem_of_nil]).
  - destruct Hc as (n & Hn & Hr). exists n. split; [|done]. rewrite lookup_insert_ne; [done|].
    intros ->. destruct Hok as [Hok _]. apply Hok. rewrite elem_of_dom. eauto.
  - apply (HK None); try done. apply Hq.
  - destruct Hok as [Hok _]. by apply KK.
  - destruct Hok as (_ & _ & Hok). by apply KB.
  - destruct Hc as (n & Hn & Hr). destruct (clear_facts_ok (st_h st) o1 Hs o n Hn) as (n' & Hn' & Hcf).
    exists n'. split; [done|]. apply (cf_pc _ _ _ _ _ Hcf); [done|].
    rewrite (cores_Some _ _ _ _ Hn) in Hco. injection Hco as ->.
    intros d Hd. apply Hq. unfold deps_of in Hd. rewrite Hds in Hd. done.
  - destruct (read_is_good L (cores (st_h st)) m o1 w st Hi eq_refl) as (I1 & I2 & _).
    split; [by eapply kept_caches_prop|]. intros He.
    pose proof (obs_events _ _ (read_obs L m o1 w st)) as Ho. by apply (ob_prop _ _ _ _ Ho o k He).
  - destruct (read_dr_good L (cores (st_h st)) m w o1 st Hi eq_refl) as (I1 & I2 & _); [by apply elem_of_dom|].
    split; [by eapply kept_caches_prop|]. intros He.
    pose proof (obs_events _ _ (read_dr_obs L m w o1 st)) as Ho. by apply (ob_prop _ _ _ _ Ho o k He).
  - destruct Hc as (n & Hn & Hr). eexists. rewrite col_lookup, decide_False, Hn by done. done.
Qed.
End hist.
