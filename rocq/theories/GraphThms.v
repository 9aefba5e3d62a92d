(** Proofs about GraphModel.v. *)
From stdpp Require Import gmap strings list relations sets fin_sets.
From Verif Require Import EngineModel EngineSpec EngineEval EngineInv EngineHist EngineThms GraphModel GraphSpec.

(** Induction along an acyclic relation on a finite set, counting depth. *)
Lemma depth_ind (D : gset oid) (R : relation oid) (Q : nat → oid → Prop) :
  acyclic R → (∀ x y, x ∈ D → R x y → y ∈ D) →
  (∀ n x, x ∈ D → (∀ y, R x y → Q n y) → Q (S n) x) →
  ∀ n x, size D ≤ n → x ∈ D → Q n x.
Proof.
  intros Hac Hcl Hstep.
  assert (H : ∀ n x (P : gset oid), x ∈ D → (∀ p, p ∈ P → tc R p x) → P ⊆ D → size D ≤ n + size P → Q n x).
  { induction n as [|n IH]; intros x P Hx HP HPD Hsz.
    - exfalso. assert (Hn : x ∉ P) by (intros Hp; by apply (Hac x), HP).
      assert (Hs : size ({[x]} ∪ P) ≤ size D) by (apply subseteq_size; set_solver).
      rewrite size_union in Hs by set_solver. rewrite size_singleton in Hs. lia.
    - apply Hstep; [done|]. intros y Hxy. apply (IH y ({[x]} ∪ P)).
      + by eapply Hcl.
      + intros p [->%elem_of_singleton|Hp]%elem_of_union; [by apply tc_once|].
        eapply tc_r; [by apply HP|done].
      + set_solver.
      + assert (Hn : x ∉ P) by (intros Hp; by apply (Hac x), HP).
        rewrite size_union by set_solver. rewrite size_singleton. lia. }
  intros n x Hn Hx. apply (H n x ∅); [done|set_solver|set_solver|]. rewrite size_empty. lia.
Qed.

Section thms.
Context (L : lib).
Notation graph := (gmap oid (core L)).
Notation points := (points L).
Notation holds := (holds L).
Notation kids := (kids L).

Lemma elem_of_refs c ks p : p ∈ refs L c ks ↔ ∃ k, k ∈ ks ∧ c_attr L c !! k = Some (ARef p).
Proof.
  unfold refs. rewrite elem_of_list_omap. split; intros (k & Hk & H); exists k; split; try done.
  - destruct (c_attr L c !! k) as [[t|q]|]; by simplify_eq.
  - by rewrite H.
Qed.
Lemma kids_points (g : graph) o c p : g !! o = Some c → p ∈ kids c ↔ points g o p.
Proof.
  intros Hc. unfold GraphModel.kids. rewrite elem_of_refs. split.
  - intros (k & Hk & Hp). by exists c, k.
  - intros (c' & k & Hc' & Hk & Hp). rewrite Hc in Hc'. simplify_eq. by exists k.
Qed.
Lemma points_closed (g : graph) o p : well_formed L g → points g o p → p ∈ dom g.
Proof. intros [Hcl _] (c & k & Hc & _ & Hp). by eapply Hcl. Qed.
Lemma holds_closed (g : graph) o p : well_formed L g → holds g o p → p ∈ dom g.
Proof. intros [Hcl _] (c & k & Hc & _ & Hp). by eapply Hcl. Qed.

Definition refs_closed (g : graph) : Prop :=
  ∀ o c k p, g !! o = Some c → c_attr L c !! k = Some (ARef p) → p ∈ dom g.
Lemma insert_closed (g : graph) o c k v : refs_closed g → g !! o = Some c →
  (∀ p, v = ARef p → p ∈ dom g) → refs_closed (<[o := write L k v c]> g).
Proof.
  intros Hcl Hc Hv x cx j p Hx Hp. apply elem_of_dom. destruct (decide (p = o)) as [->|Hne].
  { rewrite lookup_insert. eauto. }
  rewrite lookup_insert_ne by done. apply elem_of_dom.
  destruct (decide (x = o)) as [->|].
  - rewrite lookup_insert in Hx. injection Hx as <-. simpl in Hp. destruct (decide (j = k)) as [->|].
    + rewrite lookup_insert in Hp. injection Hp as Hp. by apply Hv.
    + rewrite lookup_insert_ne in Hp by done. by apply (Hcl o c j p).
  - rewrite lookup_insert_ne in Hx by done. by apply (Hcl x cx j p).
Qed.
Lemma gassign_closed (g : graph) o k v o' : refs_closed g → assign_ok L g o k v o' →
  refs_closed (gassign L g (o, k, v, o')).
Proof.
  intros Hcl (c & Hc & _ & Hr & Ho'). unfold gassign. rewrite Hc.
  destruct v as [t|q]; [|by apply insert_closed].
  destruct (is_base _ _); [by apply insert_closed|]. destruct (decide _); [|by apply insert_closed].
  assert (Hne : o' ≠ o) by (intros ->; apply Ho', elem_of_dom; eauto).
  apply insert_closed.
  - intros x cx j p Hx Hp. rewrite dom_insert_L. destruct (decide (x = o')) as [->|].
    + rewrite lookup_insert in Hx. injection Hx as <-. simpl in Hp.
      apply lookup_singleton_Some in Hp as [_ Hp]. done.
    + rewrite lookup_insert_ne in Hx by done. apply elem_of_union_r. by apply (Hcl x cx j p).
  - by rewrite lookup_insert_ne.
  - intros p [= <-]. rewrite dom_insert_L. set_solver.
Qed.
Lemma gassigns_closed sets : ∀ (g : graph), refs_closed g → assigns_ok L g sets →
  refs_closed (foldl (gassign L) g sets).
Proof.
  induction sets as [|[[[o k] v] o'] sets IH]; intros g Hcl Hok; [done|]. destruct Hok as [H1 H2].
  apply (IH (gassign L g (o, k, v, o'))); [by apply gassign_closed|done].
Qed.
Lemma gstep_closed used a (g : graph) : refs_closed g → op_ok L used a g → refs_closed (gstep L a g).
Proof.
  intros Hcl Hok. destruct a as [o c dt tm|o k v o'|o kws|i sets|o|m o w|m o w|Y]; simpl in *; try done.
  - destruct Hok as [Ho _]. intros x cx j p Hx Hp. rewrite dom_insert_L. destruct (decide (x = o)) as [->|].
    + rewrite lookup_insert in Hx. injection Hx as <-. simpl in Hp. by rewrite lookup_empty in Hp.
    + rewrite lookup_insert_ne in Hx by done. apply elem_of_union_r. by apply (Hcl x cx j p).
  - by apply gassign_closed.
  - apply gassigns_closed; [done|apply Hok].
  - apply gassigns_closed; [done|apply Hok].
  - intros x cx j p Hx Hp. apply map_filter_lookup_Some in Hx as [Hx HY].
    pose proof (Hcl x cx j p Hx Hp) as Hd. apply elem_of_dom in Hd as [cp Hcp].
    apply elem_of_dom. exists cp. apply map_filter_lookup_Some. split; [done|]. simpl in *.
    intros HpY. by apply HY, (Hok x cx j p).
Qed.
Lemma gexec_closed l : ∀ used (g : graph), refs_closed g → valid_from L used l g → refs_closed (gexec L l g).
Proof.
  induction l as [|a l IH]; intros used g Hcl Hv; [done|]. destruct Hv as [Ha Hv].
  change (refs_closed (gexec L l (gstep L a g))).
  apply (IH (op_tags L a ∪ used)); [by apply (gstep_closed used)|done].
Qed.

Lemma valid_well_formed l : lib_ok L → valid L l → well_formed L (gexec L l ∅).
Proof.
  intros Hlib Hv. destruct (exec_ok L l Hlib Hv) as [[[Hs _] _ _] Hc].
  split.
  - apply (gexec_closed l ∅); [|exact Hv]. intros o c k p Ho. by rewrite lookup_empty in Ho.
  - intros o c k p. rewrite <- Hc. intros Ho Hb Hk. destruct (si_ok _ _ Hs o c Ho) as [Hco Hx].
    destruct Hk as [Hk|Hk]; [by apply Hx|]. destruct (co_base _ _ _ _ Hco Hb) as (_ & E & _).
    rewrite E in Hk. by apply elem_of_nil in Hk.
Qed.

(** is_dr_wrt *)
Lemma is_dr_wrt_says n : ∀ (g : graph) o w b,
  (∀ o c k p, g !! o = Some c → is_base L (c_cls L c) = true → k ∈ c_dt L c ∨ k ∈ c_tm L c →
     c_attr L c !! k ≠ Some (ARef p)) → is_dr_wrt L n g o w = Some b →
  (b = true ↔ (∃ c, g !! o = Some c ∧ is_base L (c_cls L c) = true ∧ o = w) ∨ tc (points g) o w).
Proof.
  induction n as [|n IH]; intros g o w b Hwf H; [done|]. simpl in H.
  destruct (g !! o) as [c|] eqn:Hc; [|done]. destruct (is_base L (c_cls L c)) eqn:Hb.
  - injection H as <-. rewrite bool_decide_eq_true. split.
    + intros ->. left. by exists c.
    + intros [(? & ? & ? & ?)|Ht]; [done|]. exfalso.
      assert (Hp : ∃ p, points g o p) by (inversion Ht; eauto). destruct Hp as (p & c' & k & Hc' & Hk & Hp).
      rewrite Hc in Hc'. simplify_eq. apply (Hwf o c' k p); auto.
  - destruct (decide (w ∈ kids c)) as [Hw|Hw].
    + injection H as <-. split; [|done]. intros _. right. apply tc_once. by apply (kids_points g o c).
    + apply fmap_Some in H as (bs & Hbs & ->). apply mapM_Some_1 in Hbs. rewrite existsb_exists. split.
      * intros (b & Hin & Hbt). right. unfold id in Hbt. subst b. apply elem_of_list_In in Hin.
        apply elem_of_list_lookup in Hin as [i Hi].
        destruct (Forall2_lookup_r _ _ _ _ _ Hbs Hi) as (d & Hd & Hr).
        apply elem_of_list_lookup_2 in Hd. rewrite (kids_points g o c) in Hd by done.
        apply (IH g d w true Hwf) in Hr. destruct Hr as [Hr _].
        destruct (Hr eq_refl) as [(? & ? & ? & ->)|Ht]; [by apply tc_once|by eapply tc_l].
      * intros [(c' & Hc' & Hb' & _)|Ht]; [congruence|].
        assert (Hd : ∃ d, points g o d ∧ (d = w ∨ tc (points g) d w)).
        { inversion Ht; subst; eauto. }
        destruct Hd as (d & Hd & Hdw). rewrite <- (kids_points g o c) in Hd by done.
        destruct Hdw as [->|Hdw]; [done|]. apply elem_of_list_lookup in Hd as [i Hi].
        destruct (Forall2_lookup_l _ _ _ _ _ Hbs Hi) as (b & Hb' & Hr).
        exists b. split; [by apply elem_of_list_In; eapply elem_of_list_lookup_2|].
        unfold id. apply (IH g d w b Hwf Hr). by right.
Qed.

Lemma is_dr_wrt_sound n (g : graph) o w b : well_formed L g → is_dr_wrt L n g o w = Some b →
  (b = true ↔ (∃ c, g !! o = Some c ∧ is_base L (c_cls L c) = true ∧ o = w) ∨ tc (points g) o w).
Proof. intros Hwf. apply is_dr_wrt_says. intros x c k p. apply (wf_base _ _ Hwf). Qed.

Lemma is_dr_wrt_ends (g : graph) w : (∀ x y, points g x y → y ∈ dom g) → acyclic (points g) →
  ∀ n o, size (dom g) ≤ n → o ∈ dom g → ∃ b, is_dr_wrt L n g o w = Some b.
Proof.
  intros Hcl Hac. apply depth_ind with (R := points g); [done|intros x y _; apply Hcl|].
  intros n x Hx IH. simpl. apply elem_of_dom in Hx as [c Hc]. rewrite Hc.
  destruct (is_base _ _); [eauto|]. destruct (decide _); [eauto|].
  assert (Hm : ∃ bs, mapM (λ d, is_dr_wrt L n g d w) (kids c) = Some bs).
  { apply mapM_is_Some_2, Forall_forall. intros d Hd. apply IH. by apply (kids_points g x c). }
  destruct Hm as [bs Hbs]. rewrite Hbs. simpl. eauto.
Qed.
Lemma is_dr_wrt_total (g : graph) w : well_formed L g → acyclic (points g) →
  ∀ n o, size (dom g) ≤ n → o ∈ dom g → ∃ b, is_dr_wrt L n g o w = Some b.
Proof. intros Hwf. apply is_dr_wrt_ends. intros x y. by apply points_closed. Qed.

(* ------------------------------------------------------------------ *)
(** tree_iterator *)
Record tree_ok (g : graph) (os : list oid) (vis : gset oid) (l : list oid) (vis' : gset oid) : Prop := {
  to_vis : vis' = vis ∪ list_to_set l;
  to_nodup : NoDup l;
  to_new : ∀ x, x ∈ l → x ∉ vis;
  to_reach : ∀ x, x ∈ l → ∃ o, o ∈ os ∧ rtc (points g) o x;
  to_start : ∀ o, o ∈ os → o ∈ vis';
  to_closed : ∀ x y, x ∈ l → points g x y → y ∈ vis'
}.

Lemma tree_ok_app (g : graph) os1 os2 vis l1 vis1 l2 vis2 :
  tree_ok g os1 vis l1 vis1 → tree_ok g os2 vis1 l2 vis2 → tree_ok g (os1 ++ os2) vis (l1 ++ l2) vis2.
Proof.
  intros H1 H2. pose proof (to_vis _ _ _ _ _ H1) as E1. pose proof (to_vis _ _ _ _ _ H2) as E2. split.
  - rewrite E2, E1, list_to_set_app_L. by rewrite (assoc_L (∪)).
  - apply NoDup_app. split_and!; [apply H1| |apply H2]. intros x Hx Hx2.
    apply (to_new _ _ _ _ _ H2 x Hx2). rewrite E1. set_solver.
  - intros x [Hx|Hx]%elem_of_app; [by apply H1|]. intros Hv. apply (to_new _ _ _ _ _ H2 x Hx). set_solver.
  - intros x [Hx|Hx]%elem_of_app.
    + destruct (to_reach _ _ _ _ _ H1 x Hx) as (o & Ho & Hr). exists o. split; [set_solver|done].
    + destruct (to_reach _ _ _ _ _ H2 x Hx) as (o & Ho & Hr). exists o. split; [set_solver|done].
  - intros o [Ho|Ho]%elem_of_app; [|by apply H2]. pose proof (to_start _ _ _ _ _ H1 o Ho). set_solver.
  - intros x y [Hx|Hx]%elem_of_app Hxy; [|by apply (to_closed _ _ _ _ _ H2 x)].
    pose proof (to_closed _ _ _ _ _ H1 x y Hx Hxy). set_solver.
Qed.

Lemma tree_ok_nil (g : graph) vis : tree_ok g [] vis [] vis.
Proof.
  split; try (intros ? H%elem_of_nil; done).
  - by rewrite list_to_set_nil, (right_id_L ∅ (∪)).
  - constructor.
  - intros x y H%elem_of_nil. done.
Qed.
Lemma tree_ok_seen (g : graph) o vis : o ∈ vis → tree_ok g [o] vis [] vis.
Proof.
  intros Ho. split; try (intros ? H%elem_of_nil; done).
  - by rewrite list_to_set_nil, (right_id_L ∅ (∪)).
  - constructor.
  - by intros x ->%elem_of_list_singleton.
  - intros x y H%elem_of_nil. done.
Qed.
Lemma tree_spec (g : graph) : well_formed L g → ∀ n o vis,
  o ∈ dom g → vis ⊆ dom g → size (dom g) ≤ n + size vis →
  ∃ l vis', tree L (S n) g o vis = Some (l, vis') ∧ tree_ok g [o] vis l vis' ∧ vis' ⊆ dom g.
Proof.
  intros Hwf. induction n as [|n IH]; intros o vis Ho Hvis Hsz.
  - assert (Hov : o ∈ vis).
    { destruct (decide (o ∈ vis)) as [|Hn]; [done|]. exfalso.
      assert (Hs : size ({[o]} ∪ vis) ≤ size (dom g)) by (apply subseteq_size; set_solver).
      rewrite size_union in Hs by set_solver. rewrite size_singleton in Hs. lia. }
    pose proof Ho as [c Hc]%elem_of_dom. exists [], vis. simpl. rewrite Hc, decide_True by done.
    split; [done|]. split; [by apply tree_ok_seen|done].
  - pose proof Ho as [c Hc]%elem_of_dom.
    change (tree L (S (S n)) g o vis) with
      (match g !! o with None => None | Some c =>
         if decide (o ∈ vis) then Some ([], vis)
         else foldl (λ acc p, '(l, vis) ← acc; '(l', vis') ← tree L (S n) g p vis; Some (l ++ l', vis'))
                 (Some ([o], {[o]} ∪ vis)) (kids c) end).
    rewrite Hc. destruct (decide (o ∈ vis)) as [Hov|Hov].
    { exists [], vis. split; [done|]. split; [by apply tree_ok_seen|done]. }
    set (F := λ (acc : option (list oid * gset oid)) p,
      '(l, vis) ← acc; '(l', vis') ← tree L (S n) g p vis; Some (l ++ l', vis')).
    assert (Hloop : ∀ ks l0 vis0, (∀ p, p ∈ ks → p ∈ dom g) → vis0 ⊆ dom g → {[o]} ∪ vis ⊆ vis0 →
      ∃ l vis', foldl F (Some (l0, vis0)) ks = Some (l0 ++ l, vis') ∧ tree_ok g ks vis0 l vis' ∧ vis' ⊆ dom g).
    { induction ks as [|p ks IHk]; intros l0 vis0 Hks Hd0 Hsub.
      - exists [], vis0. simpl. rewrite app_nil_r. split; [done|]. split; [apply tree_ok_nil|done].
      - destruct (IH p vis0) as (l1 & vis1 & E1 & Hok1 & Hd1); [set_solver|done| |].
        { assert (Hs : size ({[o]} ∪ vis) ≤ size vis0) by by apply subseteq_size.
          rewrite size_union in Hs by set_solver. rewrite size_singleton in Hs. lia. }
        cbn [foldl]. assert (EF : F (Some (l0, vis0)) p = Some (l0 ++ l1, vis1)).
        { unfold F. cbn [mbind option_bind]. rewrite E1. done. }
        rewrite EF.
        destruct (IHk (l0 ++ l1) vis1) as (l2 & vis2 & E2 & Hok2 & Hd2); [set_solver|done| |].
        { rewrite (to_vis _ _ _ _ _ Hok1). set_solver. }
        exists (l1 ++ l2), vis2. rewrite E2, (assoc_L (++)). split; [done|]. split; [|done].
        apply (tree_ok_app g [p] ks vis0 l1 vis1 l2 vis2); done. }
    destruct (Hloop (kids c) [o] ({[o]} ∪ vis)) as (l & vis' & E & Hok & Hd).
    { intros p Hp. rewrite (kids_points g o c) in Hp by done. by eapply points_closed. }
    { set_solver. }
    { done. }
    exists ([o] ++ l), vis'. split; [exact E|]. split; [|done]. split.
    + rewrite (to_vis _ _ _ _ _ Hok). rewrite list_to_set_app_L. set_solver.
    + apply NoDup_app. split_and!; [apply NoDup_singleton| |apply Hok].
      intros x ->%elem_of_list_singleton Hx. by apply (to_new _ _ _ _ _ Hok o Hx), elem_of_union_l, elem_of_singleton.
    + intros x [->%elem_of_list_singleton|Hx]%elem_of_app; [done|].
      pose proof (to_new _ _ _ _ _ Hok x Hx). set_solver.
    + intros x [->%elem_of_list_singleton|Hx]%elem_of_app; exists o; (split; [set_solver|]); [done|].
      destruct (to_reach _ _ _ _ _ Hok x Hx) as (p & Hp & Hr). rewrite (kids_points g o c) in Hp by done.
      by eapply rtc_l.
    + intros x ->%elem_of_list_singleton. rewrite (to_vis _ _ _ _ _ Hok). set_solver.
    + intros x y [->%elem_of_list_singleton|Hx]%elem_of_app Hxy.
      * apply (to_start _ _ _ _ _ Hok). by apply (kids_points g o c).
      * by apply (to_closed _ _ _ _ _ Hok x).
Qed.

Lemma tree_iterator_spec (g : graph) o : well_formed L g → o ∈ dom g →
  ∃ l, tree_iterator L g o = Some l ∧ NoDup l ∧ ∀ x, x ∈ l ↔ rtc (points g) o x.
Proof.
  intros Hwf Ho. destruct (tree_spec g Hwf (size g) o ∅ Ho) as (l & vis & E & Hok & _).
  { set_solver. }
  { rewrite size_dom. lia. }
  exists l. unfold tree_iterator. rewrite E. split; [done|]. split; [apply Hok|].
  assert (Hv : ∀ x, x ∈ vis ↔ x ∈ l).
  { intros x. rewrite (to_vis _ _ _ _ _ Hok). set_solver. }
  intros x. split.
  - intros Hx. destruct (to_reach _ _ _ _ _ Hok x Hx) as (p & ->%elem_of_list_singleton & Hr). done.
  - intros Hr. assert (Hol : o ∈ l) by (apply Hv, Hok; set_solver).
    pose proof (to_closed _ _ _ _ _ Hok) as Hcl. clear Ho E Hok. revert Hol. induction Hr as [|x y z Hxy _ IH]; [done|].
    intros Hx. apply IH. apply Hv. by apply (Hcl x).
Qed.

(* ------------------------------------------------------------------ *)
(** replace *)
Section replace.
Context (g : graph) (old new w : oid).
Context (Hwf : well_formed L g) (Hac : acyclic (holds g)).
Context (Hnew : new ∈ dom g) (Hind : ¬ rtc (holds g) new old) (Hw : w ∉ dom g).

Notation term c k := (k ∈ c_dt L c ∨ k ∈ c_tm L c).
Record mid (c ci : core L) : Prop := {
  mi_cls : c_cls L ci = c_cls L c;
  mi_dt : c_dt L ci = c_dt L c;
  mi_tm : c_tm L ci = c_tm L c;
  mi_attr : ∀ k, c_attr L ci !! k = c_attr L c !! k ∨
    (c_attr L c !! k = Some (ARef old) ∧ term c k ∧ c_attr L ci !! k = Some (ARef new))
}.
Definition between (gi : graph) : Prop := ∀ x, option_Forall2 mid (g !! x) (gi !! x).
Definition done_at (gi : graph) (x : oid) : Prop := gi !! x = subst_core L old new <$> g !! x.

Lemma new_old : new ≠ old.
Proof. intros E. apply Hind. rewrite E. done. Qed.

Lemma between_refl : between g.
Proof. intros x. destruct (g !! x); constructor. split; auto. Qed.
Lemma between_dom gi : between gi → dom gi = dom g.
Proof.
  intros Hb. apply set_eq. intros x. rewrite !elem_of_dom. specialize (Hb x).
  destruct Hb; split; intros [? ?]; eauto; done.
Qed.
Lemma between_Some gi x c : between gi → g !! x = Some c → ∃ ci, gi !! x = Some ci ∧ mid c ci.
Proof. intros Hb Hx. specialize (Hb x). rewrite Hx in Hb. inversion Hb; eauto. Qed.
Lemma core_eq (c c' : core L) : c_cls L c' = c_cls L c → c_dt L c' = c_dt L c → c_tm L c' = c_tm L c →
  (∀ k, c_attr L c' !! k = c_attr L c !! k) → c' = c.
Proof.
  destruct c, c'; simpl. intros -> -> -> Ha. f_equal. by apply map_eq.
Qed.
Lemma subst_attr c k : c_attr L (subst_core L old new c) !! k =
  match c_attr L c !! k with
  | Some (ARef p) => if decide (p = old ∧ term c k) then Some (ARef new) else Some (ARef p)
  | a => a
  end.
Proof.
  simpl. rewrite map_lookup_imap. destruct (c_attr L c !! k) as [[t|p]|]; simpl; try done.
  by destruct (decide _).
Qed.
Lemma mid_same c ci : mid c ci → (∀ k, term c k → c_attr L c !! k ≠ Some (ARef old)) → ci = c.
Proof.
  intros Hm Hn. apply core_eq; try apply Hm. intros k.
  destruct (mi_attr _ _ Hm k) as [|(H1 & H2 & _)]; [done|]. by destruct (Hn k).
Qed.
Lemma subst_same c : (∀ k, term c k → c_attr L c !! k ≠ Some (ARef old)) → subst_core L old new c = c.
Proof.
  intros Hn. apply core_eq; try done. intros k. rewrite subst_attr.
  destruct (c_attr L c !! k) as [[t|p]|] eqn:E; try done.
  destruct (decide (p = old ∧ term c k)) as [[-> Ht]|]; [|done]. by destruct (Hn k).
Qed.
Lemma between_same gi x : between gi → ¬ holds g x old → gi !! x = g !! x ∧ done_at gi x.
Proof.
  intros Hb Hn. unfold done_at. destruct (g !! x) as [c|] eqn:Hx.
  - destruct (between_Some gi x c Hb Hx) as (ci & Hi & Hm).
    assert (Hno : ∀ k, term c k → c_attr L c !! k ≠ Some (ARef old)).
    { intros k Hk E. apply Hn. by exists c, k. }
    rewrite (mid_same c ci Hm Hno) in Hi. simpl. by rewrite subst_same.
  - specialize (Hb x). rewrite Hx in Hb. inversion Hb. done.
Qed.

(** Edges that may appear on the way. *)
Definition way (x y : oid) : Prop := holds g x y ∨ (holds g x old ∧ y = new).
Lemma way_path x y : tc way x y →
  tc (holds g) x y ∨ (tc (holds g) x old ∧ rtc (holds g) new y).
Proof.
  induction 1 as [x y [Hxy|[Hxo ->]]|x y z [Hxy|[Hxo ->]] Hyz IH].
  - left. by apply tc_once.
  - right. split; [by apply tc_once|done].
  - destruct IH as [IH|[IH1 IH2]]; [left; by eapply tc_l|right; split; [by eapply tc_l|done]].
  - right. split; [by apply tc_once|]. destruct IH as [IH|[IH1 _]]; [by apply tc_rtc|].
    destruct Hind. by apply tc_rtc.
Qed.
Lemma way_acyclic : acyclic way.
Proof.
  intros x Hx. destruct (way_path x x Hx) as [H|[H1 H2]]; [by apply (Hac x)|].
  apply Hind. eapply rtc_transitive; [exact H2|]. by apply tc_rtc.
Qed.
Lemma way_closed x y : x ∈ dom g → way x y → y ∈ dom g.
Proof. intros _ [Hxy|[_ ->]]; [by eapply holds_closed|done]. Qed.

Lemma assign_step gi o c ci k : between gi → g !! o = Some c → gi !! o = Some ci → term c k →
  c_attr L ci !! k = Some (ARef old) →
  let gj := gassign L gi (o, k, ARef new, w) in
  between gj ∧ (∀ y, done_at gi y → done_at gj y) ∧ (∀ y, y ≠ o → gj !! y = gi !! y) ∧
  gj !! o = Some (write L k (ARef new) ci) ∧
  assign_ok L gi o k (ARef new) w.
Proof.
  intros Hb Hc Hi Hk Hold gj. unfold gj, gassign. rewrite Hi.
  destruct (between_Some gi o c Hb Hc) as (ci' & Hi' & Hm). rewrite Hi in Hi'. injection Hi' as <-.
  assert (Ecold : c_attr L c !! k = Some (ARef old)).
  { destruct (mi_attr _ _ Hm k) as [E|(_ & _ & E)]; [by rewrite <- E|].
    rewrite E in Hold. injection Hold as E'. by destruct new_old. }
  split_and!.
  - intros x. destruct (decide (x = o)) as [->|].
    + rewrite lookup_insert, Hc. constructor. split; simpl; try apply Hm. intros j.
      destruct (decide (j = k)) as [->|]; [|rewrite lookup_insert_ne by done; by apply Hm].
      right. rewrite lookup_insert. done.
    + rewrite lookup_insert_ne by done. apply Hb.
  - intros y Hy. unfold done_at in *. destruct (decide (y = o)) as [->|]; [|by rewrite lookup_insert_ne].
    exfalso. rewrite Hi, Hc in Hy. simpl in Hy. injection Hy as ->.
    rewrite subst_attr, Ecold in Hold. rewrite decide_True in Hold by done. injection Hold as E.
    by destruct new_old.
  - intros y Hy. by rewrite lookup_insert_ne.
  - by rewrite lookup_insert.
  - exists ci. split_and!; [done| | |by rewrite (between_dom gi Hb)].
    + intros Hbase ->. exfalso. rewrite (mi_cls _ _ Hm) in Hbase.
      by apply (wf_base _ _ Hwf o c "x"%string old Hc Hbase Hk).
    + intros p [= <-]. by rewrite (between_dom gi Hb).
Qed.

(** No reference to [old] comes back. *)
Definition stays (gi gj : graph) : Prop := ∀ y ci cj k, gi !! y = Some ci → gj !! y = Some cj →
  c_attr L ci !! k ≠ Some (ARef old) → c_attr L cj !! k ≠ Some (ARef old).
Lemma stays_refl gi : stays gi gi.
Proof. intros y ci cj k Hi Hj. rewrite Hi in Hj. by injection Hj as ->. Qed.
Lemma stays_trans gi gj gk : between gj → between gk → stays gi gj → stays gj gk → stays gi gk.
Proof.
  intros Hj Hk H1 H2 y ci ck k Hyi Hyk Ho.
  assert (Hgy : is_Some (g !! y)).
  { apply elem_of_dom. rewrite <- (between_dom gk Hk). apply elem_of_dom. eauto. }
  destruct Hgy as [c Hc]. destruct (between_Some gj y c Hj Hc) as (cj & Hyj & _).
  apply (H2 y cj ck k); try done. by apply (H1 y ci cj k).
Qed.

Record replaced (n : nat) (P : oid → Prop) (gi gj : graph) (l : list (oid * name * aval L * oid)) : Prop := {
  rp_between : between gj;
  rp_stays : stays gi gj;
  rp_frame : ∀ y, ¬ (P y ∧ holds g y old) → gj !! y = gi !! y;
  rp_eq : gj = foldl (gassign L) gi l;
  rp_ok : assigns_ok L gi l
}.

Lemma assigns_ok_app (l1 l2 : list (oid * name * aval L * oid)) : ∀ gi, assigns_ok L gi l1 →
  assigns_ok L (foldl (gassign L) gi l1) l2 → assigns_ok L gi (l1 ++ l2).
Proof.
  induction l1 as [|[[[o k] v] o'] l1 IH]; intros gi H1 H2; [done|]. destruct H1 as [H1 H1'].
  split; [done|]. by apply (IH (gassign L gi (o, k, v, o'))).
Qed.
Lemma replaced_app n P gi gj gk l1 l2 : replaced n P gi gj l1 → replaced n P gj gk l2 →
  replaced n P gi gk (l1 ++ l2).
Proof.
  intros H1 H2. split.
  - apply H2.
  - eapply stays_trans; [apply H1|apply H2|apply H1|apply H2].
  - intros y Hy. rewrite (rp_frame _ _ _ _ _ H2 y Hy). by apply H1.
  - rewrite foldl_app, <- (rp_eq _ _ _ _ _ H1). apply H2.
  - apply assigns_ok_app; [apply H1|]. rewrite <- (rp_eq _ _ _ _ _ H1). apply H2.
Qed.
Lemma replaced_weaken n (P Q : oid → Prop) gi gj l : (∀ y, P y → holds g y old → Q y) →
  replaced n P gi gj l → replaced n Q gi gj l.
Proof.
  intros HPQ H. split; try apply H. intros y Hy. apply H. intros [HP Ho]. apply Hy. auto.
Qed.

(** Done: no term refers to [old] any more. *)
Lemma done_iff gi x c ci : between gi → g !! x = Some c → gi !! x = Some ci →
  (∀ k, term c k → c_attr L ci !! k ≠ Some (ARef old)) → done_at gi x.
Proof.
  intros Hb Hc Hi Hn. unfold done_at. rewrite Hc, Hi. simpl. f_equal.
  destruct (between_Some gi x c Hb Hc) as (ci' & Hi' & Hm). rewrite Hi in Hi'. injection Hi' as <-.
  apply core_eq; try apply Hm. intros k. rewrite subst_attr.
  destruct (mi_attr _ _ Hm k) as [E|(E1 & E2 & E3)].
  - rewrite E. destruct (c_attr L c !! k) as [[t|p]|] eqn:Ek; try done.
    destruct (decide (p = old ∧ term c k)) as [[-> Ht]|]; [|done].
    destruct (Hn k Ht). by rewrite E.
  - rewrite E1, E3, decide_True by done. done.
Qed.
Lemma done_stays gi gj x : between gi → between gj → stays gi gj → done_at gi x → done_at gj x.
Proof.
  intros Hbi Hbj Hs Hd. destruct (g !! x) as [c|] eqn:Hc.
  - destruct (between_Some gi x c Hbi Hc) as (ci & Hi & Hmi).
    destruct (between_Some gj x c Hbj Hc) as (cj & Hj & Hmj).
    apply (done_iff gj x c cj); try done. intros k Hk. apply (Hs x ci cj k); try done.
    unfold done_at in Hd. rewrite Hi, Hc in Hd. injection Hd as ->. rewrite subst_attr.
    destruct (c_attr L c !! k) as [[t|p]|] eqn:Ek; try done.
    destruct (decide (p = old ∧ term c k)) as [|Hn]; intros [= E]; [by destruct new_old|].
    subst. by destruct Hn.
  - unfold done_at in *. specialize (Hbj x). rewrite Hc in *. by inversion Hbj.
Qed.

Lemma replace_spec n o : size (dom g) ≤ n → o ∈ dom g → ∀ gi, between gi →
  ∃ gj l, replace L n w o old new gi = Some (gj, l) ∧ replaced n (rtc (holds g) o) gi gj l ∧
    (∀ y, rtc (holds g) o y → done_at gj y).
Proof.
  revert n o. apply (depth_ind (dom g) way (λ n o, ∀ gi, between gi →
    ∃ gj l, replace L n w o old new gi = Some (gj, l) ∧ replaced n (rtc (holds g) o) gi gj l ∧
    (∀ y, rtc (holds g) o y → done_at gj y))); [apply way_acyclic|apply way_closed|].
  intros n o Ho IH gi Hbi. pose proof Ho as [c Hc]%elem_of_dom.
  destruct (between_Some gi o c Hbi Hc) as (ci & Hi & Hm). simpl. rewrite Hi.
  set (F := λ (acc : option (graph * list (oid * name * aval L * oid))) k,
        '(g, l) ← acc;
        match g !! o with
        | None => None
        | Some c =>
          match c_attr L c !! k with
          | Some (ARef p) =>
            if decide (p = old) then
              let s := (o, k, ARef new, w) in Some (gassign L g s, l ++ [s])
            else '(g', l') ← replace L n w p old new g; Some (g', l ++ l')
          | _ => Some (g, l)
          end
        end).
  (* one turn of the loop *)
  assert (Hturn : ∀ k gs l0, term c k → between gs →
    ∃ g1 l1, F (Some (gs, l0)) k = Some (g1, l0 ++ l1) ∧ replaced (S n) (rtc (holds g) o) gs g1 l1 ∧
      (∀ c1, g1 !! o = Some c1 → c_attr L c1 !! k ≠ Some (ARef old)) ∧
      (∀ p y, c_attr L c !! k = Some (ARef p) → p ≠ old → rtc (holds g) p y → done_at g1 y)).
  { intros k gs l0 Hk Hbs. destruct (between_Some gs o c Hbs Hc) as (cs & Hcs & Hms).
    assert (Hnone : replaced (S n) (rtc (holds g) o) gs gs []).
    { split; try done. apply stays_refl. }
    unfold F. cbn [mbind option_bind]. rewrite Hcs.
    destruct (c_attr L cs !! k) as [[t|p]|] eqn:Ek.
    - exists gs, []. rewrite app_nil_r. split_and!; try done.
      + intros c1 Hc1. rewrite Hcs in Hc1. injection Hc1 as <-. by rewrite Ek.
      + intros p y Hp. destruct (mi_attr _ _ Hms k) as [E|(_ & _ & E)]; congruence.
    - destruct (decide (p = old)) as [->|Hpo].
      + destruct (assign_step gs o c cs k Hbs Hc Hcs Hk Ek) as (H1 & H2 & H3 & H4 & H5).
        assert (Ec : c_attr L c !! k = Some (ARef old)).
        { destruct (mi_attr _ _ Hms k) as [E|(_ & _ & E)]; [congruence|].
          rewrite E in Ek. injection Ek as E'. by destruct new_old. }
        exists (gassign L gs (o, k, ARef new, w)), [(o, k, ARef new, w)].
        split_and!; try done.
        * split; try done.
          -- intros y cy cj j Hy Hyj Hn. destruct (decide (y = o)) as [->|Hne].
             ++ rewrite H4 in Hyj. injection Hyj as <-. rewrite Hcs in Hy. injection Hy as <-. simpl.
                destruct (decide (j = k)) as [->|]; [|by rewrite lookup_insert_ne].
                rewrite lookup_insert. intros [= E]. by destruct new_old.
             ++ rewrite (H3 y Hne), Hy in Hyj. by injection Hyj as <-.
          -- intros y Hy. apply H3. intros ->. apply Hy. split; [done|]. by exists c, k.
        * intros c1 Hc1. rewrite H4 in Hc1. injection Hc1 as <-. simpl. rewrite lookup_insert.
          intros [= E]. by destruct new_old.
        * intros p y Hp Hne. congruence.
      + destruct (IH p) with (gi := gs) as (g1 & l1 & E1 & H1 & H3).
        { destruct (mi_attr _ _ Hms k) as [E|(E & _ & E')].
          - left. exists c, k. split_and!; try done. by rewrite <- E.
          - right. split; [by exists c, k|]. congruence. }
        { done. }
        rewrite E1. exists g1, l1. split_and!; try done.
        * assert (H1' : replaced (S n) (rtc (holds g) p) gs g1 l1) by (split; apply H1).
          apply (replaced_weaken (S n) (rtc (holds g) p)); [|exact H1']. intros y Hy Hyo.
          destruct (mi_attr _ _ Hms k) as [E|(E & _ & E')].
          -- eapply rtc_l; [|exact Hy]. exists c, k. split_and!; try done. by rewrite <- E.
          -- assert (Hpn : p = new) by congruence. subst p. destruct Hind.
             eapply rtc_r; [exact Hy|exact Hyo].
        * intros c1 Hc1. apply (rp_stays _ _ _ _ _ H1 o cs c1 k Hcs Hc1). congruence.
        * intros q y Hq Hne Hr. destruct (mi_attr _ _ Hms k) as [E|(E & _ & E')]; [|congruence].
          apply H3. congruence.
    - exists gs, []. rewrite app_nil_r. split_and!; try done.
      + intros c1 Hc1. rewrite Hcs in Hc1. injection Hc1 as <-. by rewrite Ek.
      + intros p y Hp. destruct (mi_attr _ _ Hms k) as [E|(_ & _ & E)]; congruence. }
  (* the loop *)
  assert (Hloop : ∀ ks gs l0, (∀ k, k ∈ ks → term c k) → between gs →
    ∃ gj l, foldl F (Some (gs, l0)) ks = Some (gj, l0 ++ l) ∧ replaced (S n) (rtc (holds g) o) gs gj l ∧
      (∀ k cj, k ∈ ks → gj !! o = Some cj → c_attr L cj !! k ≠ Some (ARef old)) ∧
      (∀ k p y, k ∈ ks → c_attr L c !! k = Some (ARef p) → p ≠ old → rtc (holds g) p y → done_at gj y)).
  { induction ks as [|k ks IHk]; intros gs l0 Hks Hbs.
    - exists gs, []. rewrite app_nil_r. split_and!; [done| | |].
      + split; try done. apply stays_refl.
      + intros k cj Hk. by apply elem_of_nil in Hk.
      + intros k p y Hk. by apply elem_of_nil in Hk.
    - destruct (Hturn k gs l0) as (g1 & l1 & E1 & H1 & H2 & H3); [apply Hks; by left|done|].
      cbn [foldl]. rewrite E1.
      destruct (IHk g1 (l0 ++ l1)) as (gj & l & E & H4 & H5 & H6); [intros; apply Hks; by right|apply H1|].
      exists gj, (l1 ++ l). rewrite E, (assoc_L (++)). split_and!; [done| | |].
      + by apply (replaced_app _ _ gs g1 gj).
      + intros j cj [->|Hj]%elem_of_cons Hcj; [|by apply H5].
        destruct (between_Some g1 o c (rp_between _ _ _ _ _ H1) Hc) as (c1 & Hc1 & _).
        apply (rp_stays _ _ _ _ _ H4 o c1 cj k Hc1 Hcj). by apply H2.
      + intros j p y [->|Hj]%elem_of_cons Hp Hne Hr; [|by eapply H6].
        apply (done_stays g1 gj); [apply H1|apply H4|apply H4|]. by apply (H3 p y). }
  destruct (Hloop (filter (λ k, is_Some (c_attr L ci !! k)) (c_dt L ci ++ c_tm L ci)) gi [])
    as (gj & l & E & H1 & H2 & H3); [|done|].
  { intros k [_ Hk]%elem_of_list_filter. rewrite (mi_dt _ _ Hm), (mi_tm _ _ Hm) in Hk.
    by apply elem_of_app. }
  exists gj, l. split; [exact E|]. split; [split; apply H1|].
  assert (Hks : ∀ k a, term c k → c_attr L c !! k = Some a →
    k ∈ filter (λ k, is_Some (c_attr L ci !! k)) (c_dt L ci ++ c_tm L ci)).
  { intros k a Hk Ha. apply elem_of_list_filter. rewrite (mi_dt _ _ Hm), (mi_tm _ _ Hm). split.
    - destruct (mi_attr _ _ Hm k) as [E'|(_ & _ & E')]; rewrite E'; eauto.
    - by apply elem_of_app. }
  intros y Hy. apply rtc_inv in Hy as [<-|(z & (c' & k & Hc' & Hk & Hz) & Hy)].
  - destruct (between_Some gj o c (rp_between _ _ _ _ _ H1) Hc) as (cj & Hj & Hmj).
    apply (done_iff gj o c cj); [apply H1|done|done|].
    intros k Hk Ek. apply (H2 k cj); try done.
    destruct (mi_attr _ _ Hmj k) as [E'|(_ & _ & E')].
    + eapply (Hks k); [done|]. by rewrite <- E'.
    + rewrite E' in Ek. injection Ek as E2. by destruct new_old.
  - rewrite Hc in Hc'. injection Hc' as <-. destruct (decide (z = old)) as [->|Hne].
    + apply (between_same gj y); [apply H1|]. intros Hyo. apply (Hac old).
      eapply tc_rtc_l; [exact Hy|]. by apply tc_once.
    + apply (H3 k z y); try done. by eapply Hks.
Qed.
End replace.

Definition sets_ops (sets : list (oid * name * aval L * oid)) : list (op L) :=
  (λ s, OSet L s.1.1.1 s.1.1.2 s.1.2 s.2) <$> sets.

Lemma valid_sets_ops sets : ∀ used g, assigns_ok L g sets → valid_from L used (sets_ops sets) g.
Proof.
  induction sets as [|[[[o k] v] o'] sets IH]; intros used g H; [done|]. destruct H as [H1 H2].
  split; [done|]. by apply (IH _ (gassign L g (o, k, v, o'))).
Qed.
Lemma gexec_sets_ops sets : ∀ g, gexec L (sets_ops sets) g = foldl (gassign L) g sets.
Proof.
  induction sets as [|[[[o k] v] o'] sets IH]; intros g; [done|].
  apply (IH (gassign L g (o, k, v, o'))).
Qed.

Lemma hist_replace l o old new w : lib_ok L → valid L l →
  let g := gexec L l ∅ in
  acyclic (holds g) → o ∈ dom g → new ∈ dom g → ¬ rtc (holds g) new old → w ∉ dom g →
  ∃ g' sets, replace L (size g) w o old new g = Some (g', sets) ∧
    valid L (l ++ sets_ops sets) ∧ gexec L (l ++ sets_ops sets) ∅ = g' ∧
    (∀ x, rtc (holds g) o x → g' !! x = subst_core L old new <$> g !! x) ∧
    (∀ x, ¬ rtc (holds g) o x ∨ ¬ rtc (holds g) x old → g' !! x = g !! x).
Proof.
  intros Hlib Hv g Hac Ho Hnew Hind Hw.
  pose proof (valid_well_formed l Hlib Hv) as Hwf. fold g in Hwf.
  destruct (replace_spec g old new w Hwf Hac Hnew Hind Hw (size g) o) with (gi := g) as (g' & sets & E & H1 & H2).
  { by rewrite size_dom. }
  { done. }
  { apply between_refl. }
  exists g', sets. split_and!; [done| | |done|].
  - unfold valid. rewrite valid_app. split; [done|]. apply valid_sets_ops. apply H1.
  - rewrite gexec_app, gexec_sets_ops. symmetry. apply H1.
  - intros x Hx. apply (rp_frame _ _ _ _ _ _ _ _ H1). intros [Hr Hho].
    destruct Hx as [Hx|Hx]; [done|]. apply Hx. by apply rtc_once.
Qed.

Lemma hist_replace_reads l o old new w : lib_ok L → valid L l →
  acyclic (holds (gexec L l ∅)) → o ∈ dom (gexec L l ∅) → new ∈ dom (gexec L l ∅) →
  ¬ rtc (holds (gexec L l ∅)) new old → w ∉ dom (gexec L l ∅) →
  ∃ g' sets, replace L (size (gexec L l ∅)) w o old new (gexec L l ∅) = Some (g', sets) ∧
    let l' := l ++ ((λ s, OSet L s.1.1.1 s.1.1.2 s.1.2 s.2) <$> sets) in
    valid L l' ∧ gexec L l' ∅ = g' ∧
    (∀ x, rtc (holds (gexec L l ∅)) o x → g' !! x = subst_core L old new <$> gexec L l ∅ !! x) ∧
    (∀ x, ¬ rtc (holds (gexec L l ∅)) o x ∨ ¬ rtc (holds (gexec L l ∅)) x old → g' !! x = gexec L l ∅ !! x) ∧
    (∀ x q v, reads L (exec L l' (init L)) x q v ↔ denotes L g' x q v).
Proof.
  intros Hlib Hv Hac Ho Hnew Hind Hw.
  destruct (hist_replace l o old new w Hlib Hv Hac Ho Hnew Hind Hw) as (g' & sets & E & H1 & H2 & H3 & H4).
  exists g', sets. split; [done|].
  assert (El : ((λ s : oid * name * aval L * oid, OSet L s.1.1.1 s.1.1.2 s.1.2 s.2) <$> sets) = sets_ops sets).
  { apply list_fmap_ext. intros ? [[[? ?] ?] ?] ?. done. }
  rewrite El. split_and!; try done.
  intros x q v. rewrite <- H2. by apply hist_reads.
Qed.

Lemma hist_is_dr_wrt l o w : lib_ok L → valid L l →
  (acyclic (points (gexec L l ∅)) → o ∈ dom (gexec L l ∅) →
     ∃ b, is_dr_wrt L (size (gexec L l ∅)) (gexec L l ∅) o w = Some b) ∧
  (∀ n b, is_dr_wrt L n (gexec L l ∅) o w = Some b →
     (b = true ↔ (∃ c, gexec L l ∅ !! o = Some c ∧ is_base L (c_cls L c) = true ∧ o = w) ∨
                 tc (points (gexec L l ∅)) o w)).
Proof.
  intros Hlib Hv. pose proof (valid_well_formed l Hlib Hv) as Hwf. split.
  - intros Hac Ho. apply is_dr_wrt_total; try done. by rewrite size_dom.
  - intros n b. by apply (is_dr_wrt_sound n).
Qed.

Lemma hist_tree l o : lib_ok L → valid L l → o ∈ dom (gexec L l ∅) →
  ∃ xs, tree_iterator L (gexec L l ∅) o = Some xs ∧ NoDup xs ∧
    (∀ x, x ∈ xs ↔ rtc (points (gexec L l ∅)) o x) ∧
    (∀ A (f : oid → A), dfs_do_func L f (gexec L l ∅) o = Some (f <$> xs)).
Proof.
  intros Hlib Hv Ho. pose proof (valid_well_formed l Hlib Hv) as Hwf.
  destruct (tree_iterator_spec _ o Hwf Ho) as (xs & E & H1 & H2). exists xs. split_and!; try done.
  intros A f. unfold dfs_do_func. by rewrite E.
Qed.
End thms.
