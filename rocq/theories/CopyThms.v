(** Rebuilding a pickled graph: what the heap looks like afterwards. *)
From stdpp Require Import gmap strings list relations.
From Verif Require Import EngineModel EngineSpec EngineClear EngineEval EngineSet EngineInv EngineOps
  EngineHist EngineThms GraphSpec GraphThms CopyModel CopySpec.

Section copy.
Context (L : lib).
Notation graph := (gmap oid (core L)).
Notation heap := (gmap oid (node L)).
Notation node := (node L).
Notation cores := (cores L).
Implicit Types (g : graph) (c : core L) (h : heap) (n : node).

Lemma ren_lookup rn c k :
  c_attr L (ren_core L rn c) !! k = ren_val L rn <$> c_attr L c !! k.
Proof. apply lookup_fmap. Qed.
Lemma ren_ref rn c k p' : c_attr L (ren_core L rn c) !! k = Some (ARef p') ↔
  ∃ p, c_attr L c !! k = Some (ARef p) ∧ p' = rn p.
Proof.
  rewrite ren_lookup. destruct (c_attr L c !! k) as [[t|p]|]; simpl; naive_solver.
Qed.
Lemma ren_plain rn c : plain L (ren_core L rn c) = plain L c.
Proof.
  apply map_eq; intros k. apply option_eq; intros t. rewrite !plain_lookup, ren_lookup.
  destruct (c_attr L c !! k) as [[t'|p]|]; simpl; naive_solver.
Qed.
Lemma ren_corresponds rn c : corresponds L rn c (ren_core L rn c).
Proof.
  split; try done.
  - intros k t. rewrite ren_lookup. destruct (c_attr L c !! k) as [[t'|p]|]; simpl; naive_solver.
  - apply ren_ref.
Qed.
Lemma ren_node_ok rn c : node_ok L c → node_ok L (ren_core L rn c).
Proof.
  intros [H1 H2]. split; [done|]. intros Hb k p Hk E. apply ren_ref in E as (q & E & _).
  by apply (H2 Hb k q).
Qed.

Lemma held_refers g x p : refers L g x p ↔ p ∈ held L g x.
Proof.
  unfold refers, held. split.
  - intros (c & k & Hc & Hk). rewrite Hc. apply elem_of_list_omap. exists (k, ARef p).
    split; [|done]. by apply elem_of_map_to_list.
  - destruct (g !! x) as [c|]; [|by intros ?%elem_of_nil]. intros Hp.
    apply elem_of_list_omap in Hp as ([k [t|q]] & Hin & E); [done|]. simpl in E. injection E as ->.
    exists c, k. split; [done|]. by apply elem_of_map_to_list.
Qed.

(** The order in which pickle finishes objects. *)
Record ordered g (o : oid) (s : list oid) : Prop := {
  or_once : NoDup s;
  or_in : ∀ x, x ∈ s → reach L g o x;
  or_first : ∀ x p, x ∈ s → refers L g x p → before s p x
}.
Lemma before_more (s t : list oid) a b : before s a b → before (s ++ t) a b.
Proof.
  intros (i & j & Hi & Hj & Hij). exists i, j. split_and!; try done; by apply lookup_app_l_Some.
Qed.

Lemma walk_ordered g o rank :
  (∀ x p, reach L g o x → refers L g x p → rank p < rank x) →
  ∀ m x s, rank x < m → reach L g o x → ordered g o s →
  ordered g o (walk_order L m g x s) ∧ x ∈ walk_order L m g x s ∧
  (∃ t, walk_order L m g x s = s ++ t) ∧ (∀ y, y ∈ walk_order L m g x s → y ∈ s ∨ rank y ≤ rank x).
Proof.
  intros Hrank m. induction m as [|m IH]; intros x s Hm Hx Hs; [lia|]. simpl.
  destruct (decide (x ∈ s)) as [Hin|Hnin].
  { split; [done|]. split; [done|]. split; [exists []; by rewrite app_nil_r|by left]. }
  assert (Hloop : ∀ ps s0, (∀ p, p ∈ ps → refers L g x p) → ordered g o s0 →
    ordered g o (foldl (λ s p, walk_order L m g p s) s0 ps) ∧
    (∀ p, p ∈ ps → p ∈ foldl (λ s p, walk_order L m g p s) s0 ps) ∧
    (∃ t, foldl (λ s p, walk_order L m g p s) s0 ps = s0 ++ t) ∧
    (∀ y, y ∈ foldl (λ s p, walk_order L m g p s) s0 ps → y ∈ s0 ∨ rank y < rank x)).
  { induction ps as [|p ps IHps]; intros s0 Hps Hs0; simpl.
    { split; [done|]. split; [by intros p ?%elem_of_nil|]. split; [exists []; by rewrite app_nil_r|by left]. }
    assert (Hp : refers L g x p) by (apply Hps; by left).
    pose proof (Hrank x p Hx Hp) as Hlt.
    destruct (IH p s0) as (H1 & H2 & (t1 & H3) & H3'); [lia|by eapply rtc_r|done|].
    destruct (IHps (walk_order L m g p s0)) as (H4 & H5 & (t2 & H6) & H7); [|done|].
    { intros q Hq. apply Hps. by right. }
    split; [done|]. split; [|split].
    - intros q [->|Hq]%elem_of_cons; [|by apply H5]. rewrite H6. apply elem_of_app. by left.
    - exists (t1 ++ t2). by rewrite H6, H3, app_assoc.
    - intros y Hy. destruct (H7 y Hy) as [Hy'|?]; [|by right]. destruct (H3' y Hy'); [by left|right; lia]. }
  destruct (Hloop (held L g x) s) as ([H1 H2 H3] & H4 & (t & H5) & H6).
  { intros p. apply held_refers. } { done. }
  set (s' := foldl _ s (held L g x)) in *.
  assert (Hx' : x ∉ s') by (intros Hx'; destruct (H6 x Hx'); [done|lia]).
  split; [split|split; [|split]].
  - apply NoDup_app. split; [done|]. split; [|apply NoDup_singleton].
    intros y Hy ->%elem_of_list_singleton. done.
  - intros y [Hy| ->%elem_of_list_singleton]%elem_of_app; [by apply H2|done].
  - intros y p [Hy| ->%elem_of_list_singleton]%elem_of_app Hr.
    + by apply before_more, H3.
    + assert (Hp : p ∈ s') by (by apply H4, held_refers). apply elem_of_list_lookup in Hp as [i Hi].
      exists i, (length s'). pose proof (lookup_lt_Some _ _ _ Hi). split_and!; [|by apply list_lookup_middle|done].
      by apply lookup_app_l_Some.
  - apply elem_of_app. right. by left.
  - exists (t ++ [x]). by rewrite H5, app_assoc.
  - intros y [Hy| ->%elem_of_list_singleton]%elem_of_app; [|by right].
    destruct (H6 y Hy); [by left|right; lia].
Qed.

Lemma walk_pickle g o rank :
  (∀ x p, reach L g o x → refers L g x p → rank p < rank x) →
  pickle_order L g o (walk_order L (S (rank o)) g o []).
Proof.
  intros Hrank. destruct (walk_ordered g o rank Hrank (S (rank o)) o []) as ([H1 H2 H3] & H4 & _); [lia|constructor| |].
  { split; [constructor|by intros x ?%elem_of_nil|by intros x p ?%elem_of_nil]. }
  split; try done. intros x. split; [apply H2|]. intros Hr.
  assert (Hgen : ∀ a b, rtc (refers L g) a b → a ∈ walk_order L (S (rank o)) g o [] → b ∈ walk_order L (S (rank o)) g o []).
  { intros a b Hab. induction Hab as [|a b c Hab _ IH]; [done|]. intros Ha. apply IH.
    destruct (H3 a b Ha Hab) as (i & j & Hi & _). by eapply elem_of_list_lookup_2. }
  by apply (Hgen o x).
Qed.

Lemma order_exists g : ∃ ord, ∀ out, set_order L g ord out.
Proof.
  exists (λ x, match g !! x with
               | Some c => remove_dups (filter (λ k, is_Some (c_attr L c !! k)) (c_dt L c))
               | None => [] end).
  intros out x c _ Hc. rewrite Hc. split; [apply NoDup_remove_dups|].
  intros k. rewrite elem_of_remove_dups, elem_of_list_filter. tauto.
Qed.

Section load.
Context (h0 : heap) (o : oid) (out : list oid) (rn : oid → oid) (ord : oid → list name).
Context (Hs : sinv L h0).
Context (Hpo : pickle_order L (cores h0) o out).
Context (Hso : set_order L (cores h0) ord out).
Context (Hni : new_ids L (cores h0) rn out).
Notation g0 := (cores h0).

Lemma edge_refers g x d p : edge L g x d p → refers L g x p.
Proof. intros (c & Hc & _ & _ & Ha). by exists c, d. Qed.

(** How the copy of an object looks while links from the names in [E] have been made. *)
Record like (E : oid → name → Prop) (x : oid) n n' : Prop := {
  lk_core : n_core L n' = ren_core L rn (n_core L n);
  lk_r : n_r L n' = None;
  lk_dr : n_dr L n' = ∅;
  lk_par : ∀ p d, in_par (n_par L n') p d ↔ ∃ q, E q d ∧ p = rn q ∧ edge L g0 q d x;
  lk_ne : par_ne (n_par L n');
  lk_itr : n_itr L n' = None ∨ n_itr L n' = n_itr L n;
  lk_pc : ∀ k v, n_pc L n' !! k = Some v → n_pc L n !! k = Some v
}.

Record linv (E : oid → name → Prop) (D : list oid) h : Prop := {
  li_old : ∀ y, y ∉ rn <$> D → h !! y = h0 !! y;
  li_new : ∀ x n, x ∈ D → h0 !! x = Some n → ∃ n', h !! rn x = Some n' ∧ like E x n n'
}.

Lemma like_ext (E E' : oid → name → Prop) x n n' :
  (∀ q d y, edge L g0 q d y → (E q d ↔ E' q d)) → like E x n n' → like E' x n n'.
Proof.
  intros HE [H1 H2 H3 H4 H5 H6 H7]. split; try done. intros p d. rewrite H4.
  split; intros (q & Hq & -> & He); exists q; (split; [|done]); by eapply (HE q d x He).
Qed.
Lemma linv_ext (E E' : oid → name → Prop) D h :
  (∀ q d y, edge L g0 q d y → (E q d ↔ E' q d)) → linv E D h → linv E' D h.
Proof.
  intros HE [H1 H2]. split; [done|]. intros x n Hx Hn. destruct (H2 x n Hx Hn) as (n' & ? & ?).
  exists n'. split; [done|]. by eapply like_ext.
Qed.

Lemma copy_fresh x : x ∈ out → h0 !! rn x = None.
Proof.
  intros Hx. destruct Hni as [H _]. specialize (H x Hx). apply not_elem_of_dom in H.
  rewrite cores_lookup in H. by destruct (h0 !! rn x).
Qed.
Lemma copy_inj x y : x ∈ out → y ∈ out → rn x = rn y → x = y.
Proof. destruct Hni as [_ H]. auto. Qed.

Lemma linv_ne E D h : (∀ y, y ∈ D → y ∈ out) → (∀ x, x ∈ D → is_Some (h0 !! x)) →
  linv E D h → ∀ y n, h !! y = Some n → par_ne (n_par L n).
Proof.
  intros HD HD0 [H1 H2] y n Hy.
  destruct (decide (y ∈ rn <$> D)) as [Hd|Hd].
  - apply elem_of_list_fmap in Hd as (x & -> & Hx). destruct (HD0 x Hx) as [n0 Hn0].
    destruct (H2 x n0 Hx Hn0) as (n' & E' & Hl). simplify_eq. apply Hl.
  - rewrite H1 in Hy by done. by apply (si_ne _ _ Hs y n).
Qed.

Lemma node_eta n : Node L (n_core L n) (n_par L n) (n_r L n) (n_dr L n) (n_dirty L n) (n_itr L n) (n_pc L n) = n.
Proof. by destruct n. Qed.

(** One setattr of __setstate__. *)
Section one.
Context (D : list oid) (x : oid) (n : node) (E : oid → name → Prop) (h : heap) (k : name) (v : aval L).
Context (HD : ∀ y, y ∈ D → y ∈ out) (HD0 : ∀ y, y ∈ D → is_Some (h0 !! y)) (HxD : x ∈ D) (Hn : h0 !! x = Some n).
Context (HE : ∀ q d, E q d → q ∈ D).
Context (Htop : ∀ q, q ∈ D → ¬ refers L g0 q x).
Context (Hrefs : ∀ p, refers L g0 x p → p ∈ D).
Context (Hk : k ∈ c_dt L (n_core L n)) (Hv : c_attr L (n_core L n) !! k = Some v).
Context (Hli : linv E D h).

Lemma relink_fails : remove_fails L h (rn x) k = true ↔
  ∃ k1 p, edge L g0 x k p ∧ edge L g0 x k1 p ∧ E x k1 ∧ ¬ E x k.
Proof.
  destruct Hli as [H1 H2]. destruct (H2 x n HxD Hn) as (n' & Hn' & Hl).
  pose proof (lk_core _ _ _ _ Hl) as Hc.
  assert (Hg : g0 !! x = Some (n_core L n)) by (by apply cores_Some).
  unfold remove_fails. rewrite Hn', Hc. simpl.
  destruct (is_base L (c_cls L (n_core L n))) eqn:Eb.
  { split; [done|]. intros (k1 & p & (c & Hc1 & Hb & _) & _). simplify_eq. congruence. }
  rewrite decide_True by done. rewrite lookup_fmap, Hv. simpl.
  destruct v as [t|p]; simpl.
  { split; [done|]. intros (k1 & p & (c & Hc1 & _ & _ & Ha) & _). simplify_eq. }
  assert (Hedge : edge L g0 x k p) by (exists (n_core L n); done).
  assert (Hp : p ∈ D) by (apply Hrefs; by eapply edge_refers).
  destruct (HD0 p Hp) as [np Hnp]. destruct (H2 p np Hp Hnp) as (np' & Hnp' & Hlp).
  rewrite Hnp'. split.
  - destruct (n_par L np' !! rn x) as [ks|] eqn:Ek; [|done]. rewrite bool_decide_eq_true. intros Hnk.
    assert (Hks : ks ≠ ∅) by (by apply (lk_ne _ _ _ _ Hlp (rn x))).
    apply set_choose_L in Hks as [k1 Hk1].
    assert (Hin : in_par (n_par L np') (rn x) k1) by (by exists ks).
    apply (lk_par _ _ _ _ Hlp) in Hin as (q & Hq & Hqx & He1).
    assert (q = x) as -> by (symmetry; apply copy_inj; eauto).
    exists k1, p. split_and!; try done. intros HEk. apply Hnk.
    assert (Hin : in_par (n_par L np') (rn x) k).
    { apply (lk_par _ _ _ _ Hlp). by exists x. }
    destruct Hin as (ks' & Hks' & ?). by simplify_eq.
  - intros (k1 & p' & He & He1 & HE1 & HnE).
    assert (p' = p) as ->.
    { destruct He as (c & Hc' & _ & _ & Ha). simplify_eq. congruence. }
    assert (Hin : in_par (n_par L np') (rn x) k1).
    { apply (lk_par _ _ _ _ Hlp). by exists x. }
    destruct Hin as (ks & Hks & Hk1). rewrite Hks. apply bool_decide_eq_true. intros Hkk.
    assert (Hin : in_par (n_par L np') (rn x) k) by (by exists ks).
    apply (lk_par _ _ _ _ Hlp) in Hin as (q & Hq & Hqx & _).
    assert (q = x) as -> by (symmetry; apply copy_inj; eauto). done.
Qed.

Lemma relink_one :
  linv (λ q d, E q d ∨ (q = x ∧ d = k)) D (set_attr L None h (rn x) k (ren_val L rn v)).
Proof.
  pose proof (linv_ne E D h HD HD0 Hli) as Hne.
  destruct Hli as [H1 H2]. destruct (H2 x n HxD Hn) as (n' & Hn' & Hl).
  pose proof (lk_core _ _ _ _ Hl) as Hc.
  assert (Hg : g0 !! x = Some (n_core L n)) by (by apply cores_Some).
  assert (Hok : node_ok L (n_core L n')).
  { rewrite Hc. apply ren_node_ok. by apply (si_ok _ _ Hs x). }
  destruct (set_attr_assigned L None h (rn x) k (ren_val L rn v) n' Hn' Hok) as (C & T & Has);
    [rewrite Hc; by left|done|].
  set (h' := set_attr L None h (rn x) k (ren_val L rn v)) in *.
  (* the copy being restored has no parents *)
  assert (Hnox : ∀ p d, ¬ in_par (n_par L n') p d).
  { intros p d Hin. apply (lk_par _ _ _ _ Hl) in Hin as (q & Hq & _ & He).
    apply (Htop q); [by eapply HE|by eapply edge_refers]. }
  assert (Hself : ¬ refers L g0 x x) by (by apply Htop).
  assert (Hvx : ren_val L rn v ≠ ARef (rn x)).
  { destruct v as [t|p]; simpl; [done|]. intros [= Hp]. apply Hself.
    assert (refers L g0 x p) as Hr by (by exists (n_core L n), k).
    assert (p = x) as -> by (apply copy_inj; eauto). done. }
  assert (Hupdx : upd_par L (n_core L n') (rn x) k (ren_val L rn v) (rn x) (n_par L n') = n_par L n').
  { unfold upd_par. rewrite Hc, ren_lookup, Hv. change (ren_val L rn <$> Some v) with (Some (ren_val L rn v)).
      destruct (is_base _ _); [done|].
    rewrite decide_True by done.
    assert (Er : is_ref L (rn x) (Some (ren_val L rn v)) = false).
    { destruct (is_ref L (rn x) (Some (ren_val L rn v))) eqn:Er; [|done].
      apply is_ref_spec in Er. congruence. }
    by rewrite !Er. }
  assert (HC : ∀ y, y ∈ C → y = rn x).
  { intros y Hy. destruct (as_in _ _ _ _ _ _ _ _ _ _ Has y Hy) as (_ & _ & Hr).
    inversion Hr as [|? z ? (na & d & Hna & Hin) _]; [done|]. subst. simplify_eq.
    rewrite Hupdx in Hin. by destruct (Hnox z d). }
  assert (HT : ∀ y d, d ∈ T y ↔ y = rn x ∧ d = k).
  { intros y d. rewrite (as_names _ _ _ _ _ _ _ _ _ _ Has). split; [|by left].
    intros [?|(a & na & Ha & Hna & Hin)]; [done|]. apply HC in Ha as ->. simplify_eq.
    rewrite Hupdx in Hin. by destruct (Hnox y d). }
  assert (Hpc : ∀ m (T' : gset name), T' = ∅ →
     filter (λ pv, deps_of L (n_core L m) pv.1 ∩ T' = ∅) (n_pc L m) = n_pc L m).
  { intros m T' ->. apply map_filter_id. intros; simpl; set_solver. }
  split.
  - intros y Hy. assert (Hyx : y ≠ rn x).
    { intros ->. apply Hy. apply elem_of_list_fmap. by exists x. }
    rewrite <- H1 by done. destruct (h !! y) as [m|] eqn:Em.
    2:{ by apply (as_none _ _ _ _ _ _ _ _ _ _ Has). }
    destruct (as_some _ _ _ _ _ _ _ _ _ _ Has y m Em) as (m' & Hm' & Hna). rewrite Hm'. f_equal.
    destruct Hna as [A1 A2 A3 A4 A5 A6 A7].
    rewrite decide_False in A1 by done.
    assert (HyC : y ∉ C) by (intros Hy'; by apply HC in Hy').
    rewrite (decide_False (P := y ∈ C)) in A3 by done.
    rewrite (decide_False (P := y ∈ C)) in A4 by done.
    rewrite (decide_False (P := y ∈ C)) in A5 by done.
    assert (HTy : T y = ∅) by (apply set_eq; intros d; rewrite HT; set_solver).
    rewrite HTy in A6. rewrite (Hpc m (T y) HTy) in A7.
    assert (Hup : upd_par L (n_core L n') (rn x) k (ren_val L rn v) y (n_par L m) = n_par L m).
    { unfold upd_par. rewrite Hc, ren_lookup, Hv. change (ren_val L rn <$> Some v) with (Some (ren_val L rn v)).
      destruct (is_base _ _); [done|].
      rewrite decide_True by done.
      assert (Er : is_ref L y (Some (ren_val L rn v)) = false).
      { destruct (is_ref L y (Some (ren_val L rn v))) eqn:Er; [|done].
        apply is_ref_spec in Er. exfalso. destruct v as [t|p]; simpl in Er; [done|].
        injection Er as <-. apply Hy. apply elem_of_list_fmap. exists p. split; [done|].
        apply Hrefs. by exists (n_core L n), k. }
      by rewrite !Er. }
    rewrite Hup in A2. rewrite <- (node_eta m'), <- (node_eta m).
    f_equal; try done. rewrite A6. set_solver.
  - intros y m Hy Hm. destruct (H2 y m Hy Hm) as (m' & Hm' & Hlm).
    destruct (as_some _ _ _ _ _ _ _ _ _ _ Has (rn y) m' Hm') as (m2 & Hm2 & Hna).
    exists m2. split; [done|]. destruct Hna as [A1 A2 A3 A4 A5 A6 A7]. split.
    + rewrite A1. destruct (decide (rn y = rn x)) as [Exy|Exy]; [|apply Hlm].
      assert (y = x) as -> by (apply copy_inj; eauto).
      rewrite Hn in Hm. injection Hm as <-. rewrite Hn' in Hm'. injection Hm' as <-. rewrite Hc. unfold write, ren_core; simpl. f_equal.
      apply insert_id. by rewrite lookup_fmap, Hv.
    + rewrite A3. destruct (decide (rn y ∈ C)); [done|apply Hlm].
    + rewrite A4. destruct (decide (rn y ∈ C)); [done|apply Hlm].
    + intros p d. rewrite A2. unfold upd_par. rewrite Hc, ren_lookup, Hv.
      change (ren_val L rn <$> Some v) with (Some (ren_val L rn v)).
      change (c_cls L (ren_core L rn (n_core L n))) with (c_cls L (n_core L n)).
      destruct (is_base L (c_cls L (n_core L n))) eqn:Eb.
      { rewrite (lk_par _ _ _ _ Hlm). split; intros (q & Hq & -> & He); exists q; split_and!; try done; [by left|].
        destruct Hq as [?|[-> ->]]; [done|]. exfalso. destruct He as (c & Hc' & Hb & _).
        simplify_eq. congruence. }
      rewrite decide_True by done.
      destruct (is_ref L (rn y) (Some (ren_val L rn v))) eqn:Er.
      * apply is_ref_spec in Er. destruct v as [t|p0]; simpl in Er; [done|].
        injection Er as Ep. assert (Hr : refers L g0 x p0) by (by exists (n_core L n), k).
        assert (p0 = y) as -> by (apply copy_inj; eauto).
        assert (He : edge L g0 x k y) by (by exists (n_core L n)).
        rewrite in_par_link, in_par_unlink, (lk_par _ _ _ _ Hlm). split.
        -- intros [[(q & Hq & -> & He') _]|[-> ->]]; [exists q|exists x]; split_and!; auto.
        -- intros (q & Hq & -> & He').
           destruct (decide (rn q = rn x ∧ d = k)) as [Hd|Hd]; [by right|]. left. split; [|done].
           exists q. split_and!; try done. destruct Hq as [?|[-> ->]]; [done|]. by destruct Hd.
      * assert (Hne' : ¬ edge L g0 x k y).
        { intros (c & Hc' & _ & _ & Ha). simplify_eq. simpl in Er.
          rewrite bool_decide_true in Er by done. done. }
        rewrite (lk_par _ _ _ _ Hlm). split; intros (q & Hq & -> & He); exists q; split_and!; try done; [by left|].
        destruct Hq as [?|[-> ->]]; done.
    + rewrite A2. apply par_ne_upd. apply Hlm.
    + rewrite A5. destruct (decide (rn y ∈ C)); [by left|apply Hlm].
    + intros d w Hd. rewrite A7 in Hd. apply map_filter_lookup_Some in Hd as [Hd _].
      by apply (lk_pc _ _ _ _ Hlm).
Qed.
End one.

(** All of __setstate__. *)
Definition free_on (x : oid) (l : list name) : Prop :=
  ∀ k1 k2 p, k1 ∈ l → k2 ∈ l → edge L g0 x k1 p → edge L g0 x k2 p → k1 = k2.

Lemma relink_all dn x n :
  (∀ y, y ∈ x :: dn → y ∈ out) → (∀ y, y ∈ x :: dn → is_Some (h0 !! y)) → h0 !! x = Some n → x ∉ dn →
  (∀ q, q ∈ x :: dn → ¬ refers L g0 q x) → (∀ p, refers L g0 x p → p ∈ x :: dn) →
  ∀ ks pre h, (∀ k, k ∈ ks → k ∈ c_dt L (n_core L n) ∧ is_Some (c_attr L (n_core L n) !! k)) →
  NoDup (pre ++ ks) → free_on x pre →
  linv (λ q d, q ∈ dn ∨ (q = x ∧ d ∈ pre)) (x :: dn) h →
  match relink L h (rn x) (ren_core L rn (n_core L n)) ks with
  | Some h' => linv (λ q d, q ∈ dn ∨ (q = x ∧ d ∈ pre ++ ks)) (x :: dn) h' ∧ free_on x (pre ++ ks)
  | None => ¬ free_on x (pre ++ ks)
  end.
Proof.
  intros HD HD0 Hn Hx Htop Hrefs ks. induction ks as [|k ks IH]; intros pre h Hks Hnd Hfree Hli; simpl.
  { rewrite app_nil_r. done. }
  destruct (Hks k) as [Hk [v Hv]]; [by left|].
  rewrite lookup_fmap, Hv. simpl.
  assert (Hkpre : k ∉ pre).
  { intros Hk'. apply NoDup_app in Hnd as (_ & Hdj & _). apply (Hdj k); [done|by left]. }
  assert (HxD : x ∈ x :: dn) by (by left).
  assert (HE : ∀ q d, q ∈ dn ∨ (q = x ∧ d ∈ pre) → q ∈ x :: dn).
  { intros q d [?|[-> _]]; [by right|by left]. }
  pose proof (relink_fails (x :: dn) x n _ h k v HD HD0 HxD Hn HE Hrefs Hk Hv Hli) as Hfail.
  destruct (remove_fails L h (rn x) k).
  - destruct Hfail as [Hf _]. destruct (Hf eq_refl) as (k1 & p & He & He1 & HE1 & _).
    intros Hfr. destruct HE1 as [?|[_ Hk1]]; [done|].
    assert (k1 = k) as ->; [|done].
    apply (Hfr k1 k p); try done; apply elem_of_app; [by left|right; by left].
  - replace (pre ++ k :: ks) with ((pre ++ [k]) ++ ks) in * by (by rewrite <- app_assoc).
    apply IH; try done.
    + intros k' Hk'. apply Hks. by right.
    + assert (Hnew : ∀ k1 p, k1 ∈ pre → edge L g0 x k1 p → edge L g0 x k p → False).
      { intros k1 p Hk1 He1 He. destruct Hfail as [_ Hf].
        assert (false = true); [|done]. apply Hf. exists k1, p. split_and!; try done; [by right|].
        intros [?|[_ ?]]; done. }
      intros k1 k2 p [H1|H1]%elem_of_app [H2|H2]%elem_of_app He1 He2.
      * by apply (Hfree k1 k2 p).
      * apply elem_of_list_singleton in H2 as ->. by destruct (Hnew k1 p).
      * apply elem_of_list_singleton in H1 as ->. by destruct (Hnew k2 p).
      * apply elem_of_list_singleton in H1 as ->. by apply elem_of_list_singleton in H2 as ->.
    + pose proof (relink_one (x :: dn) x n _ h k v HD HD0 HxD Hn HE Htop Hrefs Hk Hv Hli) as Hl.
      eapply linv_ext; [|exact Hl]. intros q d y _. rewrite elem_of_app, elem_of_list_singleton. tauto.
Qed.

Lemma before_app (dn : list oid) x rest p : NoDup (dn ++ x :: rest) → before (dn ++ x :: rest) p x → p ∈ dn.
Proof.
  intros Hnd (i & j & Hi & Hj & Hij).
  assert (j = length dn) as ->.
  { eapply (NoDup_lookup (dn ++ x :: rest)); [done|done|]. rewrite lookup_app_r by done.
    by rewrite Nat.sub_diag. }
  rewrite lookup_app_l in Hi by done. by eapply elem_of_list_lookup_2.
Qed.
Lemma not_before (dn : list oid) x rest q : NoDup (dn ++ x :: rest) → q ∈ x :: dn → ¬ before (dn ++ x :: rest) x q.
Proof.
  intros Hnd Hq (i & j & Hi & Hj & Hij).
  assert (i = length dn) as ->.
  { eapply (NoDup_lookup (dn ++ x :: rest)); [done|done|]. rewrite lookup_app_r by done.
    by rewrite Nat.sub_diag. }
  apply elem_of_cons in Hq as [->|Hq].
  - assert (length dn = j); [|lia]. by eapply (NoDup_lookup (dn ++ x :: rest)).
  - apply elem_of_list_lookup in Hq as [m Hm]. pose proof (lookup_lt_Some _ _ _ Hm).
    assert (m = j); [|lia]. eapply (NoDup_lookup (dn ++ x :: rest)); [done| |done].
    by rewrite lookup_app_l.
Qed.

Lemma out_in x : refs_closed L g0 → o ∈ dom g0 → x ∈ out → is_Some (h0 !! x).
Proof.
  intros Hcl Ho Hx. apply (po_all _ _ _ _ Hpo) in Hx. unfold reach in Hx.
  assert (x ∈ dom g0) as Hd.
  { clear Hpo. induction Hx as [|a b c (ca & k & Hca & Hk) _ IH]; [done|]. apply IH. by apply (Hcl a ca k). }
  apply elem_of_dom in Hd as [c Hc]. apply cores_Some_inv in Hc as (n & ? & _). eauto.
Qed.

Lemma loads_all : refs_closed L g0 → o ∈ dom g0 →
  ∀ rest dn h, dn ++ rest = out → (∀ x k1 k2 p, x ∈ dn → edge L g0 x k1 p → edge L g0 x k2 p → k1 = k2) →
  linv (λ q d, q ∈ dn) dn h →
  match loads L rn ord h0 h rest with
  | Some h' => linv (λ q d, q ∈ out) out h' ∧ no_double L g0 out
  | None => ¬ no_double L g0 out
  end.
Proof.
  intros Hcl Ho rest. induction rest as [|x rest IH]; intros dn h Hout Hfr Hli; simpl.
  { rewrite app_nil_r in Hout. subst dn. done. }
  assert (Hxo : x ∈ out) by (rewrite <- Hout; apply elem_of_app; right; by left).
  destruct (out_in x Hcl Ho Hxo) as [n Hn]. rewrite Hn.
  assert (Hnd : NoDup (dn ++ x :: rest)) by (rewrite Hout; apply Hpo).
  assert (HD : ∀ y, y ∈ x :: dn → y ∈ out).
  { intros y. rewrite <- Hout, elem_of_cons, elem_of_app, elem_of_cons. tauto. }
  assert (HD0 : ∀ y, y ∈ x :: dn → is_Some (h0 !! y)) by (intros; apply out_in; auto).
  assert (Hx : x ∉ dn). { apply NoDup_app in Hnd as (_ & Hdj & _). intros Hx. apply (Hdj x Hx). by left. }
  assert (Htop : ∀ q, q ∈ x :: dn → ¬ refers L g0 q x).
  { intros q Hq Hr. apply (not_before dn x rest q Hnd Hq). rewrite Hout. apply Hpo; auto. }
  assert (Hrefs : ∀ p, refers L g0 x p → p ∈ x :: dn).
  { intros p Hr. right. apply (before_app dn x rest p Hnd). rewrite Hout. by apply Hpo. }
  assert (Hg : g0 !! x = Some (n_core L n)) by (by apply cores_Some).
  destruct (Hso x _ Hxo Hg) as [Hord Hall].
  pose proof (relink_all dn x n HD HD0 Hn Hx Htop Hrefs (ord x) [] (<[rn x := restored L rn n]> h)) as Hrel.
  simpl in Hrel.
  assert (Hpre : linv (λ q d, q ∈ dn ∨ (q = x ∧ d ∈ [])) (x :: dn) (<[rn x := restored L rn n]> h)).
  { destruct Hli as [H1 H2]. split.
    - intros y Hy. rewrite fmap_cons, not_elem_of_cons in Hy. destruct Hy as [Hy1 Hy2].
      rewrite lookup_insert_ne by done. by apply H1.
    - intros y m Hy Hm. apply elem_of_cons in Hy as [->|Hy].
      + rewrite lookup_insert. eexists. split; [done|]. simplify_eq. split; simpl; try done; [|by right].
        intros p d. split; [intros (ks & Hks & _); by rewrite lookup_empty in Hks|].
        intros (q & [Hq|[_ Hq]] & _ & He); [|by apply elem_of_nil in Hq].
        exfalso. apply (Htop q); [by right|by eapply edge_refers].
      + destruct (H2 y m Hy Hm) as (m' & Hm' & Hl).
        rewrite lookup_insert_ne.
        2:{ intros E. apply Hx. assert (x = y) as ->; [|done].
            apply copy_inj; try done. apply HD. by right. }
        exists m'. split; [done|]. eapply like_ext; [|exact Hl].
        intros q d y' _. rewrite elem_of_nil. tauto. }
  specialize (Hrel ltac:(intros k; by apply Hall) Hord ltac:(intros k1 k2 p Hk1; by apply elem_of_nil in Hk1) Hpre).
  assert (Hfree_iff : free_on x (ord x) ↔ ∀ k1 k2 p, edge L g0 x k1 p → edge L g0 x k2 p → k1 = k2).
  { assert (Hed : ∀ k p, edge L g0 x k p → k ∈ ord x).
    { intros k p (c & Hc & _ & Hk & Ha). simplify_eq. apply Hall. eauto. }
    split; intros Hf k1 k2 p; [intros He1 He2; apply (Hf k1 k2 p); eauto|intros _ _; apply Hf]. }
  destruct (relink L _ _ _ _) as [h'|].
  - destruct Hrel as [Hl Hf]. apply (IH (dn ++ [x]) h').
    + by rewrite <- app_assoc.
    + intros y k1 k2 p [Hy|Hy]%elem_of_app; [by apply Hfr|].
      apply elem_of_list_singleton in Hy as ->. exact (proj1 Hfree_iff Hf k1 k2 p).
    + destruct Hl as [H1 H2]. apply (linv_ext (λ q d, q ∈ dn ∨ q = x ∧ d ∈ ord x)).
      { intros q d y (c & Hc & _ & Hd & Ha). rewrite elem_of_app, elem_of_list_singleton.
        split; [tauto|]. intros [?| ->]; [by left|right; split; [done|]].
        simplify_eq. apply Hall. eauto. }
      split.
      * intros y Hy. apply H1. intros Hy'. apply Hy. rewrite fmap_app. simpl.
        rewrite fmap_cons, elem_of_cons in Hy'. rewrite elem_of_app, elem_of_list_singleton. tauto.
      * intros y m Hy. apply H2. rewrite elem_of_app, elem_of_list_singleton in Hy.
        rewrite elem_of_cons. tauto.
  - intros Hnd'. apply Hrel. apply Hfree_iff. intros k1 k2 p. by apply (Hnd' x).
Qed.

Lemma copies_all : refs_closed L g0 → o ∈ dom g0 →
  match copies L rn ord out h0 with
  | Some h' => linv (λ q d, q ∈ out) out h' ∧ no_double L g0 out
  | None => ¬ no_double L g0 out
  end.
Proof.
  intros Hcl Ho. apply (loads_all Hcl Ho out []); [done| |].
  - intros x k1 k2 p Hx. by apply elem_of_nil in Hx.
  - split; [done|]. intros x n Hx. by apply elem_of_nil in Hx.
Qed.

End load.
End copy.
