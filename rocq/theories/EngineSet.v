(** Pointwise description of one attribute assignment. *)
From stdpp Require Import gmap strings list relations.
From Verif Require Import EngineModel EngineSpec EngineClear EngineEval.

Section setattr.
Context (L : lib).
Notation graph := (gmap oid (core L)).
Notation heap := (gmap oid (node L)).
Notation node := (node L).
Implicit Types (g : graph) (c : core L) (h : heap) (n : node).

Definition in_par (m : gmap oid (gset name)) (o : oid) (k : name) : Prop :=
  ∃ ks, m !! o = Some ks ∧ k ∈ ks.
Definition par_ne (m : gmap oid (gset name)) : Prop := ∀ o ks, m !! o = Some ks → ks ≠ ∅.

Lemma in_par_unlink o k m o' k' :
  in_par (unlink o k m) o' k' ↔ in_par m o' k' ∧ ¬ (o' = o ∧ k' = k).
Proof.
  unfold in_par, unlink. destruct (m !! o) as [ks|] eqn:E.
  - case_decide as Hd.
    + destruct (decide (o' = o)) as [->|Hne].
      * rewrite lookup_delete, E. split; [intros (? & ? & _); done|].
        intros [(ks' & [= <-] & Hk) Hn]. exfalso.
        assert (k' ∈ ks ∖ {[k]}) by set_solver. set_solver.
      * rewrite lookup_delete_ne by done. naive_solver.
    + destruct (decide (o' = o)) as [->|Hne].
      * rewrite lookup_insert, E. split.
        -- intros (? & [= <-] & Hk). split; [exists ks; set_solver|]. set_solver.
        -- intros [(ks' & [= <-] & Hk) Hn]. eexists; split; [done|].
           destruct (decide (k' = k)); [exfalso; tauto|set_solver].
      * rewrite lookup_insert_ne by done. naive_solver.
  - split; [|naive_solver]. intros (ks & Hm & Hk). split; [eauto|]. intros [-> ->]. congruence.
Qed.

Lemma in_par_link o k m o' k' :
  in_par (link o k m) o' k' ↔ in_par m o' k' ∨ (o' = o ∧ k' = k).
Proof.
  unfold in_par, link. destruct (decide (o' = o)) as [->|Hne].
  - destruct (m !! o) as [ks|] eqn:E; rewrite lookup_insert; split.
    + intros (? & [= <-] & Hk). apply elem_of_union in Hk as [->%elem_of_singleton|?]; eauto.
    + intros [(? & [= <-] & Hk)|[_ ->]]; eexists; (split; [done|]); set_solver.
    + intros (? & [= <-] & ->%elem_of_singleton). auto.
    + intros [(? & ? & Hk)|[_ ->]]; [done|]. eexists; (split; [done|]); set_solver.
  - destruct (m !! o) as [ks|] eqn:E; rewrite lookup_insert_ne by done; naive_solver.
Qed.

Lemma par_ne_unlink o k m : par_ne m → par_ne (unlink o k m).
Proof.
  intros Hm. unfold unlink. destruct (m !! o) as [ks|] eqn:E; [|done].
  case_decide; intros o' ks' Hl.
  - apply lookup_delete_Some in Hl as [_ Hl]. by eapply Hm.
  - apply lookup_insert_Some in Hl as [[_ <-]|[_ Hl]]; [done|by eapply Hm].
Qed.

Lemma par_ne_link o k m : par_ne m → par_ne (link o k m).
Proof.
  intros Hm. unfold link. destruct (m !! o) as [ks|] eqn:E; intros o' ks' Hl;
  apply lookup_insert_Some in Hl as [[_ <-]|[_ Hl]]; try set_solver; by eapply Hm.
Qed.

(** New parent entry of [x] when [o.k := v] and [o] was [c]. *)
Definition upd_par c (o : oid) (k : name) (v : aval L) (x : oid) (m : gmap oid (gset name)) :=
  if is_base L (c_cls L c) then m
  else if decide (k ∈ c_dt L c) then
    let m0 := if is_ref L x (c_attr L c !! k) then unlink o k m else m in
    if is_ref L x (Some v) then link o k m0 else m0
  else m.

(** Names of [x] reported dirty by the assignment of [o.k], besides those found by
    clear_cache. *)
Definition own_name (o : oid) (k : name) (x : oid) : gset name :=
  if decide (x = o) then {[k]} else ∅.

Lemma set_attr_spec itr h o k v no :
  h !! o = Some no → node_ok L (n_core L no) → is_tracked L (n_core L no) k →
  ∃ h1 D,
    (∀ x, h1 !! x = (λ n, touch L (own_name o k x) (map_par L (upd_par (n_core L no) o k v x) n))
                    <$> h !! x) ∧
    ∃ h2, cleared L itr h1 o D h2 ∧
    set_attr L itr h o k v = alter (map_core L (write L k v)) o h2.
Proof.
  intros Ho [Hco Hb] Hk. unfold set_attr. rewrite Ho.
  destruct (is_base L (c_cls L (n_core L no))) eqn:Eb.
  - destruct (co_base _ _ _ _ Hco Eb) as (Hdt & Htm & Hpd).
    destruct Hk as [Hk|Hk]; [|rewrite Htm in Hk; by apply elem_of_nil in Hk].
    rewrite Hdt in Hk. apply elem_of_list_singleton in Hk as ->. rewrite decide_True by done.
    eexists _. destruct (clear_cache_spec L itr
      (alter (λ n, set_dirty L (n_dirty L n ∪ {["x"%string]}) n) o h) o) as [D HD].
    exists D. split; [|eexists; split; [exact HD|done]].
    intros x. destruct (decide (x = o)) as [->|Hne].
    + rewrite lookup_alter, Ho. simpl. f_equal. unfold own_name. rewrite decide_True by done.
      destruct no as [c p r d di i pc]. unfold touch, invalidate, map_pc, map_par, set_dirty; simpl in *.
      unfold upd_par. rewrite Eb. f_equal.
      apply map_eq; intros j. apply option_eq; intros y.
      rewrite map_filter_lookup_Some. unfold deps_of. rewrite Hpd, lookup_empty. simpl.
      set_solver.
    + rewrite lookup_alter_ne by done. destruct (h !! x) as [n|]; simpl; [|done]. f_equal.
      unfold own_name. rewrite decide_False by done. rewrite touch_empty.
      unfold upd_par. rewrite Eb. by destruct n.
  - rewrite (decide_True (P := _ ∨ _)) by done.
    set (h1 := if decide (k ∈ c_dt L (n_core L no)) then _ else h).
    assert (Hh1 : ∀ x, h1 !! x = map_par L (upd_par (n_core L no) o k v x) <$> h !! x).
    { intros x. unfold h1, upd_par. rewrite Eb.
      assert (Hid : ∀ n, map_par L (λ m, m) n = n) by (by intros []).
      case_decide.
      2:{ destruct (h !! x); simpl; [|done]. by rewrite Hid. }
      set (h0 := match c_attr L (n_core L no) !! k with Some _ => _ | None => h end).
      assert (Hh0 : h0 !! x = map_par L (if is_ref L x (c_attr L (n_core L no) !! k)
                                         then unlink o k else λ m, m) <$> h !! x).
      { unfold h0, is_ref. destruct (c_attr L (n_core L no) !! k) as [[t|old]|] eqn:Ea.
        - destruct (h !! x); simpl; [|done]. by rewrite Hid.
        - destruct (decide (old = x)) as [->|Hne].
          + rewrite lookup_alter. by rewrite bool_decide_true.
          + rewrite lookup_alter_ne by done. rewrite bool_decide_false by done.
            destruct (h !! x); simpl; [|done]. by rewrite Hid.
        - destruct (h !! x); simpl; [|done]. by rewrite Hid. }
      destruct v as [t|p]; simpl.
      - rewrite Hh0. destruct (h !! x) as [n|]; simpl; [|done]. f_equal.
        destruct (is_ref L x _); done.
      - destruct (decide (p = x)) as [->|Hne].
        + rewrite lookup_alter, Hh0. rewrite bool_decide_true by done.
          destruct (h !! x) as [n|]; simpl; [|done]. f_equal.
          destruct (is_ref L x _); by destruct n.
        + rewrite lookup_alter_ne, Hh0 by done. rewrite bool_decide_false by done.
          destruct (h !! x) as [n|]; simpl; [|done]. f_equal.
          destruct (is_ref L x _); by destruct n. }
    eexists _. destruct (clear_cache_spec L itr
      (alter (λ n, invalidate L {[k]} (set_dirty L (n_dirty L n ∪ {[k]}) n)) o h1) o) as [D HD].
    exists D. split; [|eexists; split; [exact HD|done]].
    intros x. destruct (decide (x = o)) as [->|Hne].
    + rewrite lookup_alter, Hh1, Ho. simpl. unfold own_name. by rewrite decide_True.
    + rewrite lookup_alter_ne, Hh1 by done. unfold own_name. rewrite decide_False by done.
      destruct (h !! x); simpl; [|done]. by rewrite touch_empty.
Qed.

(** The same, stated node by node. *)
Record node_after (itr : option Z) (o : oid) (k : name) (v : aval L) (co : core L)
    (D : gset oid) (T : gset name) (x : oid) (n n' : node) : Prop := {
  na_core : n_core L n' = if decide (x = o) then write L k v (n_core L n) else n_core L n;
  na_par : n_par L n' = upd_par co o k v x (n_par L n);
  na_r : n_r L n' = if decide (x ∈ D) then None else n_r L n;
  na_dr : n_dr L n' = if decide (x ∈ D) then ∅ else n_dr L n;
  na_itr : n_itr L n' = if decide (x ∈ D) then itr else n_itr L n;
  na_dirty : n_dirty L n' = n_dirty L n ∪ T;
  na_pc : n_pc L n' = filter (λ pv, deps_of L (n_core L n) pv.1 ∩ T = ∅) (n_pc L n)
}.

Record assigned (itr : option Z) h (o : oid) (k : name) (v : aval L) (co : core L)
    (D : gset oid) (T : oid → gset name) h' : Prop := {
  as_none : ∀ x, h !! x = None → h' !! x = None;
  as_some : ∀ x n, h !! x = Some n → ∃ n', h' !! x = Some n' ∧
     node_after itr o k v co D (T x) x n n';
  as_names : ∀ x d, d ∈ T x ↔ (x = o ∧ d = k) ∨
     ∃ a na, a ∈ D ∧ h !! a = Some na ∧ in_par (upd_par co o k v a (n_par L na)) x d;
  as_start : o ∈ D ∨ skips L itr h o;
  as_in : ∀ x, x ∈ D → x ∈ dom h ∧ ¬ skips L itr h x ∧
     rtc (λ a p, ∃ na d, h !! a = Some na ∧ in_par (upd_par co o k v a (n_par L na)) p d) o x;
  as_closed : ∀ x nx p d, x ∈ D → h !! x = Some nx →
     in_par (upd_par co o k v x (n_par L nx)) p d → p ∈ D ∨ skips L itr h p ∨ p ∉ dom h
}.

Lemma map_par_core f n : n_core L (map_par L f n) = n_core L n. Proof. done. Qed.

Lemma par_ne_upd co o k v x m : par_ne m → par_ne (upd_par co o k v x m).
Proof.
  intros Hm. unfold upd_par. destruct (is_base _ _); [done|]. case_decide; [|done].
  destruct (is_ref L x (c_attr L co !! k)); destruct (is_ref L x (Some v));
    auto using par_ne_unlink, par_ne_link.
Qed.

Lemma set_attr_assigned itr h o k v no :
  h !! o = Some no → node_ok L (n_core L no) → is_tracked L (n_core L no) k →
  (∀ x n, h !! x = Some n → par_ne (n_par L n)) →
  ∃ D T, assigned itr h o k v (n_core L no) D T (set_attr L itr h o k v).
Proof.
  intros Ho Hok Hk Hne.
  destruct (set_attr_spec itr h o k v no Ho Hok Hk) as (h1 & D & Hh1 & h2 & Hcl & ->).
  destruct Hcl as [Hst Hin Hclo Hres].
  set (co := n_core L no) in *.
  assert (Hsk : ∀ x, skips L itr h1 x ↔ skips L itr h x).
  { intros x. unfold skips. rewrite Hh1. destruct (h !! x) as [n|]; simpl.
    - split; intros [? (n' & [= <-] & ?)]; (split; [done|]); eexists; split; try done.
    - split; intros [? (n' & ? & ?)]; done. }
  assert (Hdom : dom h1 = dom h).
  { apply set_eq; intros x. rewrite !elem_of_dom, Hh1. destruct (h !! x); simpl; split;
      intros [? ?]; eauto; done. }
  assert (Hstep : ∀ a p, pstep L h1 a p ↔
    ∃ na d, h !! a = Some na ∧ in_par (upd_par co o k v a (n_par L na)) p d).
  { intros a p. unfold pstep. rewrite Hh1. split.
    - intros (nd & Hnd & [ks Hks]). destruct (h !! a) as [na|] eqn:E; [|done].
      simpl in Hnd. injection Hnd as <-. rewrite touch_par in Hks. simpl in Hks.
      assert (ks ≠ ∅). { pose proof (par_ne_upd co o k v a _ (Hne a na E)) as Hp. by eapply Hp. }
      apply set_choose_L in H as [d Hd]. exists na, d. split; [done|]. exists ks. done.
    - intros (na & d & E & ks & Hks & Hd). rewrite E. simpl. eexists. split; [done|].
      rewrite touch_par. simpl. eauto. }
  exists D, (λ x, own_name o k x ∪ touched L h1 D x). split.
  - intros x Hx. destruct (decide (x = o)) as [->|Hxo]; [congruence|].
    rewrite lookup_alter_ne, Hres, Hh1, Hx by done. done.
  - intros x n Hx.
    assert (H2 : h2 !! x = Some (effect L h1 itr D x
       (touch L (own_name o k x) (map_par L (upd_par co o k v x) n)))).
    { by rewrite Hres, Hh1, Hx. }
    exists ((if decide (x = o) then map_core L (write L k v) else id) (effect L h1 itr D x
       (touch L (own_name o k x) (map_par L (upd_par co o k v x) n)))).
    split.
    { destruct (decide (x = o)) as [->|Hxo].
      - by rewrite lookup_alter, H2.
      - by rewrite lookup_alter_ne, H2 by done. }
    assert (Hid : ∀ m, n_par L ((if decide (x = o) then map_core L (write L k v) else id) m) = n_par L m
      ∧ n_r L ((if decide (x = o) then map_core L (write L k v) else id) m) = n_r L m
      ∧ n_dr L ((if decide (x = o) then map_core L (write L k v) else id) m) = n_dr L m
      ∧ n_itr L ((if decide (x = o) then map_core L (write L k v) else id) m) = n_itr L m
      ∧ n_dirty L ((if decide (x = o) then map_core L (write L k v) else id) m) = n_dirty L m
      ∧ n_pc L ((if decide (x = o) then map_core L (write L k v) else id) m) = n_pc L m)
      by (intros m; destruct (decide (x = o)); done).
    match goal with |- node_after _ _ _ _ _ _ _ _ _ (_ ?m) => destruct (Hid m) as (I1 & I2 & I3 & I4 & I5 & I6) end.
    split.
    + clear Hid I1 I2 I3 I4 I5 I6. destruct (decide (x = o)); simpl; by rewrite effect_core, touch_core.
    + by rewrite I1, effect_par, touch_par.
    + rewrite I2. destruct (decide (x ∈ D)) as [Hd|Hd]; [by apply effect_in_r|]. by rewrite effect_out_r, touch_r.
    + rewrite I3. destruct (decide (x ∈ D)) as [Hd|Hd]; [by apply effect_in_dr|]. by rewrite effect_out_dr, touch_dr.
    + rewrite I4. destruct (decide (x ∈ D)) as [Hd|Hd]; [by apply effect_in_itr|]. by rewrite effect_out_itr, touch_itr.
    + rewrite I5, effect_dirty, touch_dirty. simpl. by rewrite (assoc_L (∪)).
    + rewrite I6, effect_pc, touch_core. clear. destruct n as [c p r d di i pc].
      unfold touch, invalidate, map_pc, set_dirty, map_par; simpl.
      apply map_eq; intros j. apply option_eq; intros y.
      rewrite !map_filter_lookup_Some; simpl. set_solver.
  - intros x d. rewrite elem_of_union, elem_of_touched. unfold own_name.
    assert (HT : (∃ a, a ∈ D ∧ d ∈ par_names L h1 a x) ↔
      ∃ a na, a ∈ D ∧ h !! a = Some na ∧ in_par (upd_par co o k v a (n_par L na)) x d).
    { unfold par_names, in_par. split.
      - intros (a & Ha & Hd). rewrite Hh1 in Hd. destruct (h !! a) as [na|] eqn:E; [|set_solver].
        simpl in Hd.
        destruct (upd_par co o k v a (n_par L na) !! x) as [ks|] eqn:E2; [|simpl in Hd; set_solver].
        exists a, na. split_and!; eauto.
      - intros (a & na & Ha & E & ks & E2 & Hd). exists a. split; [done|].
        rewrite Hh1, E. simpl. by rewrite E2. }
    rewrite HT. destruct (decide (x = o)); [rewrite elem_of_singleton|rewrite elem_of_empty]; tauto.
  - destruct Hst as [?|[?|Hn]]; [by left|right; by apply Hsk|].
    exfalso. apply Hn. rewrite Hdom. apply elem_of_dom. eauto.
  - intros x Hx. destruct (Hin x Hx) as (H1 & H2 & H3). split_and!.
    + by rewrite <- Hdom.
    + by rewrite <- Hsk.
    + eapply rtc_subrel; [|exact H3]. intros a b Hab. by apply Hstep.
  - intros x nx p d Hx E Hp. rewrite <- Hdom, <- (Hsk p). apply (Hclo x p Hx).
    apply Hstep. eauto.
Qed.

End setattr.
