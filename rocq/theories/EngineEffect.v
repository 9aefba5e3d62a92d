(** The effect of one assignment on every object: which caches survive, which names
    are reported as changed. *)
From stdpp Require Import gmap strings list relations.
From Verif Require Import EngineModel EngineSpec EngineClear EngineEval EngineSet EngineInv EngineOps.

Section effect.
Context (L : lib).
Notation graph := (gmap oid (core L)).
Notation heap := (gmap oid (node L)).
Notation node := (node L).
Notation cores := (cores L).
Implicit Types (g : graph) (c : core L) (h : heap) (n : node).

Record node_eff (itr : option Z) h h' (o : oid) (k : name) (x : oid) n n' : Prop := {
  ne_r : ¬ (tracked_in L h o k ∧ above L h o x) → n_r L n' = n_r L n ∧ n_dr L n' = n_dr L n ∧ n_itr L n' = n_itr L n;
  ne_pc : ∀ k' u, n_pc L n !! k' = Some u →
    (∀ d, d ∈ deps_of L (n_core L n) k' → tracked_in L h o k → ¬ announced L (cores h') o k x d) →
    n_pc L n' !! k' = Some u;
  ne_pc_back : ∀ k' u, n_pc L n' !! k' = Some u → n_pc L n !! k' = Some u;
  ne_dirty : ∀ d, d ∈ n_dirty L n → d ∈ n_dirty L n';
  ne_dirty_back : ∀ d, d ∈ n_dirty L n' →
    d ∈ n_dirty L n ∨ (tracked_in L h o k ∧ announced L (cores h') o k x d);
  ne_dirty_all : tag_inv L itr h → tracked_in L h o k → ∀ d, announced L (cores h') o k x d → d ∈ n_dirty L n';
  ne_itr : n_itr L n' = n_itr L n ∨ (n_itr L n' = itr ∧ above L h o x);
  ne_itr_none : itr = None → tracked_in L h o k → above L h' o x → n_itr L n' = None
}.

Definition eff (itr : option Z) h (o : oid) (k : name) h' : Prop :=
  ∀ x n, h !! x = Some n → ∃ n', h' !! x = Some n' ∧ node_eff itr h h' o k x n n'.

Section asg.
Context (itr : option Z) h (o : oid) (k : name) (v : aval L) (no : node) (D : gset oid)
        (T : oid → gset name) h'.
Context (Hs : sinv L h) (Ho : h !! o = Some no) (Hv : vok L (n_core L no) k v)
        (Hvd : ∀ p, v = ARef p → is_Some (h !! p))
        (Ht : is_tracked L (n_core L no) k)
        (Has : assigned L itr h o k v (n_core L no) D T h').

Lemma asg_D_above x : x ∈ D → above L h' o x.
Proof.
  intros Hx. apply (as_in _ _ _ _ _ _ _ _ _ _ Has) in Hx as (_ & _ & Hr).
  unfold above, dep. assert (Hgen : ∀ y, rtc (λ a p, ∃ na d, h !! a = Some na ∧
     in_par (upd_par L (n_core L no) o k v a (n_par L na)) p d) y x → rtc (child L (cores h')) x y).
  { intros y. induction 1 as [|a p x (na & d & Hna & Hp) _ IH]; [constructor|].
    eapply rtc_r; [by apply IH; eauto|]. exists d. by eapply asg_in_par in Hp; eauto. }
  by apply Hgen.
Qed.

Lemma asg_names x d : d ∈ T x → announced L (cores h') o k x d.
Proof.
  intros Hd. apply (as_names _ _ _ _ _ _ _ _ _ _ Has) in Hd as [[-> ->]|(a & na & HaD & Hna & Hp)].
  - by left.
  - right. exists a. split; [by eapply asg_in_par in Hp; eauto|]. by apply asg_D_above.
Qed.

Lemma asg_D_none x : itr = None → above L h' o x → is_Some (h' !! x) → x ∈ D.
Proof.
  intros -> Hx.
  assert (Hns : ∀ y, ¬ skips L None h y) by (intros y [? _]; done).
  pattern x. revert x Hx. apply dep_ind.
  - intros _. destruct (as_start _ _ _ _ _ _ _ _ _ _ Has) as [?|Hk]; [done|]. by apply Hns in Hk.
  - intros b d a He _ IH [nb Hnb].
    assert (Hs' : sinv L h') by exact (assigned_sinv _ _ _ _ _ _ _ _ _ _ Ho Has Hs Hv Hvd).
    assert (Hsa : is_Some (h' !! a)) by (by eapply (si_closed L h' Hs')).
    specialize (IH Hsa). destruct Hsa as [na' Hna'].
    assert (is_Some (h !! a)) as [na Hna] by (rewrite <- (asg_dom _ _ _ _ _ _ _ _ _ _ Has a); eauto).
    assert (Hip : in_par (upd_par L (n_core L no) o k v a (n_par L na)) b d)
      by (by apply (asg_in_par _ _ _ _ _ _ _ _ _ _ Ho Has Hs Hv)).
    destruct (as_closed _ _ _ _ _ _ _ _ _ _ Has a na b d IH Hna Hip) as [?|[Hk|Hk]].
    + done.
    + by apply Hns in Hk.
    + exfalso. apply Hk. apply elem_of_dom. rewrite <- (asg_dom _ _ _ _ _ _ _ _ _ _ Has b); eauto.
Qed.

Lemma asg_eff : eff itr h o k h'.
Proof.
  assert (Htr : tracked_in L h o k) by (by exists no).
  intros x n Hx. destruct (as_some _ _ _ _ _ _ _ _ _ _ Has x n Hx) as (n' & Hn' & Hna).
  exists n'. split; [done|]. destruct Hna as [N1 N2 N3 N4 N5 N6 N7]. split.
  - intros Hno. rewrite N3, N4, N5.
    destruct (decide (x ∈ D)) as [Hd|]; [|done]. exfalso. apply Hno. split; [done|].
    rewrite <- (asg_above _ _ _ _ _ _ _ _ _ _ Ho Has). by apply asg_D_above.
  - intros k' u Hu Hd. rewrite N7. apply map_filter_lookup_Some. split; [done|]. simpl.
    apply set_eq; intros d. rewrite elem_of_intersection. split; [|set_solver].
    intros [Hd1 Hd2]. exfalso. apply (Hd d Hd1 Htr). by apply asg_names.
  - intros k' u. rewrite N7, map_filter_lookup_Some. by intros [? _].
  - intros d Hd. rewrite N6. apply elem_of_union. by left.
  - intros d. rewrite N6, elem_of_union. intros [?|Hd]; [by left|]. right. split; [done|].
    by apply asg_names.
  - intros Htag _ d [[-> ->]|(a & He & Ha)].
    + rewrite N6. apply elem_of_union. right. apply (as_names _ _ _ _ _ _ _ _ _ _ Has). by left.
    + assert (Hcl : clean_at L h' o) by by exact (assigned_clean _ _ _ _ _ _ _ _ _ _ Ho Has Hs Hv Hvd Htag).
      by apply (ca_names _ _ _ Hcl x n' d a).
  - rewrite N5. case_decide; [right|by left]. split; [done|].
    rewrite <- (asg_above _ _ _ _ _ _ _ _ _ _ Ho Has). by apply asg_D_above.
  - intros Hi _ Hab. rewrite N5. rewrite decide_True; [done|]. apply asg_D_none; eauto.
Qed.
End asg.

Lemma set_attr_eff itr h o k v no :
  sinv L h → h !! o = Some no →
  (is_tracked L (n_core L no) k → vok L (n_core L no) k v) →
  (∀ p, v = ARef p → is_Some (h !! p)) →
  eff itr h o k (set_attr L itr h o k v).
Proof.
  intros Hs Ho Hv Hvd.
  pose proof (si_ok _ _ Hs o _ (cores_Some _ _ _ _ Ho)) as Hok.
  assert (Hdec : Decision (is_tracked L (n_core L no) k)) by (unfold is_tracked; apply _).
  destruct Hdec as [Ht|Ht].
  - destruct (set_attr_assigned L itr h o k v no Ho Hok Ht) as (D & T & Has).
    { apply (si_ne _ _ Hs). }
    exact (asg_eff _ _ _ _ _ _ _ _ _ Hs Ho (Hv Ht) Hvd Ht Has).
  - rewrite (set_attr_untracked _ _ _ _ _ _ no) by done.
    assert (Hnt : ¬ tracked_in L h o k).
    { intros (n & Hn & ?). rewrite Ho in Hn. by injection Hn as <-. }
    intros x n Hx. eexists. rewrite unt_lookup, Hx. simpl. split; [done|].
    split; try naive_solver; case_decide; simpl; naive_solver.
Qed.

Record new_node n : Prop := {
  nn_dirty : n_dirty L n = {["x"%string]};
  nn_r : n_r L n = None;
  nn_dr : n_dr L n = ∅;
  nn_pc : n_pc L n = ∅;
  nn_itr : n_itr L n = None;
  nn_base : is_base L (c_cls L (n_core L n)) = true
}.

Lemma assign_eff itr h o k v o' :
  lib_ok L → sinv L h → assign_ok L (cores h) o k v o' →
  eff itr h o k (assign L itr h o k v o') ∧
  (∀ x n', h !! x = None → assign L itr h o k v o' !! x = Some n' → new_node n').
Proof.
  intros Hlib Hs Hok. pose proof Hok as Hok'.
  apply assign_ok_dom in Hok as (Hn & no & Ho & Hb & Hp).
  pose proof (si_ok _ _ Hs o _ (cores_Some _ _ _ _ Ho)) as [Hco _].
  assert (Hbk : is_base L (c_cls L (n_core L no)) = true → is_tracked L (n_core L no) k → k = "x"%string).
  { intros Eb [Hk|Hk]; destruct (co_base _ _ _ _ Hco Eb) as (Hdt & Htm & _).
    - rewrite Hdt in Hk. by apply elem_of_list_singleton in Hk.
    - rewrite Htm in Hk. by apply elem_of_nil in Hk. }
  assert (Hcs := assign_cores L itr h o k v o' Hlib Hn).
  assert (Hplain : assign L itr h o k v o' = set_attr L itr h o k v →
     (is_tracked L (n_core L no) k → vok L (n_core L no) k v) →
     eff itr h o k (assign L itr h o k v o') ∧
     (∀ x n', h !! x = None → assign L itr h o k v o' !! x = Some n' → new_node n')).
  { intros E Hv. rewrite E. split; [by eapply set_attr_eff|]. intros x n' Hx Hx'. exfalso.
    apply (cores_Some L) in Hx'. rewrite set_attr_cores in Hx'.
    destruct (decide (x = o)) as [->|]; [congruence|].
    rewrite lookup_alter_ne, cores_lookup, Hx in Hx' by done. done. }
  unfold assign in *. rewrite Ho in *.
  destruct v as [t|p].
  2:{ apply Hplain; [done|]. intros Ht. split; [|eauto]. intros Eb. by apply Hb; auto. }
  destruct (is_base L (c_cls L (n_core L no))) eqn:Eb.
  { apply Hplain; [done|]. intros Ht. split; [eauto|]. intros Eb'. congruence. }
  destruct (decide (k ∈ c_dt L (n_core L no))) as [Hk|Hk].
  2:{ apply Hplain; [done|]. intros Ht. split; [eauto|]. done. }
  clear Hplain Hcs. rewrite new_base_eq by done.
  set (h1 := <[o' := base_node L t]> h).
  assert (Hbl : blank L (base_node L t)) by (by apply base_blank).
  assert (Ho1 : h1 !! o = Some no).
  { unfold h1. rewrite lookup_insert_ne; [done|]. intros ->. congruence. }
  assert (Hs1 : sinv L h1) by (by apply ins_sinv).
  assert (Hvok : vok L (n_core L no) k (ARef o')) by (split; [intros ?; congruence|eauto]).
  assert (Hvd1 : ∀ p, @ARef L o' = ARef p → is_Some (h1 !! p)).
  { intros p [= <-]. unfold h1. rewrite lookup_insert. eauto. }
  pose proof (set_attr_eff itr h1 o k (ARef o') no Hs1 Ho1 (λ _, Hvok) Hvd1) as He.
  pose proof (set_attr_facts L itr h1 o k (ARef o') no Hs1 Ho1 (λ _, Hvok) Hvd1) as Hf.
  set (h' := set_attr L itr h1 o k (ARef o')) in *.
  assert (Htr : tracked_in L h1 o k ↔ tracked_in L h o k).
  { unfold tracked_in. rewrite Ho1, Ho. done. }
  assert (Hab : ∀ y, above L h1 o y ↔ above L h o y) by (intros y; by apply ins_dep).
  split.
  - intros x n Hx. assert (Hx1 : h1 !! x = Some n).
    { unfold h1. rewrite lookup_insert_ne; [done|]. congruence. }
    destruct (He x n Hx1) as (n' & Hn' & [N1 N2 N3 N4 N5 N6 N7 N8]).
    exists n'. split; [done|]. split.
    + intros Hno. apply N1. rewrite Htr, Hab. done.
    + intros k' u Hu Hd. apply N2; [done|]. intros d Hd1 Hd2. apply Hd; [done|by apply Htr].
    + done.
    + done.
    + intros d Hd. destruct (N5 d Hd) as [?|[? ?]]; [by left|]. right. split; [by apply Htr|done].
    + intros Htag Ht. apply N6; [by apply ins_tag|by apply Htr].
    + rewrite <- Hab. done.
    + intros Hi Ht. apply N8; [done|by apply Htr].
  - intros x n' Hx Hx'.
    assert (x = o') as ->.
    { apply (cores_Some L) in Hx'. unfold h' in Hx'. rewrite set_attr_cores in Hx'.
      destruct (decide (x = o)) as [->|]; [congruence|].
      rewrite lookup_alter_ne in Hx' by done. unfold h1 in Hx'. rewrite cores_insert in Hx'.
      apply lookup_insert_Some in Hx' as [[? _]|[_ Hx']]; [done|].
      rewrite cores_lookup, Hx in Hx'. done. }
    assert (Hoo : o ≠ o') by congruence.
    assert (Hx1 : h1 !! o' = Some (base_node L t)) by (unfold h1; by rewrite lookup_insert).
    destruct (He o' _ Hx1) as (n2 & Hn2 & [N1 N2 N3 N4 N5 N6 N7 N8]).
    rewrite Hx' in Hn2. injection Hn2 as <-.
    assert (Hno : ∀ g d a, g !! o' = Some (n_core L (base_node L t)) → ¬ edge L g o' d a).
    { intros g d a Hg (c & Hc & Hb' & _). rewrite Hg in Hc. injection Hc as <-.
      simpl in Hb'. destruct Hlib as [Hlb _]. congruence. }
    assert (Hcs' : cores h' !! o' = Some (n_core L (base_node L t))).
    { unfold h'. rewrite set_attr_cores, lookup_alter_ne by done. by apply cores_Some. }
    destruct N1 as (R1 & R2 & R3).
    { intros [_ Hd]. unfold above, dep in Hd. inversion Hd as [|? ? ? [d He'] ?]; subst; [done|].
      eapply Hno; [|exact He']. by apply cores_Some. }
    split; rewrite ?R1, ?R2, ?R3; try done.
    + apply set_eq; intros d. split; [|apply N4].
      intros Hd. destruct (N5 d Hd) as [?|[_ [[? _]|(a & He' & _)]]]; [done|done|].
      exfalso. by eapply Hno.
    + apply map_eq; intros k'. rewrite lookup_empty. apply eq_None_not_Some. intros [u Hu].
      apply N3 in Hu. simpl in Hu. by rewrite lookup_empty in Hu.
    + rewrite (cores_Some _ _ _ _ Hx') in Hcs'. injection Hcs' as ->. simpl. apply Hlib.
Qed.

End effect.
