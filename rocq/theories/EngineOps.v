(** Every operation other than reading preserves the invariant. *)
From stdpp Require Import gmap strings list relations.
From Verif Require Import EngineModel EngineSpec EngineClear EngineEval EngineSet EngineInv.

Section ops.
Context (L : lib).
Notation graph := (gmap oid (core L)).
Notation heap := (gmap oid (node L)).
Notation node := (node L).
Notation cores := (cores L).
Implicit Types (g : graph) (c : core L) (h : heap) (n : node).

(* ------------------------------------------------------------------ *)
(** New objects. *)
Record blank n : Prop := {
  bl_par : n_par L n = ∅;
  bl_r : n_r L n = None;
  bl_dr : n_dr L n = ∅;
  bl_itr : n_itr L n = None;
  bl_pc : n_pc L n = ∅;
  bl_refs : ∀ k p, c_attr L (n_core L n) !! k ≠ Some (ARef p);
  bl_ok : node_ok L (n_core L n)
}.

Lemma cores_insert h o n : cores (<[o := n]> h) = <[o := n_core L n]> (cores h).
Proof. apply fmap_insert. Qed.

Section insert.
Context (h : heap) (o : oid) (n : node) (Hn : h !! o = None) (Hb : blank n).

Lemma ins_edge p d x : edge L (cores (<[o := n]> h)) p d x ↔ edge L (cores h) p d x.
Proof.
  rewrite cores_insert. unfold edge. split.
  - intros (c & Hc & ? & ? & Ha). apply lookup_insert_Some in Hc as [[<- <-]|[Hne Hc]]; [|eauto].
    exfalso. by apply (bl_refs _ Hb d x).
  - intros (c & Hc & ? & ? & ?). exists c. split_and!; try done.
    rewrite lookup_insert_ne; [done|]. intros <-. by rewrite cores_lookup, Hn in Hc.
Qed.

Lemma ins_dep x y : dep L (cores (<[o := n]> h)) x y ↔ dep L (cores h) x y.
Proof.
  split; intros Hd; (eapply rtc_subrel; [|exact Hd]); intros a b [k Hk]; exists k;
    by apply ins_edge.
Qed.

Lemma dep_dom x y : sinv L h → is_Some (h !! x) → dep L (cores h) x y → is_Some (h !! y).
Proof.
  intros Hs Hx Hd. unfold dep in Hd. revert Hx. induction Hd as [|a b y [k Hk] _ IH]; [done|].
  intros _. apply IH. by eapply (si_closed _ _ Hs).
Qed.

Lemma ins_gsim x : sinv L h → is_Some (h !! x) →
  ∀ p, dep L (cores h) x p → gsim L (cores h) (cores (<[o := n]> h)) p.
Proof.
  intros Hs Hx p Hp. destruct (dep_dom x p Hs Hx Hp) as [np Hnp].
  unfold gsim. rewrite cores_insert, lookup_insert_ne by (intros <-; congruence).
  rewrite (cores_Some _ _ _ _ Hnp). constructor. apply core_sim_refl.
Qed.

Lemma ins_eval x w m : sinv L h → is_Some (h !! x) →
  eval L m (cores h) x w = eval L m (cores (<[o := n]> h)) x w.
Proof.
  intros Hs Hx. apply eval_frame; [by apply ins_gsim|].
  intros p c _ Hc. by apply (si_ok _ _ Hs p).
Qed.

Lemma ins_sinv : sinv L h → sinv L (<[o := n]> h).
Proof.
  intros Hs. split.
  - intros x c Hc. rewrite cores_insert in Hc.
    apply lookup_insert_Some in Hc as [[<- <-]|[Hne Hc]]; [apply (bl_ok _ Hb)|].
    by apply (si_ok _ _ Hs x).
  - intros x nx p d Hx. rewrite ins_edge.
    apply lookup_insert_Some in Hx as [[<- <-]|[Hne Hx]]; [|by apply (si_par _ _ Hs)].
    rewrite (bl_par _ Hb). split.
    + intros (ks & Hks & _). by rewrite lookup_empty in Hks.
    + intros He. apply (si_closed _ _ Hs) in He as [? ?]. congruence.
  - intros x nx Hx. apply lookup_insert_Some in Hx as [[<- <-]|[Hne Hx]].
    + rewrite (bl_par _ Hb). intros a b Hab. by rewrite lookup_empty in Hab.
    + by apply (si_ne _ _ Hs x).
  - intros p d x He%ins_edge. apply (si_closed _ _ Hs) in He.
    destruct (decide (x = o)) as [->|]; [rewrite lookup_insert; eauto|].
    by rewrite lookup_insert_ne.
  - intros x nx w j Hx Hj. apply lookup_insert_Some in Hx as [[<- <-]|[Hne Hx]].
    + rewrite (bl_dr _ Hb) in Hj. by rewrite lookup_empty in Hj.
    + apply (si_dr _ _ Hs x nx w j) in Hj; [|done].
      destruct (decide (w = o)) as [->|]; [rewrite lookup_insert; eauto|].
      by rewrite lookup_insert_ne.
Qed.

Lemma ins_cinv E : sinv L h → cinv L E h → cinv L E (<[o := n]> h).
Proof.
  intros Hs [H1 H2 H2' H3]. split.
  - intros x nx u Hx HE Hr. apply lookup_insert_Some in Hx as [[<- <-]|[Hne Hx]].
    + rewrite (bl_r _ Hb) in Hr. done.
    + destruct (H1 x nx u Hx HE Hr) as [m Hm]. exists m. rewrite <- ins_eval; eauto.
  - intros x nx k u Hx Hp Hd. apply lookup_insert_Some in Hx as [[<- <-]|[Hne Hx]].
    + rewrite (bl_pc _ Hb) in Hp. by rewrite lookup_empty in Hp.
    + destruct (H2 x nx k u Hx Hp) as [m Hm].
      { intros d a Hda He. apply (Hd d a Hda). by apply ins_edge. }
      exists m. rewrite <- ins_eval; eauto.
  - intros x nx k u Hx Hp. apply lookup_insert_Some in Hx as [[<- <-]|[Hne Hx]]; [|eauto].
    rewrite (bl_pc _ Hb) in Hp. by rewrite lookup_empty in Hp.
  - intros x nx w j Hx HE Hj Hw. apply lookup_insert_Some in Hx as [[<- <-]|[Hne Hx]].
    + rewrite (bl_dr _ Hb) in Hj. by rewrite lookup_empty in Hj.
    + assert (Hwv : not_view L (cores h) w).
      { destruct (si_dr _ _ Hs x nx w j Hx Hj) as [nw Hnw].
        destruct Hw as (c & Hc & Hp). exists c. split; [|done].
        rewrite cores_insert, lookup_insert_ne in Hc; [done|]. congruence. }
      destruct (H3 x nx w j Hx HE Hj Hwv) as [m Hm]. exists m. rewrite <- Hm. symmetry.
      apply drval_frame; [apply ins_gsim; eauto| |done|done].
      intros p c _ Hc. by apply (si_ok _ _ Hs p).
Qed.

Lemma ins_tag i : tag_inv L i h → tag_inv L i (<[o := n]> h).
Proof.
  intros Ht x nx Hx Hi Hix. apply lookup_insert_Some in Hx as [[<- <-]|[Hne Hx]].
  { rewrite (bl_itr _ Hb) in Hix. congruence. }
  destruct (Ht x nx Hx Hi Hix) as (H1 & H2 & H3). split_and!; [done..|].
  intros p d np He%ins_edge Hp. apply lookup_insert_Some in Hp as [[<- <-]|[Hnp Hp]].
  - apply edge_dom in He as [? Hc]. by rewrite cores_lookup, Hn in Hc.
  - by apply (H3 p d).
Qed.
End insert.

Lemma fresh_blank (c : Cls L) dt tm : class_ok L c dt tm → blank (fresh_node L c dt tm).
Proof.
  intros Hc. by split.
Qed.

(** Ch(value) allocates one new basic object. *)
Definition base_node (t : Val L) : node :=
  Node L (Core L (base_cls L) ["x"%string] [] {["x"%string := AVal (as_array L t)]})
       ∅ None ∅ {["x"%string]} None ∅.

Lemma new_base_eq h o t : lib_ok L → h !! o = None →
  new_base L h o t = <[o := base_node t]> h.
Proof.
  intros [Hb _] Hn. unfold new_base, set_attr. rewrite lookup_insert. simpl. rewrite Hb.
  unfold clear_cache, clear_run.
  set (h1 := alter _ o (<[o:=_]> h)).
  assert (Hh1 : h1 !! o = Some (Node L (Core L (base_cls L) ["x"%string] [] ∅)
       ∅ None ∅ {["x"%string]} None ∅)).
  { unfold h1. rewrite lookup_alter, lookup_insert. simpl. unfold set_dirty. simpl.
    do 2 f_equal. set_solver. }
  simpl. rewrite Hh1. simpl.
  rewrite decide_False by set_solver.
  simpl. rewrite map_to_list_empty. simpl.
  apply map_eq; intros x. destruct (decide (x = o)) as [->|Hne].
  - rewrite lookup_alter, lookup_insert.
    destruct (n_links L h1); simpl; rewrite lookup_alter, Hh1; simpl;
      unfold map_core, base_node, write; simpl; by rewrite insert_empty.
  - rewrite lookup_alter_ne, lookup_insert_ne by done.
    destruct (n_links L h1); simpl; rewrite lookup_alter_ne by done; unfold h1;
      by rewrite lookup_alter_ne, lookup_insert_ne by done.
Qed.

Lemma base_blank t : lib_ok L → blank (base_node t).
Proof.
  intros [Hb Hc]. split; try done.
  - intros k p. simpl. intros Hk. apply lookup_singleton_Some in Hk as [_ ?]. done.
  - split; [done|]. intros _ k p _. simpl. intros Hk.
    apply lookup_singleton_Some in Hk as [_ ?]. done.
Qed.

(* ------------------------------------------------------------------ *)
(** Assignments to names that are neither terms nor dterms. *)
Lemma set_attr_untracked itr h o k v no :
  h !! o = Some no → node_ok L (n_core L no) → ¬ is_tracked L (n_core L no) k →
  set_attr L itr h o k v = alter (map_core L (write L k v)) o h.
Proof.
  intros Ho [Hco Hb] Hk. unfold set_attr. rewrite Ho.
  destruct (is_base L (c_cls L (n_core L no))) eqn:Eb.
  - destruct (co_base _ _ _ _ Hco Eb) as (Hdt & Htm & _). rewrite decide_False; [done|].
    intros ->. apply Hk. left. rewrite Hdt. by left.
  - rewrite (decide_False (P := _ ∨ _)) by done.
    rewrite decide_False; [done|]. intros ?. apply Hk. by left.
Qed.

Section untracked.
Context (h : heap) (o : oid) (k : name) (v : aval L) (no : node).
Context (Ho : h !! o = Some no) (Hk : ¬ is_tracked L (n_core L no) k).
Notation h' := (alter (map_core L (write L k v)) o h).

Lemma unt_lookup x : h' !! x = (if decide (x = o) then map_core L (write L k v) else id) <$> h !! x.
Proof.
  case_decide; [subst; apply lookup_alter|]. rewrite lookup_alter_ne by done.
  by destruct (h !! x).
Qed.

Lemma unt_back x n' : h' !! x = Some n' → ∃ n, h !! x = Some n ∧
  n' = (if decide (x = o) then map_core L (write L k v) else id) n.
Proof. rewrite unt_lookup. destruct (h !! x) as [n|]; simpl; [|done]. intros [= <-]. eauto. Qed.

Lemma unt_cores : cores h' = <[o := write L k v (n_core L no)]> (cores h).
Proof.
  apply map_eq; intros x. rewrite cores_lookup, unt_lookup.
  destruct (decide (x = o)) as [->|].
  - by rewrite lookup_insert, Ho.
  - rewrite lookup_insert_ne, cores_lookup by done. by destruct (h !! x).
Qed.

Lemma unt_sim : core_sim L (n_core L no) (write L k v (n_core L no)).
Proof.
  split; try done. intros k' Hk'. simpl. rewrite lookup_insert_ne; [done|].
  intros <-. apply Hk. by apply elem_of_tracked.
Qed.

Lemma unt_gsim x : gsim L (cores h) (cores h') x.
Proof.
  unfold gsim. rewrite unt_cores. destruct (decide (x = o)) as [->|].
  - rewrite lookup_insert, (cores_Some _ _ _ _ Ho). constructor. apply unt_sim.
  - rewrite lookup_insert_ne by done. destruct (cores h !! x); constructor. apply core_sim_refl.
Qed.

Lemma unt_edge p d x : edge L (cores h') p d x ↔ edge L (cores h) p d x.
Proof.
  rewrite unt_cores, (edge_write L _ _ _ _ _ _ _ _ (cores_Some _ _ _ _ Ho)).
  destruct (decide (p = o)) as [->|Hne]; [|naive_solver].
  split.
  - intros [[? _]|(_ & Hb & Hd & Ha)]; [done|]. exists (n_core L no).
    case_decide as Hdk; [|split_and!; try done; by apply cores_Some].
    subst d. exfalso. apply Hk. by left.
  - intros (c & Hc & Hb & Hd & Ha). rewrite (cores_Some _ _ _ _ Ho) in Hc. injection Hc as <-.
    right. split_and!; try done. rewrite decide_False; [done|]. intros ->. apply Hk. by left.
Qed.

Lemma unt_sinv : sinv L h → sinv L h'.
Proof.
  intros Hs. split.
  - intros x c Hc. rewrite unt_cores in Hc.
    apply lookup_insert_Some in Hc as [[<- <-]|[Hne Hc]]; [|by apply (si_ok _ _ Hs x)].
    destruct (si_ok _ _ Hs o _ (cores_Some _ _ _ _ Ho)) as [Hco Hb].
    split; [done|]. simpl. intros Eb k' p Hk'. rewrite lookup_insert_ne; [by apply Hb|].
    intros <-. apply Hk. by left.
  - intros x nx p d Hx. rewrite unt_edge. destruct (unt_back x nx Hx) as (n & Hn & ->).
    rewrite <- (si_par _ _ Hs x n p d Hn). by case_decide.
  - intros x nx Hx. destruct (unt_back x nx Hx) as (n & Hn & ->).
    pose proof (si_ne _ _ Hs x n Hn). by case_decide.
  - intros p d x He%unt_edge. apply (si_closed _ _ Hs) in He as [n Hn].
    rewrite unt_lookup, Hn. simpl. eauto.
  - intros x nx w j Hx. destruct (unt_back x nx Hx) as (n & Hn & ->). intros Hj.
    assert (Hj' : n_dr L n !! w = Some j) by (by case_decide).
    destruct (si_dr _ _ Hs x n w j Hn Hj') as [nw Hw]. rewrite unt_lookup, Hw. simpl. eauto.
Qed.

Lemma unt_eval m x w : sinv L h → eval L m (cores h) x w = eval L m (cores h') x w.
Proof.
  intros Hs. apply eval_frame; [intros; apply unt_gsim|].
  intros p c _ Hc. by apply (si_ok _ _ Hs p).
Qed.

Lemma unt_not_view w : not_view L (cores h') w → not_view L (cores h) w.
Proof.
  intros (c & Hc & Hp). rewrite unt_cores in Hc.
  apply lookup_insert_Some in Hc as [[<- <-]|[Hne Hc]]; [|by exists c].
  exists (n_core L no). split; [by apply cores_Some|done].
Qed.

Lemma unt_cinv E : sinv L h → cinv L E h → cinv L E h'.
Proof.
  intros Hs [H1 H2 H2' H3]. split.
  - intros x nx u Hx HE Hr. destruct (unt_back x nx Hx) as (n & Hn & ->).
    destruct (H1 x n u Hn HE) as [m Hm]; [by case_decide|].
    exists m. by rewrite <- unt_eval.
  - intros x nx k' u Hx Hp Hd. destruct (unt_back x nx Hx) as (n & Hn & ->).
    destruct (H2 x n k' u Hn) as [m Hm]; [by case_decide| |exists m; by rewrite <- unt_eval].
    intros d a Hda He. apply (Hd d a); [|by apply unt_edge].
    unfold deps_of in *. by case_decide.
  - intros x nx k' u Hx Hp. destruct (unt_back x nx Hx) as (n & Hn & ->).
    assert (Hp' : n_pc L n !! k' = Some u) by (by case_decide).
    specialize (H2' x n k' u Hn Hp'). by case_decide.
  - intros x nx w j Hx HE Hj Hw. destruct (unt_back x nx Hx) as (n & Hn & ->).
    destruct (H3 x n w j Hn HE) as [m Hm]; [by case_decide|by apply unt_not_view|].
    exists m. rewrite <- Hm. symmetry. apply drval_frame; [intros; apply unt_gsim| |by apply unt_not_view|done].
    intros p c _ Hc. by apply (si_ok _ _ Hs p).
Qed.

Lemma unt_tag i : tag_inv L i h → tag_inv L i h'.
Proof.
  intros Ht x nx Hx Hi Hix. destruct (unt_back x nx Hx) as (n & Hn & ->).
  assert (Hix' : n_itr L n = i) by (by case_decide).
  destruct (Ht x n Hn Hi Hix') as (H1 & H2 & H3). split_and!; [by case_decide..|].
  intros p d np He%unt_edge Hp. destruct (unt_back p np Hp) as (n' & Hn' & ->).
  destruct (H3 p d n' He Hn') as (? & ? & ?). unfold deps_of in *. by case_decide.
Qed.

Lemma unt_above y : above L h' o y ↔ above L h o y.
Proof. unfold above. rewrite unt_cores. apply dep_write. by apply cores_Some. Qed.
End untracked.

(* ------------------------------------------------------------------ *)
(** One assignment, with wrapping. *)
Definition tracked_in h (o : oid) (k : name) : Prop :=
  ∃ n, h !! o = Some n ∧ is_tracked L (n_core L n) k.

(** [h'] has the objects of [h], each of the same class and with the same terms. *)
Definition extends h h' : Prop :=
  ∀ x n, h !! x = Some n → ∃ n', h' !! x = Some n' ∧
    c_cls L (n_core L n') = c_cls L (n_core L n) ∧
    c_dt L (n_core L n') = c_dt L (n_core L n) ∧
    c_tm L (n_core L n') = c_tm L (n_core L n).

Lemma extends_refl h : extends h h.
Proof. intros x n Hx. eauto. Qed.
Lemma extends_trans h1 h2 h3 : extends h1 h2 → extends h2 h3 → extends h1 h3.
Proof.
  intros H12 H23 x n Hx. destruct (H12 x n Hx) as (n2 & Hx2 & ? & ? & ?).
  destruct (H23 x n2 Hx2) as (n3 & Hx3 & ? & ? & ?). exists n3. split_and!; congruence.
Qed.
Lemma extends_tracked h h' o k : extends h h' → is_Some (h !! o) → tracked_in h' o k ↔ tracked_in h o k.
Proof.
  intros He [n Hn]. destruct (He o n Hn) as (n' & Hn' & _ & H2 & H3).
  unfold tracked_in, is_tracked. split; intros (m & Hm & Ht).
  - exists n. split; [done|]. rewrite Hn' in Hm. injection Hm as <-. by rewrite <- H2, <- H3.
  - exists n'. split; [done|]. rewrite Hn in Hm. injection Hm as <-. by rewrite H2, H3.
Qed.

Record assign_facts (itr : option Z) h (o : oid) (k : name) h' : Prop := {
  af_sinv : sinv L h';
  af_ext : extends h h';
  af_above : ∀ y, is_Some (h !! y) → above L h' o y ↔ above L h o y;
  af_cinv : ∀ E, cinv L E h → cinv L (λ y, E y ∨ above L h' o y) h';
  af_untracked : ∀ E, ¬ tracked_in h o k → cinv L E h → cinv L E h';
  af_tag : tag_inv L itr h → tag_inv L itr h';
  af_clean : tag_inv L itr h → tracked_in h o k → clean_at L h' o
}.

Lemma set_attr_facts itr h o k v no :
  sinv L h → h !! o = Some no →
  (is_tracked L (n_core L no) k → vok L (n_core L no) k v) →
  (∀ p, v = ARef p → is_Some (h !! p)) →
  assign_facts itr h o k (set_attr L itr h o k v).
Proof.
  intros Hs Ho Hv Hvd.
  pose proof (si_ok _ _ Hs o _ (cores_Some _ _ _ _ Ho)) as Hok.
  assert (Htr : tracked_in h o k ↔ is_tracked L (n_core L no) k).
  { unfold tracked_in. naive_solver. }
  assert (Hdec : Decision (is_tracked L (n_core L no) k)).
  { unfold is_tracked. apply _. }
  destruct Hdec as [Ht|Ht].
  - destruct (set_attr_assigned L itr h o k v no Ho Hok Ht) as (D & T & Has).
    { apply (si_ne _ _ Hs). }
    specialize (Hv Ht). split.
    + by eapply assigned_sinv.
    + intros x n Hx. destruct (as_some _ _ _ _ _ _ _ _ _ _ Has x n Hx) as (n' & Hn' & Hna).
      exists n'. split; [done|]. rewrite (na_core _ _ _ _ _ _ _ _ _ _ _ Hna). by case_decide.
    + intros y _. by eapply asg_above.
    + intros E. eapply assigned_cinv; try done.
      * intros y Hy. by left.
      * intros y Hy. right. by eapply asg_above.
    + intros E Hnt. by rewrite Htr in Hnt.
    + by eapply assigned_tag.
    + intros Htag _. by eapply assigned_clean.
  - rewrite (set_attr_untracked _ _ _ _ _ no) by done. split.
    + by eapply unt_sinv.
    + intros x n Hx. eexists. rewrite unt_lookup, Hx. simpl. split; [done|]. by case_decide.
    + intros y _. by eapply unt_above.
    + intros E HE. eapply cinv_weaken; [|by eapply unt_cinv]. auto.
    + intros E _ HE. by eapply unt_cinv.
    + by eapply unt_tag.
    + intros _ Htr'. by rewrite Htr in Htr'.
Qed.

Lemma assign_ok_dom h o k v o' : assign_ok L (cores h) o k v o' →
  h !! o' = None ∧ ∃ no, h !! o = Some no ∧
  (is_base L (c_cls L (n_core L no)) = true → k = "x"%string → ∃ t, v = AVal t) ∧
  (∀ p, v = ARef p → is_Some (h !! p)).
Proof.
  intros (c & Hc & Hb & Hp & Hn). apply not_elem_of_dom in Hn.
  rewrite cores_lookup in Hn. split; [by destruct (h !! o')|].
  apply cores_Some_inv in Hc as (no & Hno & <-). exists no. split_and!; try done.
  intros p ->. specialize (Hp p eq_refl). apply elem_of_dom in Hp. rewrite cores_lookup in Hp.
  by apply fmap_is_Some in Hp.
Qed.

Lemma assign_facts_ok itr h o k v o' :
  lib_ok L → sinv L h → assign_ok L (cores h) o k v o' →
  assign_facts itr h o k (assign L itr h o k v o').
Proof.
  intros Hlib Hs Hok. apply assign_ok_dom in Hok as (Hn & no & Ho & Hb & Hp).
  pose proof (si_ok _ _ Hs o _ (cores_Some _ _ _ _ Ho)) as [Hco _].
  unfold assign. rewrite Ho.
  assert (Hbk : is_base L (c_cls L (n_core L no)) = true → is_tracked L (n_core L no) k → k = "x"%string).
  { intros Eb [Hk|Hk]; destruct (co_base _ _ _ _ Hco Eb) as (Hdt & Htm & _).
    - rewrite Hdt in Hk. by apply elem_of_list_singleton in Hk.
    - rewrite Htm in Hk. by apply elem_of_nil in Hk. }
  destruct v as [t|p].
  2:{ apply (set_attr_facts _ _ _ _ _ no); try done. intros Ht. split; [|eauto].
      intros Eb. by apply Hb; auto. }
  destruct (is_base L (c_cls L (n_core L no))) eqn:Eb.
  { apply (set_attr_facts _ _ _ _ _ no); try done. intros Ht. split; [eauto|].
    intros Eb'. congruence. }
  case_decide as Hk.
  2:{ apply (set_attr_facts _ _ _ _ _ no); try done. intros Ht. split; [eauto|]. done. }
  rewrite new_base_eq by done.
  set (h1 := <[o' := base_node t]> h).
  assert (Hbl : blank (base_node t)) by (by apply base_blank).
  assert (Ho1 : h1 !! o = Some no).
  { unfold h1. rewrite lookup_insert_ne; [done|]. intros ->. congruence. }
  destruct (set_attr_facts itr h1 o k (ARef o') no) as [F1 F2 F3 F4 F5 F6 F7].
  { by apply ins_sinv. } { done. } { intros _. split; [intros ?; congruence|eauto]. }
  { intros p [= <-]. unfold h1. rewrite lookup_insert. eauto. }
  assert (Htr : tracked_in h1 o k ↔ tracked_in h o k).
  { unfold tracked_in. rewrite Ho1, Ho. done. }
  assert (Hext : extends h h1).
  { intros x n Hx. exists n. unfold h1. rewrite lookup_insert_ne; [done|]. congruence. }
  split.
  - done.
  - by eapply extends_trans.
  - intros y Hy. rewrite F3; [by apply ins_dep|].
    destruct Hy as [ny Hy]. destruct (Hext y ny Hy) as (? & ? & _). eauto.
  - intros E HE. apply F4. by apply ins_cinv.
  - intros E Hnt HE. apply F5; [by rewrite Htr|]. by apply ins_cinv.
  - intros Ht. apply F6. by apply ins_tag.
  - intros Ht Htr'. apply F7; [by apply ins_tag|by rewrite Htr].
Qed.

Lemma assign_inv_tag itr h o k v o' E :
  lib_ok L → sinv L h → cinv L E h → tag_inv L itr h → assign_ok L (cores h) o k v o' →
  let h' := assign L itr h o k v o' in
  sinv L h' ∧ cinv L E h' ∧ tag_inv L itr h' ∧ extends h h'.
Proof.
  intros Hlib Hs Hc Ht Hok h'.
  destruct (assign_facts_ok itr h o k v o' Hlib Hs Hok) as [F1 F2 F3 F4 F5 F6 F7].
  split_and!; auto.
  assert (Hdec : Decision (tracked_in h o k)).
  { unfold tracked_in. destruct (h !! o) as [n|].
    - destruct (decide (k ∈ c_dt L (n_core L n) ∨ k ∈ c_tm L (n_core L n))) as [?|Hno].
      + left. exists n. done.
      + right. intros (? & [= <-] & Htr). by apply Hno.
    - right. intros (? & ? & _). done. }
  destruct Hdec as [Htr|Htr]; [|by apply F5].
  apply (cinv_clean L (λ y, E y ∨ above L h' o y) E h' o); auto.
Qed.

Lemma tag_none h : tag_inv L None h.
Proof. intros x nx _ Hi. done. Qed.

Lemma assign_inv h o k v o' :
  lib_ok L → inv L h → assign_ok L (cores h) o k v o' →
  inv L (assign L None h o k v o') ∧ extends h (assign L None h o k v o').
Proof.
  intros Hlib [Hs Hc] Hok.
  destruct (assign_inv_tag None h o k v o' (nobody) Hlib Hs Hc (tag_none h) Hok) as (?&?&?&?).
  done.
Qed.

Lemma cores_alter_core f o h : cores (alter (map_core L f) o h) = alter f o (cores h).
Proof.
  apply map_eq; intros x. destruct (decide (x = o)) as [->|].
  - rewrite lookup_alter, !cores_lookup, lookup_alter. by destruct (h !! o).
  - rewrite lookup_alter_ne by done. rewrite !cores_lookup. by rewrite lookup_alter_ne.
Qed.
Lemma cores_alter_same f o h : (∀ n, n_core L (f n) = n_core L n) → cores (alter f o h) = cores h.
Proof.
  intros Hf. apply map_eq; intros x. rewrite !cores_lookup. destruct (decide (x = o)) as [->|].
  - rewrite lookup_alter. destruct (h !! o); simpl; [by rewrite Hf|done].
  - by rewrite lookup_alter_ne.
Qed.
Lemma clear_cores itr h o : cores (clear_cache L itr h o) = cores h.
Proof.
  destruct (clear_cache_spec L itr h o) as [D [_ _ _ Hr]].
  apply map_eq; intros x. rewrite !cores_lookup, Hr. destruct (h !! x); simpl; [|done].
  by rewrite effect_core.
Qed.

Lemma set_attr_cores itr h o k v : cores (set_attr L itr h o k v) = alter (write L k v) o (cores h).
Proof.
  unfold set_attr. destruct (h !! o) as [no|] eqn:Ho.
  2:{ apply map_eq; intros x. destruct (decide (x = o)) as [->|].
      - rewrite lookup_alter, cores_lookup, Ho. done.
      - by rewrite lookup_alter_ne. }
  destruct (is_base _ _); rewrite cores_alter_core; f_equal.
  - case_decide; [|done]. rewrite clear_cores. by apply cores_alter_same.
  - set (h1 := if decide (k ∈ c_dt L (n_core L no)) then _ else h).
    assert (E : cores h1 = cores h).
    { unfold h1. case_decide; [|done].
      assert (E0 : cores (match c_attr L (n_core L no) !! k with
                    | Some (ARef old) => alter (map_par L (unlink o k)) old h
                    | _ => h
                    end) = cores h).
      { destruct (c_attr L (n_core L no) !! k) as [[t|p]|]; [done| |done]. by apply cores_alter_same. }
      destruct v as [t|p]; [done|]. by rewrite cores_alter_same. }
    case_decide; [|done]. rewrite clear_cores. by rewrite cores_alter_same.
Qed.

Lemma assign_cores itr h o k v o' :
  lib_ok L → h !! o' = None →
  cores (assign L itr h o k v o') = gassign L (cores h) (o, k, v, o').
Proof.
  intros Hlib Hn. unfold assign, gassign. rewrite cores_lookup.
  destruct (h !! o) as [no|] eqn:Ho; simpl.
  2:{ rewrite set_attr_cores. apply map_eq; intros x. destruct (decide (x = o)) as [->|].
      - rewrite lookup_alter, cores_lookup, Ho. done.
      - by rewrite lookup_alter_ne. }
  assert (Hal : ∀ v h2, h2 !! o = Some no →
    alter (write L k v) o (cores h2) = <[o := write L k v (n_core L no)]> (cores h2)).
  { intros v2 h2 Ho2. apply map_eq; intros x. destruct (decide (x = o)) as [->|].
    - rewrite lookup_alter, lookup_insert, cores_lookup, Ho2. done.
    - by rewrite lookup_alter_ne, lookup_insert_ne. }
  destruct v as [t|p].
  - destruct (is_base L (c_cls L (n_core L no))); [by rewrite set_attr_cores, Hal|].
    case_decide; [|by rewrite set_attr_cores, Hal].
    rewrite new_base_eq by done. rewrite set_attr_cores, Hal.
    + by rewrite cores_insert.
    + rewrite lookup_insert_ne; [done|]. congruence.
  - by rewrite set_attr_cores, Hal.
Qed.

Lemma assign_ok_fresh h o k v o' : assign_ok L (cores h) o k v o' → h !! o' = None.
Proof. intros Hok. by apply assign_ok_dom in Hok as [? _]. Qed.

(** Batches sharing a fresh iteration number. *)
Lemma batch_inv_tag i sets : ∀ h E,
  lib_ok L → sinv L h → cinv L E h → tag_inv L (Some i) h →
  assigns_ok L (cores h) sets →
  sinv L (batch L i sets h) ∧ cinv L E (batch L i sets h) ∧ tag_inv L (Some i) (batch L i sets h) ∧
  cores (batch L i sets h) = foldl (gassign L) (cores h) sets.
Proof.
  induction sets as [|[[[o k] v] o'] sets IH]; intros h E Hlib Hs Hc Ht Hok; [done|].
  destruct Hok as [Hok1 Hok].
  destruct (assign_inv_tag (Some i) h o k v o' E Hlib Hs Hc Ht Hok1) as (?&?&?&?).
  rewrite <- (assign_cores (Some i)) in Hok by (done || by eapply assign_ok_fresh).
  destruct (IH (assign L (Some i) h o k v o') E) as (I1 & I2 & I3 & I4); auto.
  split_and!; [done..|]. change (batch L i ((o, k, v, o') :: sets) h) with
    (batch L i sets (assign L (Some i) h o k v o')). rewrite I4.
  rewrite (assign_cores (Some i)) by (done || by eapply assign_ok_fresh). done.
Qed.

Lemma batch_inv i sets h :
  lib_ok L → inv L h → (∀ o nd, h !! o = Some nd → n_itr L nd ≠ Some i) →
  assigns_ok L (cores h) sets →
  inv L (batch L i sets h) ∧ cores (batch L i sets h) = foldl (gassign L) (cores h) sets.
Proof.
  intros Hlib [Hs Hc] Hf Hok.
  destruct (batch_inv_tag i sets h nobody Hlib Hs Hc) as (? & ? & _ & ?); [|done|done].
  intros x nx Hx _ Hi. by apply (Hf x nx Hx) in Hi.
Qed.

(** set with keywords. *)
Lemma set_kw_weak kws : ∀ h o,
  lib_ok L → sinv L h → cinv L (above L h o) h →
  assigns_ok L (cores h) (kw_sets L o kws) →
  (∃ k v o', last kws = Some (k, v, o') ∧ tracked_in h o k) →
  inv L (set_kw L h o kws).
Proof.
  induction kws as [|[[k v] o'] kws IH]; intros h o Hlib Hs Hc Hok Hl.
  { by destruct Hl as (? & ? & ? & ? & ?). }
  destruct Hok as [Hok1 Hok].
  destruct kws as [|kv kws].
  - simpl in *. destruct Hl as (? & ? & ? & [= <- <- <-] & Htr).
    destruct (assign_facts_ok None h o k v o' Hlib Hs Hok1) as [F1 F2 F3 F4 F5 F6 F7].
    split; [done|].
    apply (cinv_clean L (λ y, above L h o y ∨ above L (assign L None h o k v o') o y) _ _ o).
    + intros y [Hy|Hy]; right; [|done].
      apply F3; [|done]. apply assign_ok_dom in Hok1 as (_ & no & Ho & _).
      unfold above, dep in Hy. inversion Hy as [|? ? ? [d He]]; subst; [eauto|].
      apply edge_dom in He as [c Hc']. apply cores_Some_inv in Hc' as (? & ? & _). eauto.
    + apply F7; [apply tag_none|done].
    + by apply F4.
  - change (set_kw L h o ((k, v, o') :: kv :: kws)) with
      (set_kw L (assign L (Some 9999%Z) h o k v o') o (kv :: kws)).
    destruct (assign_facts_ok (Some 9999%Z) h o k v o' Hlib Hs Hok1) as [F1 F2 F3 F4 F5 F6 F7].
    pose proof (assign_ok_dom _ _ _ _ _ Hok1) as (_ & no & Ho & _).
    change (assigns_ok L (gassign L (cores h) (o, k, v, o')) (kw_sets L o (kv :: kws))) in Hok.
    rewrite <- (assign_cores (Some 9999%Z)) in Hok by (done || by eapply assign_ok_fresh).
    apply IH; try done.
    + eapply cinv_weaken; [|by apply F4]. intros y [Hy|Hy]; [|done].
      apply F3; [|done].
      unfold above, dep in Hy. inversion Hy as [|? ? ? [d He]]; subst; [eauto|].
      apply edge_dom in He as [c Hc']. apply cores_Some_inv in Hc' as (? & ? & _). eauto.
    + destruct Hl as (k2 & v2 & o2 & Hl & Htr). exists k2, v2, o2. split; [done|].
      rewrite extends_tracked; eauto.
Qed.

Lemma set_kw_untracked kws : ∀ h o,
  lib_ok L → inv L h →
  assigns_ok L (cores h) (kw_sets L o kws) →
  (∀ x, x ∈ kws → ¬ tracked_in h o x.1.1) →
  inv L (set_kw L h o kws).
Proof.
  induction kws as [|[[k v] o'] kws IH]; intros h o Hlib [Hs Hc] Hok Hl; [done|].
  destruct Hok as [Hok1 Hok].
  assert (Hk : ¬ tracked_in h o k) by (apply (Hl (k, v, o')); by left).
  destruct kws as [|kv kws].
  - simpl. destruct (assign_facts_ok None h o k v o' Hlib Hs Hok1) as [F1 F2 F3 F4 F5 F6 F7].
    split; [done|]. by apply F5.
  - change (set_kw L h o ((k, v, o') :: kv :: kws)) with
      (set_kw L (assign L (Some 9999%Z) h o k v o') o (kv :: kws)).
    destruct (assign_facts_ok (Some 9999%Z) h o k v o' Hlib Hs Hok1) as [F1 F2 F3 F4 F5 F6 F7].
    pose proof (assign_ok_dom _ _ _ _ _ Hok1) as (_ & no & Ho & _).
    change (assigns_ok L (gassign L (cores h) (o, k, v, o')) (kw_sets L o (kv :: kws))) in Hok.
    rewrite <- (assign_cores (Some 9999%Z)) in Hok by (done || by eapply assign_ok_fresh).
    apply IH; try done.
    + split; [done|]. by apply F5.
    + intros x Hx. rewrite extends_tracked by eauto. apply Hl. by right.
Qed.

Lemma set_kw_cores kws : ∀ h o, lib_ok L → sinv L h → assigns_ok L (cores h) (kw_sets L o kws) →
  cores (set_kw L h o kws) = foldl (gassign L) (cores h) (kw_sets L o kws).
Proof.
  induction kws as [|[[k v] o'] kws IH]; intros h o Hlib Hs Hok; [done|].
  destruct Hok as [Hok1 Hok].
  destruct kws as [|kv kws].
  - simpl. apply assign_cores; [done|]. by eapply assign_ok_fresh.
  - change (set_kw L h o ((k, v, o') :: kv :: kws)) with
      (set_kw L (assign L (Some 9999%Z) h o k v o') o (kv :: kws)).
    change (assigns_ok L (gassign L (cores h) (o, k, v, o')) (kw_sets L o (kv :: kws))) in Hok.
    rewrite <- (assign_cores (Some 9999%Z)) in Hok by (done || by eapply assign_ok_fresh).
    rewrite IH; [|done|by apply (assign_facts_ok (Some 9999%Z) h o k v o')|done].
    rewrite (assign_cores (Some 9999%Z)) by (done || by eapply assign_ok_fresh). done.
Qed.

Lemma set_kw_inv kws h o :
  lib_ok L → inv L h →
  assigns_ok L (cores h) (kw_sets L o kws) → kws_ok L (cores h) o kws →
  inv L (set_kw L h o kws).
Proof.
  intros Hlib Hi Hok Hl. destruct (last kws) as [[[k v] o']|] eqn:El.
  2:{ apply last_None in El as ->. done. }
  destruct kws as [|[[k1 v1] o1] kws]; [done|].
  pose proof (proj1 Hok) as Hok1. apply assign_ok_dom in Hok1 as (_ & no & Ho & _).
  destruct (Hl _ _ _ _ (cores_Some _ _ _ _ Ho) El) as [Ht|Hn].
  - apply set_kw_weak; try done.
    + apply Hi.
    + eapply cinv_weaken; [|apply Hi]. done.
    + exists k, v, o'. split; [done|]. by exists no.
  - apply set_kw_untracked; try done. intros x Hx (n & Hn' & Ht).
    rewrite Ho in Hn'. injection Hn' as <-. by apply (Hn x Hx).
Qed.

(* ------------------------------------------------------------------ *)
(** Explicit clearing. *)
Lemma clear_inv itr h o : inv L h → inv L (clear_cache L itr h o).
Proof.
  intros [Hs Hc].
  pose proof (clear_cores itr h o) as Hcs.
  destruct (clear_cache_spec L itr h o) as [D [_ _ _ Hr]].
  set (h' := clear_cache L itr h o) in *.
  assert (Hback : ∀ x n', h' !! x = Some n' → ∃ n, h !! x = Some n ∧ n' = effect L h itr D x n).
  { intros x n'. rewrite Hr. destruct (h !! x); simpl; [|done]. intros [= <-]. eauto. }
  assert (Hfwd : ∀ x, is_Some (h !! x) → is_Some (h' !! x)).
  { intros x [n Hn]. rewrite Hr, Hn. simpl. eauto. }
  split.
  - split; rewrite ?Hcs.
    + apply Hs.
    + intros x nx p d Hx. destruct (Hback x nx Hx) as (n & Hn & ->). rewrite effect_par.
      by apply (si_par _ _ Hs).
    + intros x nx Hx. destruct (Hback x nx Hx) as (n & Hn & ->). rewrite effect_par.
      by apply (si_ne _ _ Hs x).
    + intros p d x He. apply Hfwd. by apply (si_closed _ _ Hs p d).
    + intros x nx w j Hx Hj. destruct (Hback x nx Hx) as (n & Hn & ->).
      destruct (decide (x ∈ D)).
      * rewrite effect_in_dr in Hj by done. by rewrite lookup_empty in Hj.
      * rewrite effect_out_dr in Hj by done. apply Hfwd. by apply (si_dr _ _ Hs x n w j).
  - destruct Hc as [H1 H2 H2' H3]. split; rewrite ?Hcs.
    + intros x nx u Hx HE Hj. destruct (Hback x nx Hx) as (n & Hn & ->).
      destruct (decide (x ∈ D)).
      * by rewrite effect_in_r in Hj by done.
      * rewrite effect_out_r in Hj by done. by apply (H1 x n u).
    + intros x nx k u Hx Hp Hd. destruct (Hback x nx Hx) as (n & Hn & ->).
      rewrite effect_pc in Hp. apply map_filter_lookup_Some in Hp as [Hp _].
      rewrite effect_core in Hd. by apply (H2 x n k u).
    + intros x nx k u Hx Hp. destruct (Hback x nx Hx) as (n & Hn & ->).
      rewrite effect_pc in Hp. apply map_filter_lookup_Some in Hp as [Hp _].
      rewrite effect_core. by apply (H2' x n k u).
    + intros x nx w j Hx HE Hj Hw. destruct (Hback x nx Hx) as (n & Hn & ->).
      destruct (decide (x ∈ D)).
      * rewrite effect_in_dr in Hj by done. by rewrite lookup_empty in Hj.
      * rewrite effect_out_dr in Hj by done. by apply (H3 x n w j).
Qed.

(* ------------------------------------------------------------------ *)
(** Garbage collection. *)
Section collect.
Context (h : heap) (X : gset oid).
Notation h' := (collect L X h).

Lemma col_lookup x : h' !! x = if decide (x ∈ X) then None else forget L X <$> h !! x.
Proof.
  unfold collect. rewrite lookup_fmap. case_decide.
  - rewrite (proj2 (map_filter_lookup_None _ _ _)); [done|]. right. intros n _ Hn. simpl in Hn. done.
  - destruct (h !! x) as [n|] eqn:E; simpl.
    + rewrite (proj2 (map_filter_lookup_Some _ _ _ n)); [done|]. done.
    + rewrite (proj2 (map_filter_lookup_None _ _ _)); [done|]. by left.
Qed.

Lemma col_back x n' : h' !! x = Some n' → ∃ n, h !! x = Some n ∧ n' = forget L X n ∧ x ∉ X.
Proof.
  rewrite col_lookup. case_decide; [done|]. destruct (h !! x); simpl; [|done].
  intros [= <-]. eauto.
Qed.

Lemma col_cores x : cores h' !! x = if decide (x ∈ X) then None else cores h !! x.
Proof.
  rewrite cores_lookup, col_lookup. case_decide; [done|]. rewrite cores_lookup.
  by destruct (h !! x).
Qed.

Lemma col_edge p d x : edge L (cores h') p d x ↔ p ∉ X ∧ edge L (cores h) p d x.
Proof.
  unfold edge. rewrite col_cores. case_decide; naive_solver.
Qed.

Context (Hu : unreferenced L (cores h) X).

Lemma col_dep_out x p : x ∉ X → dep L (cores h) x p → p ∉ X.
Proof.
  intros Hx Hd. unfold dep in Hd. revert Hx.
  induction Hd as [|a b y [k (c & Hc & _ & _ & Ha)] _ IH]; [done|].
  intros Hx. apply IH. intros Hb. apply Hx. by eapply Hu.
Qed.

Lemma col_gsim x : x ∉ X → ∀ p, dep L (cores h) x p → gsim L (cores h) (cores h') p.
Proof.
  intros Hx p Hp. unfold gsim. rewrite col_cores.
  rewrite decide_False by (by eapply col_dep_out).
  destruct (cores h !! p); constructor. apply core_sim_refl.
Qed.

Lemma col_eval m x w : sinv L h → x ∉ X → eval L m (cores h) x w = eval L m (cores h') x w.
Proof.
  intros Hs Hx. apply eval_frame; [by apply col_gsim|].
  intros p c _ Hc. by apply (si_ok _ _ Hs p).
Qed.

Lemma col_not_view w : not_view L (cores h') w → not_view L (cores h) w.
Proof.
  intros (c & Hc & Hp). rewrite col_cores in Hc. case_decide; [done|]. by exists c.
Qed.

Lemma col_drval m x w : sinv L h → x ∉ X → not_view L (cores h') w →
  drval L m (cores h) x w = drval L m (cores h') x w.
Proof.
  intros Hs Hx Hw. apply drval_frame; [by apply col_gsim| |by apply col_not_view|done].
  intros p c _ Hc. by apply (si_ok _ _ Hs p).
Qed.

Lemma collect_inv : inv L h → inv L h'.
Proof.
  intros [Hs Hc]. split.
  - split.
    + intros x c Hc'. rewrite col_cores in Hc'. case_decide; [done|]. by apply (si_ok _ _ Hs x).
    + intros x nx p d Hx. destruct (col_back x nx Hx) as (n & Hn & -> & HxX).
      rewrite col_edge, <- (si_par _ _ Hs x n p d Hn). unfold forget, in_par. simpl.
      split.
      * intros (ks & Hks & Hd). apply map_filter_lookup_Some in Hks as [Hks Hp]. eauto.
      * intros [Hp (ks & Hks & Hd)]. exists ks. split; [|done].
        by apply map_filter_lookup_Some.
    + intros x nx Hx. destruct (col_back x nx Hx) as (n & Hn & -> & HxX).
      intros p ks Hks. simpl in Hks. apply map_filter_lookup_Some in Hks as [Hks _].
      by apply (si_ne _ _ Hs x n Hn p).
    + intros p d x He%col_edge. destruct He as [Hp He].
      destruct (si_closed _ _ Hs p d x He) as [n Hn]. rewrite col_lookup, Hn.
      rewrite decide_False; [simpl; eauto|].
      apply (col_dep_out p); [done|]. eapply rtc_once. by exists d.
    + intros x nx w j Hx Hj. destruct (col_back x nx Hx) as (n & Hn & -> & HxX).
      simpl in Hj. apply map_filter_lookup_Some in Hj as [Hj Hw]. simpl in Hw.
      destruct (si_dr _ _ Hs x n w j Hn Hj) as [nw Hnw].
      rewrite col_lookup, Hnw. rewrite decide_False by done. simpl; eauto.
  - destruct Hc as [H1 H2 H2' H3]. split.
    + intros x nx u Hx HE Hj. destruct (col_back x nx Hx) as (n & Hn & -> & HxX).
      destruct (H1 x n u Hn HE Hj) as [m Hm]. exists m. by rewrite <- col_eval.
    + intros x nx k u Hx Hp Hd. destruct (col_back x nx Hx) as (n & Hn & -> & HxX).
      destruct (H2 x n k u Hn Hp) as [m Hm]; [by intros ? ? ? ? []|]. exists m. by rewrite <- col_eval.
    + intros x nx k u Hx Hp. destruct (col_back x nx Hx) as (n & Hn & -> & HxX).
      by apply (H2' x n k u).
    + intros x nx w j Hx HE Hj Hw. destruct (col_back x nx Hx) as (n & Hn & -> & HxX).
      simpl in Hj. apply map_filter_lookup_Some in Hj as [Hj _].
      destruct (H3 x n w j Hn HE Hj) as [m Hm]; [by apply col_not_view|].
      exists m. by rewrite <- col_drval.
Qed.
End collect.

End ops.
