(** The invariant of the object graph and its preservation by assignments. *)
From stdpp Require Import gmap strings list relations.
From Verif Require Import EngineModel EngineSpec EngineClear EngineEval EngineSet.

Section inv.
Context (L : lib).
Notation graph := (gmap oid (core L)).
Notation heap := (gmap oid (node L)).
Notation node := (node L).
Notation cores := (cores L).
Implicit Types (g : graph) (c : core L) (h : heap) (n : node).

(** Structure: classes obey their contract, parent links mirror attributes. *)
Record sinv h : Prop := {
  si_ok : graph_ok L (cores h);
  si_par : ∀ x nx p d, h !! x = Some nx → in_par (n_par L nx) p d ↔ edge L (cores h) p d x;
  si_ne : ∀ x nx, h !! x = Some nx → par_ne (n_par L nx);
  si_closed : ∀ p d x, edge L (cores h) p d x → is_Some (h !! x);
  si_dr : ∀ x nx w j, h !! x = Some nx → n_dr L nx !! w = Some j → is_Some (h !! w)
}.

(** Caches are right, except on the nodes of [E] and above. *)
Record cinv (E : oid → Prop) h : Prop := {
  ci_r : ∀ x nx v, h !! x = Some nx → ¬ E x → n_r L nx = Some v → denotes L (cores h) x QR v;
  ci_pc : ∀ x nx k v, h !! x = Some nx → n_pc L nx !! k = Some v →
    (∀ d a, d ∈ deps_of L (n_core L nx) k → edge L (cores h) x d a → ¬ E a) →
    denotes L (cores h) x (QProp k) v;
  ci_pcd : ∀ x nx k v, h !! x = Some nx → n_pc L nx !! k = Some v →
    is_Some (prop_deps L (c_cls L (n_core L nx)) !! k);
  ci_dr : ∀ x nx w j, h !! x = Some nx → ¬ E x → n_dr L nx !! w = Some j →
    not_view L (cores h) w → dr_denotes L (cores h) x w j
}.

Definition nobody (x : oid) : Prop := False.
Definition above h (o x : oid) : Prop := dep L (cores h) x o.
Definition inv h : Prop := sinv h ∧ cinv nobody h.

(** Nothing that depends on [o] is cached, and its change has been announced. *)
Record clean_at h (o : oid) : Prop := {
  ca_r : ∀ x nx, h !! x = Some nx → above h o x → n_r L nx = None ∧ n_dr L nx = ∅;
  ca_names : ∀ x nx d a, h !! x = Some nx → edge L (cores h) x d a → above h o a →
    d ∈ n_dirty L nx ∧
    ∀ k v, n_pc L nx !! k = Some v → d ∉ deps_of L (n_core L nx) k
}.

(** What the iteration tag [i] promises during a batch. *)
Definition tag_inv (i : option Z) h : Prop :=
  ∀ x nx, h !! x = Some nx → i ≠ None → n_itr L nx = i →
    n_r L nx = None ∧ n_dr L nx = ∅ ∧
    ∀ p d np, edge L (cores h) p d x → h !! p = Some np →
      n_itr L np = i ∧ d ∈ n_dirty L np ∧
      ∀ k v, n_pc L np !! k = Some v → d ∉ deps_of L (n_core L np) k.

Lemma cores_lookup h x : cores h !! x = n_core L <$> h !! x.
Proof. apply lookup_fmap. Qed.
Lemma cores_Some h x n : h !! x = Some n → cores h !! x = Some (n_core L n).
Proof. intros H. by rewrite cores_lookup, H. Qed.
Lemma cores_Some_inv h x c : cores h !! x = Some c → ∃ n, h !! x = Some n ∧ n_core L n = c.
Proof. rewrite cores_lookup. destruct (h !! x); simpl; [|done]. intros [= <-]; eauto. Qed.
Lemma edge_dom g p d x : edge L g p d x → is_Some (g !! p).
Proof. intros (c & Hc & _). eauto. Qed.

Lemma cinv_weaken (E E' : oid → Prop) h : (∀ x, E x → E' x) → cinv E h → cinv E' h.
Proof. intros HE [H1 H2 H2' H3]. split; naive_solver. Qed.

Lemma cinv_clean (E E2 : oid → Prop) h o :
  (∀ y, E y → E2 y ∨ above h o y) → clean_at h o → cinv E h → cinv E2 h.
Proof.
  intros HE [Hc1 Hc2] [H1 H2 H2' H3]. split; [| |done|].
  - intros x nx v Hx HnE Hr. apply (H1 x nx v); try done. intros HEx.
    destruct (HE x HEx) as [?|Ha]; [done|]. destruct (Hc1 x nx Hx Ha). congruence.
  - intros x nx k v Hx Hp Hd. apply (H2 x nx k v Hx Hp). intros d a Hda He HEa.
    destruct (HE a HEa) as [?|Ha]; [by eapply Hd|].
    destruct (Hc2 x nx d a Hx He Ha) as [_ Hno]. by eapply Hno.
  - intros x nx w j Hx HnE Hr. apply (H3 x nx w j); try done. intros HEx.
    destruct (HE x HEx) as [?|Ha]; [done|]. destruct (Hc1 x nx Hx Ha) as [_ E0].
    rewrite E0 in Hr. by rewrite lookup_empty in Hr.
Qed.

(* ------------------------------------------------------------------ *)
(** Edges and dependence after an assignment. *)
Definition vok c (k : name) (v : aval L) : Prop :=
  (is_base L (c_cls L c) = true → ∃ t, v = AVal t) ∧
  (is_base L (c_cls L c) = false → k ∈ c_dt L c → ∃ p, v = ARef p).

Lemma edge_write g o k v c p d x :
  g !! o = Some c →
  edge L (<[o := write L k v c]> g) p d x ↔
  (p ≠ o ∧ edge L g p d x) ∨
  (p = o ∧ is_base L (c_cls L c) = false ∧ d ∈ c_dt L c ∧
   if decide (d = k) then v = ARef x else c_attr L c !! d = Some (ARef x)).
Proof.
  intros Hg. unfold edge. split.
  - intros (c' & Hc' & Hb & Hd & Ha). destruct (decide (p = o)) as [->|Hne].
    + rewrite lookup_insert in Hc'. injection Hc' as <-. right. simpl in *.
      split_and!; try done. case_decide; subst.
      * rewrite lookup_insert in Ha. congruence.
      * by rewrite lookup_insert_ne in Ha.
    + rewrite lookup_insert_ne in Hc' by done. left. split; [done|]. by exists c'.
  - intros [[Hne (c' & Hc' & Hb & Hd & Ha)]|(-> & Hb & Hd & Ha)].
    + exists c'. by rewrite lookup_insert_ne.
    + exists (write L k v c). rewrite lookup_insert. split_and!; try done. simpl.
      case_decide; subst; [by rewrite lookup_insert|by rewrite lookup_insert_ne].
Qed.

Lemma is_ref_spec (x : oid) (a : option (aval L)) : is_ref L x a = true ↔ a = Some (ARef x).
Proof.
  destruct a as [[t|p]|]; simpl; try done. rewrite bool_decide_eq_true. naive_solver.
Qed.

Lemma in_par_upd g o k v c x m p d :
  g !! o = Some c → node_ok L c → vok c k v →
  (∀ p d, in_par m p d ↔ edge L g p d x) →
  in_par (upd_par L c o k v x m) p d ↔ edge L (<[o := write L k v c]> g) p d x.
Proof.
  intros Hg Hok [Hv1 Hv2] Hm. rewrite (edge_write _ _ _ _ _ _ _ _ Hg).
  assert (Hoe : ∀ d, edge L g o d x ↔ is_base L (c_cls L c) = false ∧ d ∈ c_dt L c ∧
     c_attr L c !! d = Some (ARef x)).
  { intros d'. unfold edge. rewrite Hg. naive_solver. }
  unfold upd_par. destruct (is_base L (c_cls L c)) eqn:Eb.
  { rewrite Hm. split; [|naive_solver]. intros He. left. split; [|done].
    intros ->. apply Hoe in He. naive_solver. }
  case_decide as Hk.
  2:{ rewrite Hm. destruct (decide (p = o)) as [->|Hne].
      - rewrite Hoe. case_decide as Hdk.
        + subst d. naive_solver.
        + naive_solver.
      - naive_solver. }
  assert (Hm0 : in_par (if is_ref L x (c_attr L c !! k) then unlink o k m else m) p d ↔
    edge L g p d x ∧ ¬ (p = o ∧ d = k)).
  { destruct (is_ref L x (c_attr L c !! k)) eqn:Er.
    - rewrite in_par_unlink, Hm. done.
    - rewrite Hm. split; [|naive_solver]. intros He. split; [done|]. intros [-> ->].
      apply Hoe in He as (_ & _ & Ha). apply is_ref_spec in Ha. congruence. }
  destruct (is_ref L x (Some v)) eqn:Ev.
  - apply is_ref_spec in Ev. injection Ev as ->. rewrite in_par_link, Hm0.
    destruct (decide (p = o)) as [->|Hne].
    + rewrite Hoe. destruct (decide (d = k)) as [->|]; naive_solver.
    + naive_solver.
  - rewrite Hm0. assert (Hvx : v ≠ ARef x).
    { intros ->. assert (is_ref L x (Some (ARef x)) = true) by (by apply is_ref_spec).
      congruence. }
    destruct (decide (p = o)) as [->|Hne].
    + rewrite Hoe. destruct (decide (d = k)) as [->|]; naive_solver.
    + naive_solver.
Qed.

Lemma dep_same g1 g2 o :
  (∀ p d x, p ≠ o → edge L g1 p d x ↔ edge L g2 p d x) →
  ∀ y, dep L g1 y o ↔ dep L g2 y o.
Proof.
  intros He y. split; intros Hd; unfold dep in *; induction Hd as [y|a b y [k Hab] _ IH];
    try constructor.
  - destruct (decide (a = y)) as [->|Hne]; [constructor|].
    econstructor; [exists k; by apply He|by apply IH].
  - destruct (decide (a = y)) as [->|Hne]; [constructor|].
    econstructor; [exists k; by apply He|by apply IH].
Qed.

Lemma dep_write g o k v c y : g !! o = Some c →
  dep L (<[o := write L k v c]> g) y o ↔ dep L g y o.
Proof.
  intros Hg. apply dep_same. intros p d x Hne. rewrite (edge_write _ _ _ _ _ _ _ _ Hg).
  naive_solver.
Qed.

Lemma dep_ind g o (P : oid → Prop) :
  P o → (∀ x d a, edge L g x d a → dep L g a o → P a → P x) → ∀ x, dep L g x o → P x.
Proof.
  intros H0 H1 x Hx. unfold dep in Hx. induction Hx as [y|b a y [d He] Ha IH]; [done|].
  eapply H1; eauto.
Qed.

(* ------------------------------------------------------------------ *)
Section assigned.
Context (itr : option Z) (h h' : heap) (o : oid) (k : name) (v : aval L) (no : node)
  (D : gset oid) (T : oid → gset name).
Context (Ho : h !! o = Some no).
Notation co := (n_core L no).
Context (Has : assigned L itr h o k v co D T h').
Context (Hs : sinv h) (Hv : vok co k v) (Hvd : ∀ p, v = ARef p → is_Some (h !! p)).

Lemma asg_cores : cores h' = <[o := write L k v co]> (cores h).
Proof.
  apply map_eq; intros x. destruct (decide (x = o)) as [->|Hne].
  - rewrite lookup_insert, cores_lookup.
    destruct (as_some _ _ _ _ _ _ _ _ _ _ Has o no Ho) as (n' & -> & Hn). simpl.
    rewrite (na_core _ _ _ _ _ _ _ _ _ _ _ Hn). by rewrite decide_True.
  - rewrite lookup_insert_ne, !cores_lookup by done.
    destruct (h !! x) as [n|] eqn:E.
    + destruct (as_some _ _ _ _ _ _ _ _ _ _ Has x n E) as (n' & -> & Hn). simpl.
      rewrite (na_core _ _ _ _ _ _ _ _ _ _ _ Hn). by rewrite decide_False.
    + by rewrite (as_none _ _ _ _ _ _ _ _ _ _ Has x E).
Qed.

Lemma asg_back x n' : h' !! x = Some n' →
  ∃ n, h !! x = Some n ∧ node_after L itr o k v co D (T x) x n n'.
Proof.
  intros Hx. destruct (h !! x) as [n|] eqn:E.
  - destruct (as_some _ _ _ _ _ _ _ _ _ _ Has x n E) as (n2 & E2 & Hn). naive_solver.
  - rewrite (as_none _ _ _ _ _ _ _ _ _ _ Has x E) in Hx. done.
Qed.

Lemma asg_co : node_ok L co.
Proof. eapply (si_ok _ Hs). by apply cores_Some. Qed.

Lemma asg_go : cores h !! o = Some co.
Proof. by apply cores_Some. Qed.

Lemma asg_in_par x nx p d : h !! x = Some nx →
  in_par (upd_par L co o k v x (n_par L nx)) p d ↔ edge L (cores h') p d x.
Proof.
  intros Hx. rewrite asg_cores. apply in_par_upd; [apply asg_go|apply asg_co|done|].
  intros p' d'. by apply (si_par _ Hs).
Qed.

Lemma asg_edge p d x : edge L (cores h') p d x →
  edge L (cores h) p d x ∨ (p = o ∧ d = k ∧ v = ARef x).
Proof.
  rewrite asg_cores, (edge_write _ _ _ _ _ _ _ _ asg_go).
  intros [[_ He]|(-> & Hb & Hd & Ha)]; [by left|].
  case_decide; [naive_solver|]. left. exists co. split_and!; try done. apply asg_go.
Qed.

Lemma asg_edge_back p d x : edge L (cores h) p d x → ¬ (p = o ∧ d = k) → edge L (cores h') p d x.
Proof.
  rewrite asg_cores, (edge_write _ _ _ _ _ _ _ _ asg_go). intros He Hn.
  destruct (decide (p = o)) as [->|]; [right|by left].
  destruct He as (c & Hc & Hb & Hd & Ha). rewrite asg_go in Hc. injection Hc as <-.
  split_and!; try done. rewrite decide_False by naive_solver. done.
Qed.

Lemma asg_above y : above h' o y ↔ above h o y.
Proof. unfold above. rewrite asg_cores. apply dep_write, asg_go. Qed.

Lemma asg_dom x : is_Some (h' !! x) ↔ is_Some (h !! x).
Proof.
  split; intros [n Hn].
  - destruct (asg_back x n Hn) as (? & ? & ?). eauto.
  - destruct (as_some _ _ _ _ _ _ _ _ _ _ Has x n Hn) as (n' & ? & ?). eauto.
Qed.

Lemma assigned_sinv : sinv h'.
Proof.
  split.
  - intros x c Hc. rewrite asg_cores in Hc.
    apply lookup_insert_Some in Hc as [[<- <-]|[Hne Hc]].
    + destruct asg_co as [Hco Hb]. split; [done|]. simpl. intros Eb k' p Hk' Ha.
      destruct Hv as [Hv1 _]. destruct (Hv1 Eb) as [t ->].
      apply lookup_insert_Some in Ha as [[_ ?]|[_ Ha]]; [done|]. by apply (Hb Eb k' p).
    + by apply (si_ok _ Hs x).
  - intros x nx p d Hx. destruct (asg_back x nx Hx) as (n & Hn & Hna).
    rewrite (na_par _ _ _ _ _ _ _ _ _ _ _ Hna). by apply asg_in_par.
  - intros x nx Hx. destruct (asg_back x nx Hx) as (n & Hn & Hna).
    rewrite (na_par _ _ _ _ _ _ _ _ _ _ _ Hna). apply par_ne_upd. by apply (si_ne _ Hs x).
  - intros p d x He. apply asg_dom. apply asg_edge in He as [He|(_ & _ & ->)].
    + by apply (si_closed _ Hs p d).
    + by apply Hvd.
  - intros x nx w j Hx Hj. destruct (asg_back x nx Hx) as (n & Hn & Hna).
    rewrite (na_dr _ _ _ _ _ _ _ _ _ _ _ Hna) in Hj. case_decide; [by rewrite lookup_empty in Hj|].
    apply asg_dom. by apply (si_dr _ Hs x n w j).
Qed.

(** Objects that do not depend on [o] keep their value. *)
Lemma asg_gsim y : ¬ above h o y → ∀ p, dep L (cores h) y p → gsim L (cores h) (cores h') p.
Proof.
  intros Hy p Hp. unfold gsim. rewrite asg_cores.
  destruct (decide (p = o)) as [->|Hne]; [done|]. rewrite lookup_insert_ne by done.
  destruct (cores h !! p); constructor. apply core_sim_refl.
Qed.

Lemma asg_ok y : ∀ p c, dep L (cores h) y p → cores h !! p = Some c → node_ok L c.
Proof. intros p c _ Hc. by apply (si_ok _ Hs p). Qed.

Lemma asg_eval y w m : ¬ above h o y → eval L m (cores h) y w = eval L m (cores h') y w.
Proof. intros Hy. apply eval_frame; [by apply asg_gsim|apply asg_ok]. Qed.

Lemma asg_not_view w : not_view L (cores h') w → not_view L (cores h) w.
Proof.
  intros (c & Hc & Hp). rewrite asg_cores in Hc.
  apply lookup_insert_Some in Hc as [[<- <-]|[Hne Hc]]; [|by exists c].
  exists co. split; [apply asg_go|done].
Qed.

Lemma asg_drval y w m : ¬ above h o y → not_view L (cores h') w →
  drval L m (cores h) y w = drval L m (cores h') y w.
Proof.
  intros Hy Hw. apply drval_frame; [by apply asg_gsim|apply asg_ok|by apply asg_not_view|done].
Qed.

Lemma assigned_cinv (E E' : oid → Prop) :
  (∀ y, E y → E' y) → (∀ y, above h o y → E' y) → cinv E h → cinv E' h'.
Proof.
  intros HE HE' [H1 H2 H2' H3]. split.
  - intros x nx u Hx HnE Hr. destruct (asg_back x nx Hx) as (n & Hn & Hna).
    rewrite (na_r _ _ _ _ _ _ _ _ _ _ _ Hna) in Hr. case_decide; [done|].
    destruct (H1 x n u Hn) as [m Hm]; [naive_solver|done|].
    exists m. rewrite <- asg_eval; [done|naive_solver].
  - intros x nx k' u Hx Hp Hd. destruct (asg_back x nx Hx) as (n & Hn & Hna).
    rewrite (na_pc _ _ _ _ _ _ _ _ _ _ _ Hna) in Hp.
    apply map_filter_lookup_Some in Hp as [Hp HT]. simpl in HT.
    assert (Hdo : deps_of L (n_core L nx) k' = deps_of L (n_core L n) k').
    { rewrite (na_core _ _ _ _ _ _ _ _ _ _ _ Hna). by case_decide. }
    rewrite Hdo in Hd.
    assert (Hown : x = o → k ∉ deps_of L (n_core L n) k').
    { intros -> Hk. assert (k ∈ T o) by (apply (as_names _ _ _ _ _ _ _ _ _ _ Has); by left).
      set_solver. }
    assert (Hed : ∀ d a, d ∈ deps_of L (n_core L n) k' → edge L (cores h) x d a → ¬ E' a).
    { intros d a Hda He. apply (Hd d a Hda). apply asg_edge_back; [done|].
      intros [-> ->]. by apply Hown. }
    destruct (H2 x n k' u Hn Hp) as [m Hm].
    { intros d a Hda He HEa. eapply Hed; eauto. }
    destruct (H2' x n k' u Hn Hp) as [ds Hds].
    exists m. rewrite <- Hm. symmetry.
    assert (Hcx : cores h' !! x = Some (if decide (x = o) then write L k v (n_core L n) else n_core L n)).
    { rewrite asg_cores. destruct (decide (x = o)) as [->|].
      - rewrite lookup_insert. naive_solver.
      - rewrite lookup_insert_ne by done. by apply cores_Some. }
    assert (Hdk : deps_of L (n_core L n) k' = ds) by (unfold deps_of; by rewrite Hds).
    rewrite Hdk in *.
    eapply (eval_prop_frame L m (cores h) (cores h') x (n_core L n) _ k' ds).
    + by apply cores_Some.
    + exact Hcx.
    + apply (si_ok _ Hs x). by apply cores_Some.
    + by case_decide.
    + done.
    + intros d Hdd. case_decide; [|done]. simpl. rewrite lookup_insert_ne; [done|].
      intros ->. by apply Hown.
    + intros d p Hdd He m'. apply asg_eval. intros Ha. apply (Hed d p Hdd He). auto.
  - intros x nx k' u Hx Hp. destruct (asg_back x nx Hx) as (n & Hn & Hna).
    rewrite (na_pc _ _ _ _ _ _ _ _ _ _ _ Hna) in Hp.
    apply map_filter_lookup_Some in Hp as [Hp _].
    rewrite (na_core _ _ _ _ _ _ _ _ _ _ _ Hna).
    specialize (H2' x n k' u Hn Hp). by case_decide.
  - intros x nx w j Hx HnE Hr Hw. destruct (asg_back x nx Hx) as (n & Hn & Hna).
    rewrite (na_dr _ _ _ _ _ _ _ _ _ _ _ Hna) in Hr.
    case_decide; [by rewrite lookup_empty in Hr|].
    destruct (H3 x n w j Hn) as [m Hm]; [naive_solver|done|by apply asg_not_view|].
    exists m. rewrite <- asg_drval; [done|naive_solver|done].
Qed.

(** The tagged (or cleared) nodes are closed under dependents. *)
Definition tg (x : oid) : Prop := x ∈ D ∨ skips L itr h x.

Lemma asg_tg_start : tg o.
Proof. apply (as_start _ _ _ _ _ _ _ _ _ _ Has). Qed.

Lemma asg_tg x nx' : tag_inv itr h → h' !! x = Some nx' → tg x →
  n_r L nx' = None ∧ n_dr L nx' = ∅ ∧
  ∀ p d np', edge L (cores h') p d x → h' !! p = Some np' →
    tg p ∧ d ∈ n_dirty L np' ∧ ∀ k0 u, n_pc L np' !! k0 = Some u → d ∉ deps_of L (n_core L np') k0.
Proof.
  intros Htag Hx Htg. destruct (asg_back x nx' Hx) as (nx & Hnx & Hna).
  rewrite (na_r _ _ _ _ _ _ _ _ _ _ _ Hna), (na_dr _ _ _ _ _ _ _ _ _ _ _ Hna).
  assert (HD : tg x → (if decide (x ∈ D) then None else n_r L nx) = None ∧
     (if decide (x ∈ D) then ∅ else n_dr L nx) = ∅).
  { intros Ht. case_decide; [done|]. destruct Ht as [?|[Hi (n0 & E0 & Hi0)]]; [done|].
    rewrite Hnx in E0. injection E0 as <-.
    destruct (Htag x nx Hnx Hi Hi0) as (? & ? & _). done. }
  destruct (HD Htg) as [Ha Hb]. split_and!; [done..|].
  intros p d np' He Hp. destruct (asg_back p np' Hp) as (np & Hnp & Hnap).
  assert (Hdone : d ∈ T p → d ∈ n_dirty L np' ∧
    ∀ k0 u, n_pc L np' !! k0 = Some u → d ∉ deps_of L (n_core L np') k0).
  { intros Hd. rewrite (na_dirty _ _ _ _ _ _ _ _ _ _ _ Hnap). split; [set_solver|].
    intros k0 u Hu. rewrite (na_pc _ _ _ _ _ _ _ _ _ _ _ Hnap) in Hu.
    apply map_filter_lookup_Some in Hu as [_ Hu]. simpl in Hu.
    replace (deps_of L (n_core L np') k0) with (deps_of L (n_core L np) k0); [set_solver|].
    rewrite (na_core _ _ _ _ _ _ _ _ _ _ _ Hnap). by destruct (decide (p = o)). }
  destruct (decide (x ∈ D)) as [HxD|HxD].
  - split.
    + destruct (as_closed _ _ _ _ _ _ _ _ _ _ Has x nx p d HxD Hnx) as [?|[?|Hno]].
      * by apply asg_in_par.
      * by left.
      * by right.
      * exfalso. apply Hno. apply elem_of_dom. eauto.
    + apply Hdone. apply (as_names _ _ _ _ _ _ _ _ _ _ Has). right.
      exists x, nx. split_and!; [done..|]. by apply asg_in_par.
  - destruct Htg as [?|[Hi (n0 & E0 & Hi0)]]; [done|].
    rewrite Hnx in E0. injection E0 as <-.
    destruct (asg_edge _ _ _ He) as [He0|(Hpo & Hdk & _)].
    + destruct (Htag x nx Hnx Hi Hi0) as (_ & _ & Htp).
      destruct (Htp p d np He0 Hnp) as (Hpi & Hpd & Hpk).
      split; [right; split; [done|]; eauto|]. split.
      * rewrite (na_dirty _ _ _ _ _ _ _ _ _ _ _ Hnap). set_solver.
      * intros k0 u Hu. rewrite (na_pc _ _ _ _ _ _ _ _ _ _ _ Hnap) in Hu.
        apply map_filter_lookup_Some in Hu as [Hu _]. apply Hpk in Hu.
        rewrite (na_core _ _ _ _ _ _ _ _ _ _ _ Hnap). by destruct (decide (p = o)).
    + rewrite Hpo. split; [apply asg_tg_start|]. apply Hdone.
      apply (as_names _ _ _ _ _ _ _ _ _ _ Has). left. done.
Qed.

Lemma assigned_clean : tag_inv itr h → clean_at h' o.
Proof.
  intros Htag.
  assert (Hall : ∀ x, above h' o x → is_Some (h' !! x) → tg x).
  { intros x Hx. pattern x. revert x Hx. apply dep_ind; [intros _; apply asg_tg_start|].
    intros b d a He _ IH [nb Hnb].
    assert (Hsa : is_Some (h' !! a)) by (by eapply (si_closed _ assigned_sinv)).
    specialize (IH Hsa). destruct Hsa as [na Hna].
    destruct (asg_tg a na Htag Hna IH) as (_ & _ & Hp).
    by apply (Hp b d nb He Hnb). }
  split.
  - intros x nx Hx Ha. destruct (asg_tg x nx Htag Hx) as (? & ? & _); [|done].
    apply Hall; eauto.
  - intros x nx d a Hx He Ha.
    assert (Hsa : is_Some (h' !! a)) by (by eapply (si_closed _ assigned_sinv)).
    pose proof (Hall a Ha Hsa) as Hta. destruct Hsa as [na Hna].
    destruct (asg_tg a na Htag Hna Hta) as (_ & _ & Hp).
    by apply (Hp x d nx He Hx).
Qed.

Lemma assigned_tag : tag_inv itr h → tag_inv itr h'.
Proof.
  intros Htag x nx Hx Hi Hix.
  assert (Htg : tg x).
  { destruct (asg_back x nx Hx) as (n & Hn & Hna).
    rewrite (na_itr _ _ _ _ _ _ _ _ _ _ _ Hna) in Hix. case_decide; [by left|].
    right. split; [done|]. eauto. }
  destruct (asg_tg x nx Htag Hx Htg) as (H1 & H2 & H3). split_and!; [done..|].
  intros p d np He Hp. destruct (H3 p d np He Hp) as (Htp & Hd & Hk). split_and!; [|done..].
  destruct (asg_back p np Hp) as (n & Hn & Hna).
  rewrite (na_itr _ _ _ _ _ _ _ _ _ _ _ Hna). case_decide as HpD; [done|].
  destruct Htp as [?|[_ (n0 & E0 & Hi0)]]; [done|]. naive_solver.
Qed.

Lemma assigned_dirty_own : ∃ no', h' !! o = Some no' ∧ k ∈ n_dirty L no' ∧
  ∀ k0 u, n_pc L no' !! k0 = Some u → k ∉ deps_of L (n_core L no') k0.
Proof.
  destruct (as_some _ _ _ _ _ _ _ _ _ _ Has o no Ho) as (n' & Hn' & Hna).
  exists n'. split; [done|].
  assert (k ∈ T o) by (apply (as_names _ _ _ _ _ _ _ _ _ _ Has); by left).
  rewrite (na_dirty _ _ _ _ _ _ _ _ _ _ _ Hna). split; [set_solver|].
  intros k0 u Hu. rewrite (na_pc _ _ _ _ _ _ _ _ _ _ _ Hna) in Hu.
  apply map_filter_lookup_Some in Hu as [_ Hu]. simpl in Hu.
  rewrite (na_core _ _ _ _ _ _ _ _ _ _ _ Hna). rewrite decide_True by done.
  unfold deps_of in *. simpl in *. set_solver.
Qed.

End assigned.

End inv.
