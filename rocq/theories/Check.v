(** Checking by computation, for any class library with known signatures, that a
    history is one of those considered.  Used by examples. *)
From stdpp Require Import gmap strings list relations.
From Verif Require Import EngineModel EngineSpec GraphSpec.

Section check.
Context (L : lib) (sig : Cls L → list name * list name) (good : Cls L → bool).
Context (sig_ok : ∀ c, good c = true → class_ok L c (sig c).1 (sig c).2).
Notation graph := (gmap oid (core L)).
Definition is_val (v : aval L) : bool := match v with AVal _ => true | ARef _ => false end.
Definition refs_in (v : aval L) (g : graph) : bool :=
  match v with AVal _ => true | ARef p => bool_decide (p ∈ dom g) end.

Definition assign_b (g : graph) (o : oid) (k : name) (v : aval L) (o' : oid) : bool :=
  match g !! o with
  | None => false
  | Some c => (negb (is_base L (c_cls L c) && bool_decide (k = "x"%string)) || is_val v)
              && refs_in v g && bool_decide (o' ∉ dom g)
  end.
Fixpoint assigns_b (g : graph) (sets : list (oid * name * aval L * oid)) : bool :=
  match sets with
  | [] => true
  | (o, k, v, o') as s :: sets' => assign_b g o k v o' && assigns_b (gassign L g s) sets'
  end.
Definition tracked_b (c : core L) (k : name) : bool :=
  bool_decide (k ∈ c_dt L c ++ c_tm L c).
Definition kws_b (g : graph) (o : oid) (kws : list (name * aval L * oid)) : bool :=
  match g !! o, last kws with
  | Some c, Some (k, _, _) => tracked_b c k || forallb (λ x, negb (tracked_b c x.1.1)) kws
  | _, _ => true
  end.
Definition unref_b (g : graph) (X : gset oid) : bool :=
  forallb (λ oc : oid * core L,
    bool_decide (oc.1 ∈ X) ||
    forallb (λ kv : name * aval L, match kv.2 with ARef p => bool_decide (p ∉ X) | _ => true end)
      (map_to_list (c_attr L oc.2))) (map_to_list g).

Definition op_b (used : gset Z) (a : op L) (g : graph) : bool :=
  match a with
  | ONew _ o c dt tm => bool_decide (o ∉ dom g) && bool_decide ((dt, tm) = sig c) && good c
  | OSet _ o k v o' => assign_b g o k v o'
  | OSetKw _ o kws => assigns_b g (kw_sets L o kws) && kws_b g o kws
  | OBatch _ i sets => bool_decide (i ∉ used) && bool_decide (i ≠ 9999%Z) && assigns_b g sets
  | OClear _ _ => true
  | ORead _ _ _ _ => true
  | OReadDr _ _ _ w => bool_decide (w ∈ dom g)
  | OCollect _ X => unref_b g X
  end.
Fixpoint valid_b (used : gset Z) (l : list (op L)) (g : graph) : bool :=
  match l with
  | [] => true
  | a :: l' => op_b used a g && valid_b (op_tags L a ∪ used) l' (gstep L a g)
  end.

Lemma assign_b_ok g o k v o' : assign_b g o k v o' = true → assign_ok L g o k v o'.
Proof.
  unfold assign_b, assign_ok. destruct (g !! o) as [c|]; [|done].
  rewrite !andb_true_iff, orb_true_iff, negb_true_iff, andb_false_iff, bool_decide_eq_false, bool_decide_eq_true.
  intros [[H1 H2] H3]. exists c. split_and!; try done.
  - intros Hb Hk. destruct H1 as [[?|?]|Hv]; [congruence|done|].
    destruct v; [eauto|done].
  - intros p ->. by apply bool_decide_eq_true in H2.
Qed.
Lemma assigns_b_ok sets : ∀ g, assigns_b g sets = true → assigns_ok L g sets.
Proof.
  induction sets as [|[[[o k] v] o'] sets IH]; intros g H; [done|].
  apply andb_true_iff in H as [H1 H2]. split; [by apply assign_b_ok|by apply IH].
Qed.
Lemma tracked_b_ok c k : tracked_b c k = true ↔ is_tracked L c k.
Proof. unfold tracked_b, is_tracked. by rewrite bool_decide_eq_true, elem_of_app. Qed.
Lemma kws_b_ok g o kws : kws_b g o kws = true → kws_ok L g o kws.
Proof.
  unfold kws_b, kws_ok. intros H c k v o' Hc Hl. rewrite Hc, Hl in H.
  apply orb_true_iff in H as [H|H]; [left; by apply tracked_b_ok|right].
  intros x Hx Ht. apply forallb_forall with (x := x) in H; [|by apply elem_of_list_In].
  apply tracked_b_ok in Ht. by rewrite Ht in H.
Qed.
Lemma unref_b_ok g X : unref_b g X = true → unreferenced L g X.
Proof.
  unfold unref_b. intros H o c k p Hc Hk Hp.
  apply forallb_forall with (x := (o, c)) in H; [|by apply elem_of_list_In, elem_of_map_to_list].
  apply orb_true_iff in H as [H|H]; [by apply bool_decide_eq_true in H|].
  apply forallb_forall with (x := (k, ARef p)) in H; [|by apply elem_of_list_In, elem_of_map_to_list].
  simpl in H. by apply bool_decide_eq_true in H.
Qed.
Lemma op_b_ok used a g : op_b used a g = true → op_ok L used a g.
Proof.
  destruct a; simpl.
  - rewrite !andb_true_iff, !bool_decide_eq_true. intros [[? E] Hg]. split; [done|].
    pose proof (sig_ok c Hg) as Hc. rewrite <- E in Hc. done.
  - apply assign_b_ok.
  - rewrite andb_true_iff. intros [? ?]. split; [by apply assigns_b_ok|by apply kws_b_ok].
  - rewrite !andb_true_iff, !bool_decide_eq_true. intros [[? ?] ?]. split_and!; try done. by apply assigns_b_ok.
  - done.
  - done.
  - by rewrite bool_decide_eq_true.
  - apply unref_b_ok.
Qed.
Lemma valid_b_ok l : ∀ used g, valid_b used l g = true → valid_from L used l g.
Proof.
  induction l as [|a l IH]; intros used g H; [done|].
  apply andb_true_iff in H as [H1 H2]. split; [by apply op_b_ok|by apply IH].
Qed.

(** Independence by a closed set of objects. *)
Definition closed_b (g : graph) (X : gset oid) : bool :=
  forallb (λ oc : oid * core L,
    negb (bool_decide (oc.1 ∈ X)) ||
    forallb (λ kv : name * aval L, match kv.2 with ARef p => bool_decide (p ∈ X) | _ => true end)
      (map_to_list (c_attr L oc.2))) (map_to_list g).
Lemma closed_b_ok g X o p : closed_b g X = true → o ∈ X → p ∉ X → ¬ dep L g o p.
Proof.
  intros H Ho Hp Hd. apply Hp. clear Hp. induction Hd as [|x y z (k & c & Hc & _ & _ & Hk) _ IH]; [done|].
  apply IH. apply forallb_forall with (x := (x, c)) in H; [|by apply elem_of_list_In, elem_of_map_to_list].
  apply orb_true_iff in H as [H|H].
  { apply negb_true_iff, bool_decide_eq_false in H. done. }
  apply forallb_forall with (x := (k, ARef y)) in H; [|by apply elem_of_list_In, elem_of_map_to_list].
  simpl in H. by apply bool_decide_eq_true in H.
Qed.

Definition some_b {A} (m : option A) : bool := match m with Some _ => true | None => false end.
Lemma some_b_ok {A} (m : option A) : some_b m = true → is_Some m.
Proof. destruct m; [eauto|done]. Qed.
Definition not_view_b (g : graph) (w : oid) : bool :=
  match g !! w with Some c => negb (is_permute L (c_cls L c)) | None => false end.
Lemma not_view_b_ok g w : not_view_b g w = true → not_view L g w.
Proof.
  unfold not_view_b, not_view. destruct (g !! w) as [c|]; [|done].
  intros H. exists c. split; [done|]. by apply negb_true_iff.
Qed.
(** Every reference goes to a smaller id. *)
Definition down_b (g : gmap oid (core L)) : bool :=
  forallb (λ oc : oid * core L,
    forallb (λ kv : name * aval L, match kv.2 with ARef p => bool_decide (p < oc.1) | _ => true end)
      (map_to_list (c_attr L oc.2))) (map_to_list g).
Lemma down_b_ok g : down_b g = true → acyclic (holds L g) ∧ acyclic (points L g).
Proof.
  intros H.
  assert (Hl : ∀ o p, holds L g o p → p < o).
  { intros o p (c & k & Hc & _ & Hk).
    apply forallb_forall with (x := (o, c)) in H; [|by apply elem_of_list_In, elem_of_map_to_list].
    apply forallb_forall with (x := (k, ARef p)) in H; [|by apply elem_of_list_In, elem_of_map_to_list].
    simpl in H. by apply bool_decide_eq_true in H. }
  assert (Hp : ∀ o p, points L g o p → p < o).
  { intros o p (c & k & Hc & Hk & Ha). apply Hl. exists c, k. auto. }
  assert (Hgen : ∀ (R : relation oid), (∀ o p, R o p → p < o) → acyclic R).
  { intros R HR x Hx. assert (Ht : ∀ a b, tc R a b → b < a).
    { induction 1 as [a b Hab|a b c Hab _ IH]; [by apply HR|]. specialize (HR _ _ Hab). lia. }
    specialize (Ht _ _ Hx). lia. }
  split; apply Hgen; auto.
Qed.

Definition closed_all_b (g : gmap oid (core L)) (X : gset oid) : bool :=
  forallb (λ oc : oid * core L,
    negb (bool_decide (oc.1 ∈ X)) ||
    forallb (λ kv : name * aval L, match kv.2 with ARef p => bool_decide (p ∈ X) | _ => true end)
      (map_to_list (c_attr L oc.2))) (map_to_list g).
Lemma closed_all_b_ok g X o p : closed_all_b g X = true → o ∈ X → p ∉ X → ¬ rtc (holds L g) o p.
Proof.
  intros H Ho Hp Hd. apply Hp. clear Hp. induction Hd as [|x y z (c & k & Hc & _ & Hk) _ IH]; [done|].
  apply IH. apply forallb_forall with (x := (x, c)) in H; [|by apply elem_of_list_In, elem_of_map_to_list].
  apply orb_true_iff in H as [H|H].
  { apply negb_true_iff, bool_decide_eq_false in H. done. }
  apply forallb_forall with (x := (k, ARef y)) in H; [|by apply elem_of_list_In, elem_of_map_to_list].
  simpl in H. by apply bool_decide_eq_true in H.
Qed.

End check.
