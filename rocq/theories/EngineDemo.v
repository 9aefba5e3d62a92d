(** A small concrete class library, used for examples and counterexamples: basic
    objects, elementwise add and multiply (ch_ops.py:546, 704), select (a reordering
    view, reordering.py:276), a reciprocal that raises on zero, and a class with a
    @depends_on property. *)
From stdpp Require Import gmap strings list relations.
From Verif Require Import EngineModel EngineSpec.

Inductive cls := KBase | KAdd | KMul | KSel | KRecip | KScale.
Global Instance cls_dec : EqDecision cls.
Proof. solve_decision. Defined.

Notation vec := (list Z).
Notation mat := (list (list Z)).

Definition diag (v : vec) : mat :=
  imap (λ i x, imap (λ j _, if decide (i = j) then x else 0%Z) v) v.
Definition unit_row (n i : nat) : vec := (λ j, if decide (i = j) then 1%Z else 0%Z) <$> seq 0 n.
Definition pick (v : vec) (is : vec) : vec := (λ i, nth (Z.to_nat i) v 0%Z) <$> is.
Definition col (m : mat) (j : nat) : vec := (λ r, nth j r 0%Z) <$> m.
Definition ncols (m : mat) : nat := match m with [] => 0 | r :: _ => length r end.
Definition vdot (u v : vec) : Z := foldr Z.add 0%Z (zip_with Z.mul u v).
Definition mmul (a b : mat) : mat := (λ r, (λ j, vdot r (col b j)) <$> seq 0 (ncols b)) <$> a.
Definition madd (a b : mat) : mat := zip_with (zip_with Z.add) a b.
Definition mT (m : mat) : mat := (λ j, col m j) <$> seq 0 (ncols m).

Definition attr_or (ts : gmap name vec) (k : name) : vec := default [] (ts !! k).

Definition demo_r (c : cls) (ts : gmap name vec) : prog vec vec :=
  match c with
  | KBase => match ts !! "x"%string with Some v => PRet v | None => PRaise end
  | KAdd => PAsk (RChild "a") (λ u, PAsk (RChild "b") (λ v, PRet (zip_with Z.add u v)))
  | KMul => PAsk (RChild "a") (λ u, PAsk (RChild "b") (λ v, PRet (zip_with Z.mul u v)))
  | KSel => PAsk (RChild "a") (λ u, PRet (pick u (attr_or ts "idxs")))
  | KRecip => PAsk (RChild "a") (λ u, if decide (0%Z ∈ u) then PRaise else PRet (Z.div 12 <$> u))
  | KScale => PAsk (RProp "sq") (λ s, PRet ((λ x, (x * nth 0 (attr_or ts "c") 1)%Z) <$> s))
  end.

Definition demo_dr (c : cls) (ts : gmap name vec) (self : bool) (ks : list name) : prog vec (option mat) :=
  match c with
  | KBase => if self then PAsk RSelf (λ u, PRet (Some (diag ((λ _, 1%Z) <$> u)))) else PRet None
  | KAdd =>
    match ks with
    | [] => PRet None
    | _ => PAsk RSelf (λ u, PRet (Some (diag ((λ _, Z.of_nat (length ks)) <$> u))))
    end
  | KMul =>
    if decide ("a"%string ∈ ks) then
      if decide ("b"%string ∈ ks) then
        PAsk (RChild "a") (λ u, PRet (Some (diag ((λ x, (2 * x)%Z) <$> u))))
      else PAsk (RChild "b") (λ v, PRet (Some (diag v)))
    else if decide ("b"%string ∈ ks) then PAsk (RChild "a") (λ u, PRet (Some (diag u)))
    else PRet None
  | KSel =>
    match ks with
    | [] => PRet None
    | _ => PAsk (RChild "a") (λ u, PRet (Some ((λ i, unit_row (length u) (Z.to_nat i)) <$> attr_or ts "idxs")))
    end
  | KRecip => PRet None
  | KScale =>
    match ks with
    | [] => PRet None
    | _ => PAsk (RChild "a") (λ u, PRet (Some (diag ((λ x, (2 * x * nth 0 (attr_or ts "c") 1)%Z) <$> u))))
    end
  end.

Definition demo : lib := {|
  Cls := cls; Val := vec; Arr := vec; Jac := mat;
  is_base c := bool_decide (c = KBase);
  is_permute c := bool_decide (c = KSel);
  compute_r := demo_r;
  compute_dr := demo_dr;
  prop_deps c := match c with KScale => {["sq"%string := {["a"%string]}]} | _ => ∅ end;
  compute_prop c k ts := PAsk (RChild "a") (λ u, PRet (zip_with Z.mul u u));
  as_array v := v;
  base_cls := KBase;
  jadd := madd; jmul := mmul; jT := mT
|}.

Definition sig (c : cls) : list name * list name :=
  match c with
  | KBase => (["x"%string], [])
  | KAdd | KMul => (["a"%string; "b"%string], [])
  | KSel => (["a"%string], ["idxs"%string])
  | KRecip => (["a"%string], [])
  | KScale => (["a"%string], ["c"%string])
  end.

Lemma demo_agree (k : name) dt tm ts1 ts2 : agree demo (tracked dt tm) ts1 ts2 →
  k ∈ dt ++ tm → ts1 !! k = ts2 !! k.
Proof.
  intros H Hk. apply H. unfold tracked. rewrite elem_of_union, !elem_of_list_to_set. by apply elem_of_app.
Qed.

Lemma demo_ok c : class_ok demo c (sig c).1 (sig c).2.
Proof.
  assert (Hag : ∀ ts1 ts2, agree demo (tracked (sig c).1 (sig c).2) ts1 ts2 →
    ∀ k, k ∈ (sig c).1 ++ (sig c).2 → ts1 !! k = ts2 !! k).
  { intros ts1 ts2 H k Hk. by eapply demo_agree. }
  split.
  - intros ts. destruct c; simpl.
    + case_match; done.
    + split; [set_solver|]. intros _. split; [set_solver|]. done.
    + split; [set_solver|]. intros _. split; [set_solver|]. done.
    + split; [set_solver|]. done.
    + split; [set_solver|]. intros u. destruct (decide (0%Z ∈ u)); done.
    + split; done.
  - intros ts1 ts2 H. specialize (Hag ts1 ts2 H).
    destruct c; simpl in *; try done; unfold attr_or; rewrite Hag by set_solver; done.
  - intros ts b ks. destruct c; simpl.
    + destruct b; simpl; done.
    + destruct ks; simpl; done.
    + destruct (decide ("a"%string ∈ ks)), (decide ("b"%string ∈ ks)); simpl; try done; (split; [set_solver|done]).
    + destruct ks; simpl; [done|]. split; [set_solver|done].
    + done.
    + destruct ks; simpl; [done|]. split; [set_solver|done].
  - intros ts1 ts2 b ks H. specialize (Hag ts1 ts2 H).
    destruct c; simpl in *; try done; unfold attr_or; rewrite Hag by set_solver; done.
  - intros k ds Hk. destruct c; simpl in Hk; try done.
    apply lookup_singleton_Some in Hk as [<- <-]. unfold tracked. simpl. set_solver.
  - intros k ds ts Hk. destruct c; simpl in Hk; try done.
    apply lookup_singleton_Some in Hk as [<- <-]. simpl. split; [set_solver|done].
  - done.
  - intros Hb. apply bool_decide_eq_true in Hb as ->. done.
  - intros Hb. apply bool_decide_eq_true in Hb as ->. simpl. split; [done|set_solver].
Qed.

Lemma demo_lib_ok : lib_ok demo.
Proof. split; [done|]. apply (demo_ok KBase). Qed.

(* ------------------------------------------------------------------ *)
(** Checking by computation that a history is one of those considered. *)
Notation graph := (gmap oid (core demo)).
Definition is_val (v : aval demo) : bool := match v with AVal _ => true | ARef _ => false end.
Definition refs_in (v : aval demo) (g : graph) : bool :=
  match v with AVal _ => true | ARef p => bool_decide (p ∈ dom g) end.

Definition assign_b (g : graph) (o : oid) (k : name) (v : aval demo) (o' : oid) : bool :=
  match g !! o with
  | None => false
  | Some c => (negb (bool_decide (c_cls demo c = KBase) && bool_decide (k = "x"%string)) || is_val v)
              && refs_in v g && bool_decide (o' ∉ dom g)
  end.
Fixpoint assigns_b (g : graph) (sets : list (oid * name * aval demo * oid)) : bool :=
  match sets with
  | [] => true
  | (o, k, v, o') as s :: sets' => assign_b g o k v o' && assigns_b (gassign demo g s) sets'
  end.
Definition tracked_b (c : core demo) (k : name) : bool :=
  bool_decide (k ∈ c_dt demo c ++ c_tm demo c).
Definition kws_b (g : graph) (o : oid) (kws : list (name * aval demo * oid)) : bool :=
  match g !! o, last kws with
  | Some c, Some (k, _, _) => tracked_b c k || forallb (λ x, negb (tracked_b c x.1.1)) kws
  | _, _ => true
  end.
Definition unref_b (g : graph) (X : gset oid) : bool :=
  forallb (λ oc : oid * core demo,
    bool_decide (oc.1 ∈ X) ||
    forallb (λ kv : name * aval demo, match kv.2 with ARef p => bool_decide (p ∉ X) | _ => true end)
      (map_to_list (c_attr demo oc.2))) (map_to_list g).

Definition op_b (used : gset Z) (a : op demo) (g : graph) : bool :=
  match a with
  | ONew _ o c dt tm => bool_decide (o ∉ dom g) && bool_decide ((dt, tm) = sig c)
  | OSet _ o k v o' => assign_b g o k v o'
  | OSetKw _ o kws => assigns_b g (kw_sets demo o kws) && kws_b g o kws
  | OBatch _ i sets => bool_decide (i ∉ used) && bool_decide (i ≠ 9999%Z) && assigns_b g sets
  | OClear _ _ => true
  | ORead _ _ _ _ => true
  | OReadDr _ _ _ w => bool_decide (w ∈ dom g)
  | OCollect _ X => unref_b g X
  end.
Fixpoint valid_b (used : gset Z) (l : list (op demo)) (g : graph) : bool :=
  match l with
  | [] => true
  | a :: l' => op_b used a g && valid_b (op_tags demo a ∪ used) l' (gstep demo a g)
  end.

Lemma assign_b_ok g o k v o' : assign_b g o k v o' = true → assign_ok demo g o k v o'.
Proof.
  unfold assign_b, assign_ok. destruct (g !! o) as [c|]; [|done].
  rewrite !andb_true_iff, orb_true_iff, negb_true_iff, andb_false_iff, !bool_decide_eq_false, bool_decide_eq_true.
  intros [[H1 H2] H3]. exists c. split_and!; try done.
  - intros Hb Hk. simpl in Hb. apply bool_decide_eq_true in Hb. destruct H1 as [[?|?]|Hv]; [done|done|].
    destruct v; [eauto|done].
  - intros p ->. by apply bool_decide_eq_true in H2.
Qed.
Lemma assigns_b_ok sets : ∀ g, assigns_b g sets = true → assigns_ok demo g sets.
Proof.
  induction sets as [|[[[o k] v] o'] sets IH]; intros g H; [done|].
  apply andb_true_iff in H as [H1 H2]. split; [by apply assign_b_ok|by apply IH].
Qed.
Lemma tracked_b_ok c k : tracked_b c k = true ↔ is_tracked demo c k.
Proof. unfold tracked_b, is_tracked. by rewrite bool_decide_eq_true, elem_of_app. Qed.
Lemma kws_b_ok g o kws : kws_b g o kws = true → kws_ok demo g o kws.
Proof.
  unfold kws_b, kws_ok. intros H c k v o' Hc Hl. rewrite Hc, Hl in H.
  apply orb_true_iff in H as [H|H]; [left; by apply tracked_b_ok|right].
  intros x Hx Ht. apply forallb_forall with (x := x) in H; [|by apply elem_of_list_In].
  apply tracked_b_ok in Ht. by rewrite Ht in H.
Qed.
Lemma unref_b_ok g X : unref_b g X = true → unreferenced demo g X.
Proof.
  unfold unref_b. intros H o c k p Hc Hk Hp.
  apply forallb_forall with (x := (o, c)) in H; [|by apply elem_of_list_In, elem_of_map_to_list].
  apply orb_true_iff in H as [H|H]; [by apply bool_decide_eq_true in H|].
  apply forallb_forall with (x := (k, ARef p)) in H; [|by apply elem_of_list_In, elem_of_map_to_list].
  simpl in H. by apply bool_decide_eq_true in H.
Qed.
Lemma op_b_ok used a g : op_b used a g = true → op_ok demo used a g.
Proof.
  destruct a; simpl.
  - rewrite andb_true_iff, !bool_decide_eq_true. intros [? E]. split; [done|].
    pose proof (demo_ok c) as Hc. rewrite <- E in Hc. done.
  - apply assign_b_ok.
  - rewrite andb_true_iff. intros [? ?]. split; [by apply assigns_b_ok|by apply kws_b_ok].
  - rewrite !andb_true_iff, !bool_decide_eq_true. intros [[? ?] ?]. split_and!; try done. by apply assigns_b_ok.
  - done.
  - done.
  - by rewrite bool_decide_eq_true.
  - apply unref_b_ok.
Qed.
Lemma valid_b_ok l : ∀ used g, valid_b used l g = true → valid_from demo used l g.
Proof.
  induction l as [|a l IH]; intros used g H; [done|].
  apply andb_true_iff in H as [H1 H2]. split; [by apply op_b_ok|by apply IH].
Qed.

(** Independence by a closed set of objects. *)
Definition closed_b (g : graph) (X : gset oid) : bool :=
  forallb (λ oc : oid * core demo,
    negb (bool_decide (oc.1 ∈ X)) ||
    forallb (λ kv : name * aval demo, match kv.2 with ARef p => bool_decide (p ∈ X) | _ => true end)
      (map_to_list (c_attr demo oc.2))) (map_to_list g).
Lemma closed_b_ok g X o p : closed_b g X = true → o ∈ X → p ∉ X → ¬ dep demo g o p.
Proof.
  intros H Ho Hp Hd. apply Hp. clear Hp. induction Hd as [|x y z (k & c & Hc & _ & _ & Hk) _ IH]; [done|].
  apply IH. apply forallb_forall with (x := (x, c)) in H; [|by apply elem_of_list_In, elem_of_map_to_list].
  apply orb_true_iff in H as [H|H].
  { apply negb_true_iff, bool_decide_eq_false in H. done. }
  apply forallb_forall with (x := (k, ARef y)) in H; [|by apply elem_of_list_In, elem_of_map_to_list].
  simpl in H. by apply bool_decide_eq_true in H.
Qed.

Definition some_b {A} (m : option A) : bool := match m with Some _ => true | None => false end.
Lemma some_b_ok {A} (m : option A) : some_b m = true → is_Some m.
Proof. destruct m; [eauto|done]. Qed.
Definition not_view_b (g : graph) (w : oid) : bool :=
  match g !! w with Some c => negb (is_permute demo (c_cls demo c)) | None => false end.
Lemma not_view_b_ok g w : not_view_b g w = true → not_view demo g w.
Proof.
  unfold not_view_b, not_view. destruct (g !! w) as [c|]; [|done].
  intros H. exists c. split; [done|]. by apply negb_true_iff.
Qed.
Definition child_at (g : graph) (x : oid) (d : name) : option oid :=
  match g !! x with
  | Some c => match c_attr demo c !! d with Some (ARef p) => Some p | _ => None end
  | None => None
  end.
Lemma child_at_ok g x d a : edge demo g x d a → child_at g x d = Some a.
Proof. intros (c & Hc & _ & _ & Hk). unfold child_at. by rewrite Hc, Hk. Qed.

(* ------------------------------------------------------------------ *)
(** A history: x and y are variables, s = x + y, t = s * x, u = y * y;
    values are read, a variable is changed, a batch is assigned. *)
Notation new o c := (ONew demo o c (sig c).1 (sig c).2).
Definition val (v : vec) : aval demo := @AVal demo v.
Definition ref (o : oid) : aval demo := @ARef demo o.

Definition build : list (op demo) :=
  [new 1 KBase; OSet demo 1 "x" (val [3; 4]%Z) 101;
   new 2 KBase; OSet demo 2 "x" (val [5; 6]%Z) 102;
   new 3 KAdd; OSetKw demo 3 [("a"%string, ref 1, 103); ("b"%string, ref 2, 104)];
   new 4 KMul; OSetKw demo 4 [("a"%string, ref 3, 105); ("b"%string, ref 1, 106)];
   new 5 KMul; OSetKw demo 5 [("a"%string, ref 2, 107); ("b"%string, ref 2, 108)]].
Definition use : list (op demo) :=
  [ORead demo 9 4 QR; OReadDr demo 9 4 1; OSet demo 1 "x" (val [1; 1]%Z) 109;
   ORead demo 9 5 QR; OBatch demo 7 [(1, "x"%string, val [2; 2]%Z, 110); (2, "x"%string, val [0; 1]%Z, 111)]].

Example demo_valid : valid demo (build ++ use).
Proof. apply valid_b_ok. vm_compute. reflexivity. Qed.
Example demo_value : (read demo 9 4 QR (exec demo (build ++ use) (init demo))).2 = Some [4; 6]%Z.
Proof. vm_compute. reflexivity. Qed.
Example demo_dr_value : (read_dr demo 9 4 1 (exec demo (build ++ use) (init demo))).2 = Some (Some [[4; 0]; [0; 5]]%Z).
Proof. vm_compute. reflexivity. Qed.

(** Events with their name sets as lists. *)
Inductive shown := Changed (x : oid) (ks : list name) | Computed (x : oid) | Dr (x w : oid) | Prop_ (x : oid) (k : name).
Definition show_event (e : event) : shown :=
  match e with
  | EvChanged x ks => Changed x (elements ks)
  | EvCompute x => Computed x
  | EvDr x w => Dr x w
  | EvProp x k => Prop_ x k
  end.
