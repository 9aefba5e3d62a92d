(** Examples and counterexamples for C17, over the library of EngineDemo.v. *)
From stdpp Require Import gmap strings list relations sorting.
From Verif Require Import EngineModel EngineSpec EngineDemo GraphSpec RevSpec RedunModel RedunSpec.

(* ------------------------------------------------------------------ *)
(** Deciding the hypotheses of a concrete graph by computation. *)
Fixpoint xeqb (e1 e2 : expr demo) : bool :=
  match e1, e2 with
  | XCut _, XCut _ => true
  | XVal _ t1, XVal _ t2 => bool_decide (t1 = t2)
  | XObj _ c1 l1, XObj _ c2 l2 => bool_decide (c1 = c2) &&
     (fix go (l1 l2 : list (name * expr demo)) : bool :=
        match l1, l2 with
        | [], [] => true
        | x1 :: l1', x2 :: l2' => bool_decide (x1.1 = x2.1) && xeqb x1.2 x2.2 && go l1' l2'
        | _, _ => false
        end) l1 l2
  | _, _ => false
  end.
Fixpoint xeqb_refl (e : expr demo) : xeqb e e = true.
Proof.
  destruct e as [|t|c l]; simpl; [done|by apply bool_decide_eq_true|].
  rewrite bool_decide_true by done. simpl. induction l as [|x l IH]; [done|].
  rewrite bool_decide_true by done. rewrite xeqb_refl. exact IH.
Qed.
Lemma twins_xeqb n g p q : twins demo g p q → xeqb (expr_of demo n g p) (expr_of demo n g q) = true.
Proof. intros H. rewrite (H n). apply xeqb_refl. Qed.

Definition nodes (g : gmap oid (core demo)) : list (oid * core demo) := map_to_list g.
Lemma nodes_all (g : gmap oid (core demo)) (P : oid * core demo → bool) o c :
  forallb P (nodes g) = true → g !! o = Some c → P (o, c) = true.
Proof. intros H Hc. eapply forallb_forall in H; [exact H|]. by apply elem_of_list_In, elem_of_map_to_list. Qed.
Definition attrs_of (c : core demo) : list (name * aval demo) := map_to_list (c_attr demo c).
Lemma attrs_all c (P : name * aval demo → bool) k a :
  forallb P (attrs_of c) = true → c_attr demo c !! k = Some a → P (k, a) = true.
Proof. intros H Hc. eapply forallb_forall in H; [exact H|]. by apply elem_of_list_In, elem_of_map_to_list. Qed.

(** Each object has the terms of its class, and holds earlier objects in its dterms. *)
Definition typed_b (g : gmap oid (core demo)) : bool :=
  forallb (λ x, bool_decide ((c_dt demo x.2, c_tm demo x.2) = sig (c_cls demo x.2)) &&
    bool_decide (c_cls demo x.2 ≠ KRecip) &&
    forallb (λ k, match c_attr demo x.2 !! k with Some _ => true | None => false end) (c_dt demo x.2) &&
    forallb (λ y, match y.2 with
                  | AVal _ => true
                  | ARef p => bool_decide (p < x.1) && bool_decide (y.1 ∉ c_tm demo x.2)
                  end) (attrs_of x.2)) (nodes g).
Lemma typed_b_ok g : typed_b g = true → ∀ o c, g !! o = Some c →
  (c_dt demo c, c_tm demo c) = sig (c_cls demo c) ∧ c_cls demo c ≠ KRecip ∧
  (∀ k, k ∈ c_dt demo c → is_Some (c_attr demo c !! k)) ∧
  (∀ k p, c_attr demo c !! k = Some (ARef p) → p < o ∧ k ∉ c_tm demo c).
Proof.
  intros H o c Hc. apply (nodes_all g _ o c H) in Hc. simpl in Hc.
  rewrite !andb_true_iff in Hc. destruct Hc as [[[H1 H2] H3] H4]. apply bool_decide_eq_true in H1, H2.
  split; [done|]. split; [done|]. split.
  - intros k Hk. eapply forallb_forall in H3; [|by apply elem_of_list_In]. simpl in H3.
    destruct (c_attr demo c !! k); [eauto|done].
  - intros k p Hk. apply (attrs_all c _ k _ H4) in Hk. simpl in Hk. apply andb_true_iff in Hk as [Ha Hb].
    apply bool_decide_eq_true in Ha, Hb. done.
Qed.
Section typed.
Context (g : gmap oid (core demo)).
Hypothesis Ht : typed_b g = true.
Lemma typed_uniform : uniform demo g.
Proof.
  intros o c o' c' k Hc Hc' Hcl Hk _. destruct (typed_b_ok g Ht o c Hc) as (E & _).
  destruct (typed_b_ok g Ht o' c' Hc') as (E' & _). rewrite <- Hcl, <- E in E'. injection E' as -> ->. done.
Qed.
Lemma typed_acyclic : acyclic (points demo g).
Proof.
  intros x Hx. assert (H : ∀ a b, tc (points demo g) a b → b < a).
  { induction 1 as [a b (c & k & Hc & _ & Hk)|a b d (c & k & Hc & _ & Hk) _ IH];
      destruct (typed_b_ok g Ht a c Hc) as (_ & _ & _ & H); destruct (H k b Hk); lia. }
  apply H in Hx. lia.
Qed.
Lemma typed_all_set D : D ⊆ dom g → all_set demo g D.
Proof.
  intros HD o Ho. apply HD, elem_of_dom in Ho as [c Hc]. exists c. split; [done|].
  destruct (typed_b_ok g Ht o c Hc) as (_ & _ & H1 & H2). split; [done|]. intros k p Hk Hp.
  by destruct (H2 k p Hp).
Qed.
Lemma typed_same_terms : same_terms demo g.
Proof.
  intros o c o' c' Hc Hc' Htw. specialize (Htw 1). simpl in Htw. rewrite Hc, Hc' in Htw. injection Htw as Hcl _.
  destruct (typed_b_ok g Ht o c Hc) as (E & _). destruct (typed_b_ok g Ht o' c' Hc') as (E' & _).
  rewrite <- Hcl, <- E in E'. by injection E'.
Qed.
Lemma typed_answers : answers_operands demo g.
Proof.
  intros o c ks ts Hc Hb Hks Hdt. destruct (typed_b_ok g Ht o c Hc) as (E & Hr & _).
  simpl in Hb. apply bool_decide_eq_false in Hb. destruct (c_cls demo c) eqn:Ec; try done; simpl in *.
  - destruct ks; [done|]. done.
  - injection E as E _. destruct ks as [|k ks]; [done|]. pose proof (Hdt k ltac:(left)) as Hk. rewrite E in Hk.
    destruct (decide ("a"%string ∈ k :: ks)); [by destruct (decide ("b"%string ∈ k :: ks))|].
    destruct (decide ("b"%string ∈ k :: ks)); [done|]. exfalso.
    apply elem_of_cons in Hk as [->|Hk]; [|apply elem_of_list_singleton in Hk as ->]; set_solver.
  - by destruct ks.
  - by destruct ks.
Qed.
End typed.

Definition no_twin_b (n : nat) (g : gmap oid (core demo)) : bool :=
  forallb (λ x, forallb (λ y1, forallb (λ y2,
    match y1.2, y2.2 with
    | ARef p1, ARef p2 => bool_decide (y1.1 = y2.1) || negb (xeqb (expr_of demo n g p1) (expr_of demo n g p2))
    | _, _ => true
    end) (attrs_of x.2)) (attrs_of x.2)) (nodes g).
Lemma no_twin_b_ok n g : no_twin_b n g = true → no_twin_operands demo g.
Proof.
  intros H o c k1 k2 p1 p2 Hc _ _ H1 H2 Htw. apply (nodes_all g _ o c H) in Hc. simpl in Hc.
  apply (attrs_all c _ k1 _ Hc) in H1. simpl in H1. apply (attrs_all c _ k2 _ H1) in H2. simpl in H2.
  apply orb_true_iff in H2 as [H2|H2]; [by apply bool_decide_eq_true in H2|].
  by rewrite (twins_xeqb n g p1 p2 Htw) in H2.
Qed.
Definition alone_b (n : nat) (g : gmap oid (core demo)) (w : oid) : bool :=
  bool_decide (w ∈ dom g) &&
  forallb (λ x, bool_decide (x.1 = w) || negb (xeqb (expr_of demo n g x.1) (expr_of demo n g w))) (nodes g).
Lemma alone_b_ok n g w : alone_b n g w = true → ∀ q, twins demo g q w → q = w.
Proof.
  intros [Hw H]%andb_true_iff q Hq. apply bool_decide_eq_true, elem_of_dom in Hw as [cw Hw].
  destruct (g !! q) as [c|] eqn:Hc.
  - apply (nodes_all g _ q c H) in Hc. simpl in Hc. apply orb_true_iff in Hc as [Hc|Hc]; [by apply bool_decide_eq_true in Hc|].
    by rewrite (twins_xeqb n g q w Hq) in Hc.
  - specialize (Hq 1). simpl in Hq. by rewrite Hc, Hw in Hq.
Qed.

Definition closed_dom_b (g : gmap oid (core demo)) : bool :=
  forallb (λ x, forallb (λ y, match y.2 with ARef p => bool_decide (p ∈ dom g) | _ => true end) (attrs_of x.2)) (nodes g).
Lemma closed_dom_b_ok g : closed_dom_b g = true → closed_under demo g (dom g).
Proof.
  intros H o p _ (c & k & Hc & _ & Hk). apply (nodes_all _ _ o c H) in Hc. simpl in Hc.
  apply (attrs_all c _ k _ Hc) in Hk. simpl in Hk. by apply bool_decide_eq_true in Hk.
Qed.
Definition sid_b (g : gmap oid (core demo)) (p q : oid) : bool :=
  match g !! p, g !! q with Some c, Some c' => bool_decide (sid demo c = sid demo c') | _, _ => false end.
Lemma sid_b_ok g p q : sid_b g p q = true → twins demo g p q.
Proof.
  unfold sid_b. destruct (g !! p) as [c|] eqn:Hp, (g !! q) as [c'|] eqn:Hq; try done.
  intros E%bool_decide_eq_true [|n]; [done|]. cbn [expr_of]. rewrite Hp, Hq. unfold sid in *.
  injection E as E1 E2. simpl. by rewrite E1, E2.
Qed.

(* ------------------------------------------------------------------ *)
(** y = f + g with f = s(p1), g = s'(p2), where p1 and p2 are both s(x); the values
    have been read. *)
Definition scaled (o a : oid) (c : Z) (i : nat) : list (op demo) :=
  [new o KScale; OSetKw demo o [("a"%string, ref a, i); ("c"%string, val [c], S i)]].
Definition sums (o a b : oid) (i : nat) : list (op demo) :=
  [new o KAdd; OSetKw demo o [("a"%string, ref a, i); ("b"%string, ref b, S i)]].
Definition twice : list (op demo) :=
  [new 1 KBase; OSet demo 1 "x" (val [3; 4]%Z) 101] ++
  scaled 2 1 1 102 ++ scaled 3 1 1 104 ++ scaled 4 2 1 106 ++ scaled 5 3 2 108 ++ sums 6 4 5 110.

Example twice_valid : valid demo twice.
Proof. apply valid_b_ok. vm_compute. reflexivity. Qed.
Example twice_done : (remove_redundancy demo 3 9 6 (exec demo twice (init demo))).2 = Some tt.
Proof. vm_compute. reflexivity. Qed.
(** Its second operand's operand was object 3 and is now object 2. *)
Definition operand (h : gmap oid (node demo)) (o : oid) (k : name) : option oid :=
  match attr_of demo h o k with Some (ARef p) => Some p | _ => None end.
Example twice_before : operand (st_h demo (exec demo twice (init demo))) 5 "a" = Some 3.
Proof. vm_compute. reflexivity. Qed.
Example twice_after :
  operand (st_h demo (remove_redundancy demo 3 9 6 (exec demo twice (init demo))).1) 5 "a" = Some 2.
Proof. vm_compute. reflexivity. Qed.
Example twice_typed : typed_b (gexec demo twice ∅) = true.
Proof. vm_compute. reflexivity. Qed.
Example twice_closed : closed_under demo (gexec demo twice ∅) (dom (gexec demo twice ∅)).
Proof. apply closed_dom_b_ok. vm_compute. reflexivity. Qed.
Example twice_in : 6 ∈ dom (gexec demo twice ∅).
Proof. apply elem_of_dom, some_b_ok. vm_compute. reflexivity. Qed.
Example twice_no_twins : no_twin_operands demo (gexec demo twice ∅).
Proof. apply (no_twin_b_ok 5). vm_compute. reflexivity. Qed.
Example twice_alone : ∀ q, twins demo (gexec demo twice ∅) q 1 → q = 1.
Proof. apply (alone_b_ok 5). vm_compute. reflexivity. Qed.
Example twice_twins : twins demo (gexec demo twice ∅) 2 3.
Proof. apply sid_b_ok. vm_compute. reflexivity. Qed.
Example twice_value : (read demo 9 6 QR (remove_redundancy demo 3 9 6 (exec demo twice (init demo))).1).2 = Some [243; 768]%Z.
Proof. vm_compute. reflexivity. Qed.
Example twice_dr : (read_dr demo 9 6 1 (remove_redundancy demo 3 9 6 (exec demo twice (init demo))).1).2 =
  (read_dr demo 9 6 1 (exec demo twice (init demo))).2.
Proof. vm_compute. reflexivity. Qed.

(* ------------------------------------------------------------------ *)
(** p1 + p2 with twins p1, p2: the derivative doubles. *)
Definition pair : list (op demo) :=
  [new 1 KBase; OSet demo 1 "x" (val [3]%Z) 101] ++ scaled 2 1 1 102 ++ scaled 3 1 1 104 ++ sums 4 2 3 106.
Lemma doubled : ∃ (L : lib) (_ : EqDecision (Cls L)) (_ : EqDecision (Val L)) l r n o w j j',
  lib_ok L ∧ valid L l ∧ uniform L (gexec L l ∅) ∧ acyclic (points L (gexec L l ∅)) ∧
  all_set L (gexec L l ∅) (dom (gexec L l ∅)) ∧ same_terms L (gexec L l ∅) ∧
  answers_operands L (gexec L l ∅) ∧ not_view L (gexec L l ∅) w ∧ (∀ q, twins L (gexec L l ∅) q w → q = w) ∧
  (remove_redundancy L r n o (exec L l (init L))).2 = Some tt ∧
  reads_dr L (exec L l (init L)) o w j ∧
  reads_dr L (remove_redundancy L r n o (exec L l (init L))).1 o w j' ∧ j ≠ j'.
Proof.
  assert (Ht : typed_b (gexec demo pair ∅) = true) by (vm_compute; reflexivity).
  exists demo, _, _, pair, 3, 9, 4, 1, (Some [[12]]%Z), (Some [[24]]%Z). split_and!.
  - apply demo_lib_ok.
  - apply valid_b_ok. vm_compute. reflexivity.
  - by apply typed_uniform.
  - by apply typed_acyclic.
  - by apply typed_all_set.
  - by apply typed_same_terms.
  - by apply typed_answers.
  - apply not_view_b_ok. vm_compute. reflexivity.
  - apply (alone_b_ok 5). vm_compute. reflexivity.
  - vm_compute. reflexivity.
  - exists 9. vm_compute. reflexivity.
  - exists 9. vm_compute. reflexivity.
  - done.
Qed.

(** [twice] again: the object that was merged away is collected (it has no other
    reference), then x is assigned. *)
Lemma lost_link : ∃ (L : lib) (_ : EqDecision (Cls L)) (_ : EqDecision (Val L)) l r n o x X t o' v v',
  lib_ok L ∧ valid L l ∧ uniform L (gexec L l ∅) ∧ acyclic (points L (gexec L l ∅)) ∧
  no_twin_operands L (gexec L l ∅) ∧ (∀ q, twins L (gexec L l ∅) q x → q = x) ∧
  valid L (l ++ [OSet L x "x" (AVal t) o']) ∧
  let st := (remove_redundancy L r n o (exec L l (init L))).1 in
  (remove_redundancy L r n o (exec L l (init L))).2 = Some tt ∧ unreferenced L (cores L (st_h L st)) X ∧
  reads L (exec L (l ++ [OSet L x "x" (AVal t) o']) (init L)) o QR v ∧
  reads L (exec L [OCollect L X; OSet L x "x" (AVal t) o'] st) o QR v' ∧ v ≠ v'.
Proof.
  exists demo, _, _, twice, 3, 9, 6, 1, {[3]}, [1; 1]%Z, 120, [3; 3]%Z, [163; 513]%Z. split_and!.
  - apply demo_lib_ok.
  - apply twice_valid.
  - apply typed_uniform, twice_typed.
  - apply typed_acyclic, twice_typed.
  - apply twice_no_twins.
  - apply twice_alone.
  - apply valid_b_ok. vm_compute. reflexivity.
  - split; [apply twice_done|]. split; [apply unref_b_ok; vm_compute; reflexivity|].
    split; [exists 9; vm_compute; reflexivity|]. split; [exists 9; vm_compute; reflexivity|done].
Qed.

(** Two variables that hold the same array object: only one is left in y = a*b. *)
Definition shared : list (op demo) :=
  [new 1 KBase; OSet demo 1 "x" (val [3]%Z) 101; new 2 KBase; OSet demo 2 "x" (val [3]%Z) 102;
   new 3 KMul; OSetKw demo 3 [("a"%string, ref 1, 103); ("b"%string, ref 2, 104)]].
Lemma lost_variable : ∃ (L : lib) (_ : EqDecision (Cls L)) (_ : EqDecision (Val L)) l r n o x t o' v v',
  lib_ok L ∧ valid L l ∧ uniform L (gexec L l ∅) ∧ acyclic (points L (gexec L l ∅)) ∧
  valid L (l ++ [OSet L x "x" (AVal t) o']) ∧
  let st := (remove_redundancy L r n o (exec L l (init L))).1 in
  (remove_redundancy L r n o (exec L l (init L))).2 = Some tt ∧
  reads L (exec L (l ++ [OSet L x "x" (AVal t) o']) (init L)) o QR v ∧
  reads L (exec L [OSet L x "x" (AVal t) o'] st) o QR v' ∧ v ≠ v'.
Proof.
  assert (Ht : typed_b (gexec demo shared ∅) = true) by (vm_compute; reflexivity).
  exists demo, _, _, shared, 3, 9, 3, 2, [5]%Z, 120, [15]%Z, [9]%Z. split_and!.
  - apply demo_lib_ok.
  - apply valid_b_ok. vm_compute. reflexivity.
  - by apply typed_uniform.
  - by apply typed_acyclic.
  - apply valid_b_ok. vm_compute. reflexivity.
  - split; [vm_compute; reflexivity|].
    split; [exists 9; vm_compute; reflexivity|]. split; [exists 9; vm_compute; reflexivity|done].
Qed.
