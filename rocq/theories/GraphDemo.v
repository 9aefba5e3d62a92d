(** Checks for examples of graph walks, and the counterexample for replace. *)
From stdpp Require Import gmap strings list relations.
From Verif Require Import EngineModel EngineSpec EngineDemo EngineEval GraphModel GraphSpec.

(** Every reference goes to a smaller id. *)
Definition down_b (g : gmap oid (core demo)) : bool :=
  forallb (λ oc : oid * core demo,
    forallb (λ kv : name * aval demo, match kv.2 with ARef p => bool_decide (p < oc.1) | _ => true end)
      (map_to_list (c_attr demo oc.2))) (map_to_list g).
Lemma down_b_ok g : down_b g = true → acyclic (holds demo g) ∧ acyclic (points demo g).
Proof.
  intros H.
  assert (Hl : ∀ o p, holds demo g o p → p < o).
  { intros o p (c & k & Hc & _ & Hk).
    apply forallb_forall with (x := (o, c)) in H; [|by apply elem_of_list_In, elem_of_map_to_list].
    apply forallb_forall with (x := (k, ARef p)) in H; [|by apply elem_of_list_In, elem_of_map_to_list].
    simpl in H. by apply bool_decide_eq_true in H. }
  assert (Hp : ∀ o p, points demo g o p → p < o).
  { intros o p (c & k & Hc & Hk & Ha). apply Hl. exists c, k. auto. }
  assert (Hgen : ∀ (R : relation oid), (∀ o p, R o p → p < o) → acyclic R).
  { intros R HR x Hx. assert (Ht : ∀ a b, tc R a b → b < a).
    { induction 1 as [a b Hab|a b c Hab _ IH]; [by apply HR|]. specialize (HR _ _ Hab). lia. }
    specialize (Ht _ _ Hx). lia. }
  split; apply Hgen; auto.
Qed.

Definition closed_all_b (g : gmap oid (core demo)) (X : gset oid) : bool :=
  forallb (λ oc : oid * core demo,
    negb (bool_decide (oc.1 ∈ X)) ||
    forallb (λ kv : name * aval demo, match kv.2 with ARef p => bool_decide (p ∈ X) | _ => true end)
      (map_to_list (c_attr demo oc.2))) (map_to_list g).
Lemma closed_all_b_ok g X o p : closed_all_b g X = true → o ∈ X → p ∉ X → ¬ rtc (holds demo g) o p.
Proof.
  intros H Ho Hp Hd. apply Hp. clear Hp. induction Hd as [|x y z (c & k & Hc & _ & Hk) _ IH]; [done|].
  apply IH. apply forallb_forall with (x := (x, c)) in H; [|by apply elem_of_list_In, elem_of_map_to_list].
  apply orb_true_iff in H as [H|H].
  { apply negb_true_iff, bool_decide_eq_false in H. done. }
  apply forallb_forall with (x := (k, ARef y)) in H; [|by apply elem_of_list_In, elem_of_map_to_list].
  simpl in H. by apply bool_decide_eq_true in H.
Qed.

(** o = p + p with p = old * c, and new = old + c: o.replace(old, new) makes new its
    own operand. *)
Definition knot : list (op demo) :=
  [new 1 KBase; OSet demo 1 "x" (val [3]%Z) 101;
   new 2 KBase; OSet demo 2 "x" (val [5]%Z) 102;
   new 3 KMul; OSetKw demo 3 [("a"%string, ref 1, 103); ("b"%string, ref 2, 104)];
   new 4 KAdd; OSetKw demo 4 [("a"%string, ref 1, 105); ("b"%string, ref 2, 106)];
   new 5 KAdd; OSetKw demo 5 [("a"%string, ref 3, 107); ("b"%string, ref 3, 108)]].

Lemma self_operand (g : gmap oid (core demo)) o c : g !! o = Some c → c_cls demo c = KAdd →
  c_attr demo c !! "a"%string = Some (ref o) → ∀ n, eval demo n g o QR = None.
Proof.
  intros Hc Hk Ha. induction n as [|n IH]; [done|]. cbn [eval]. rewrite Hc, Hk.
  change (match answer demo (eval demo n g) o c (RChild "a") with
    | Some v => runp demo (answer demo (eval demo n g) o c)
        (PAsk (RChild "b") (λ v', PRet (zip_with Z.add v v')))
    | None => None end = None).
  unfold answer at 1. rewrite Ha. unfold ref. by rewrite IH.
Qed.
Lemma raises_with (g : gmap oid (core demo)) o c p : g !! o = Some c →
  c_cls demo c = KAdd ∨ c_cls demo c = KMul →
  c_attr demo c !! "a"%string = Some (ref p) → (∀ n, eval demo n g p QR = None) →
  ∀ n, eval demo n g o QR = None.
Proof.
  intros Hc Hk Ha Hp [|n]; [done|]. cbn [eval]. rewrite Hc.
  destruct Hk as [-> | ->]; simpl; rewrite Ha; simpl; by rewrite Hp.
Qed.

Definition attr_is (g : gmap oid (core demo)) (o : oid) (k : cls) (p : oid) : bool :=
  match g !! o with
  | Some c => bool_decide (c_cls demo c = k) && bool_decide ("a"%string ∈ c_dt demo c) &&
              match c_attr demo c !! "a"%string with Some (ARef q) => bool_decide (q = p) | _ => false end
  | None => false
  end.
Lemma attr_is_ok g o k p : attr_is g o k p = true →
  ∃ c, g !! o = Some c ∧ c_cls demo c = k ∧ "a"%string ∈ c_dt demo c ∧
       c_attr demo c !! "a"%string = Some (ref p).
Proof.
  unfold attr_is. destruct (g !! o) as [c|]; [|done]. rewrite !andb_true_iff, !bool_decide_eq_true.
  intros [[Hk Hd] H]. exists c. split_and!; try done.
  destruct (c_attr demo c !! "a"%string) as [[t|q]|]; try done. apply bool_decide_eq_true in H as ->. done.
Qed.

Definition knotted : gmap oid (core demo) :=
  match replace demo 6 200 5 1 4 (gexec demo knot ∅) with Some (g', _) => g' | None => ∅ end.

Lemma replace_knot : ∃ (L : lib) l o old new w g' sets v, lib_ok L ∧ valid L l ∧
  let g := gexec L l ∅ in
  acyclic (holds L g) ∧ o ∈ dom g ∧ new ∈ dom g ∧ w ∉ dom g ∧
  denotes L g o QR v ∧
  replace L (S (size g)) w o old new g = Some (g', sets) ∧
  points L g' new new ∧ ∀ u, ¬ denotes L g' o QR u.
Proof.
  exists demo, knot, 5, 1, 4, 200.
  assert (Hr : ∃ sets, replace demo 6 200 5 1 4 (gexec demo knot ∅) = Some (knotted, sets)).
  { assert (Hb : some_b (replace demo 6 200 5 1 4 (gexec demo knot ∅)) = true) by (vm_compute; reflexivity).
    unfold knotted. destruct (replace demo 6 200 5 1 4 (gexec demo knot ∅)) as [[g' sets]|]; [|done].
    by exists sets. }
  destruct Hr as [sets Hr]. exists knotted, sets, ([30]%Z : Arr demo).
  assert (A4 : attr_is knotted 4 KAdd 4 = true) by (vm_compute; reflexivity).
  assert (A3 : attr_is knotted 3 KMul 4 = true) by (vm_compute; reflexivity).
  assert (A5 : attr_is knotted 5 KAdd 3 = true) by (vm_compute; reflexivity).
  apply attr_is_ok in A3 as (c3 & H3 & K3 & D3 & N3).
  apply attr_is_ok in A4 as (c4 & H4 & K4 & D4 & N4).
  apply attr_is_ok in A5 as (c5 & H5 & K5 & D5 & N5).
  split; [exact demo_lib_ok|]. split; [apply valid_b_ok; vm_compute; reflexivity|]. cbv zeta. split_and!.
  - apply (down_b_ok (gexec demo knot ∅)). vm_compute. reflexivity.
  - apply elem_of_dom, some_b_ok. vm_compute. reflexivity.
  - apply elem_of_dom, some_b_ok. vm_compute. reflexivity.
  - apply not_elem_of_dom. vm_compute. reflexivity.
  - exists 9. vm_compute. reflexivity.
  - assert (Hs : size (gexec demo knot ∅) = 5) by (vm_compute; reflexivity). by rewrite Hs.
  - exists c4, "a"%string. split; [exact H4|]. split; [exact D4|exact N4].
  - intros u [n Hn].
    rewrite (raises_with knotted 5 c5 3) in Hn; [done|done|by left|done|].
    apply (raises_with knotted 3 c3 4); [done|by right|done|].
    by apply (self_operand knotted 4 c4).
Qed.
