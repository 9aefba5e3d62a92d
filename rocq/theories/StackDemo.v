(** The optimizer's vector over the concrete library of EngineDemo.v: an instance of
    the hypotheses, and counterexamples. *)
From stdpp Require Import gmap strings list relations.
From Verif Require Import EngineModel EngineSpec EngineHist EngineDemo StackModel StackSpec StackThms.

Notation final l := (exec demo l (init demo)).

Definition demo_arrays : arrays demo := {|
  El := Z;
  is_sel := λ c : Cls demo, bool_decide (c = KSel);
  ravel := λ v : Arr demo, v;
  flat := λ t : Val demo, t;
  refill := λ (_ : Val demo) l, l;
  idx := λ s : Val demo, Z.to_nat <$> s
|}.

Lemma demo_arrays_ok : arrays_ok demo demo_arrays.
Proof.
  split.
  - done.
  - intros c ts t Hb Hx. simpl in Hb. apply bool_decide_eq_true in Hb as ->.
    exists t. split; [|done]. intros ask. simpl in *. change (Val demo) with (list Z) in *. by rewrite Hx.
  - intros c Hs. simpl in *. apply bool_decide_eq_true in Hs as ->. done.
  - intros c ts s u ask Hs Hi Ha Hall. simpl in Hs. apply bool_decide_eq_true in Hs as ->.
    exists (pick u s). simpl in *. rewrite Ha. unfold attr_or. rewrite Hi. split; [done|].
    clear -Hall. induction s as [|j s IH]; [constructor|]. simpl in *.
    apply Forall_cons in Hall as [Hj Hall]. constructor; [|by apply IH].
    destruct (nth_lookup_or_length u (Z.to_nat j) 0%Z); [done|lia].
Qed.

(** Following Selects, computed. *)
Fixpoint look (n : nat) (g : gmap oid (core demo)) (f : oid) : option (nat * oid * list nat) :=
  match n with
  | O => None
  | S n' =>
    match g !! f with
    | None => None
    | Some c =>
      if decide (c_cls demo c = KBase) then
        match c_attr demo c !! "x"%string with
        | Some (AVal t) => Some (0, f, seq 0 (length (t : list Z)))
        | _ => None
        end
      else if decide (c_cls demo c = KSel ∧ c_dt demo c = ["a"%string]) then
        match c_attr demo c !! "a"%string, c_attr demo c !! "idxs"%string with
        | Some (ARef p), Some (AVal s) =>
          match look n' g p with
          | Some (d, a, ix) =>
            match take_at ix (Z.to_nat <$> (s : list Z)) with
            | Some ix' => Some (S d, a, ix')
            | None => None
            end
          | None => None
          end
        | _, _ => None
        end
      else None
    end
  end.

Lemma look_ok n g : ∀ f d a ix, look n g f = Some (d, a, ix) → shows demo demo_arrays g d f a ix.
Proof.
  induction n as [|n IH]; intros f d a ix H; [done|]. simpl in H.
  destruct (g !! f) as [c|] eqn:Hg; [|done]. destruct (decide _) as [Hb|Hb].
  - destruct (c_attr demo c !! "x"%string) as [[t|]|] eqn:Hx; [|done..]. injection H as <- <- <-.
    apply (shows_base demo demo_arrays g f c t); [done| |done]. simpl. by apply bool_decide_eq_true.
  - destruct (decide _) as [[Hs Hdt]|]; [|done].
    destruct (c_attr demo c !! "a"%string) as [[|p]|] eqn:Ha; [done| |done].
    destruct (c_attr demo c !! "idxs"%string) as [[s|]|] eqn:Hi; [|done..].
    destruct (look n g p) as [[[d' a'] ix']|] eqn:El; [|done].
    destruct (take_at ix' _) as [ix2|] eqn:Et; [|done]. injection H as <- <- <-.
    eapply (shows_sel demo demo_arrays g d' f a' p c s); try done.
    + simpl. by apply bool_decide_eq_true.
    + by apply IH.
    + by apply take_at_Forall2.
Qed.

Definition items_b (g : gmap oid (core demo)) (its : list item) : bool :=
  forallb (λ it, bool_decide (look 9 g (i_var it) = Some (i_depth it, i_base it, i_ix it))) its.
Lemma items_b_ok g its : items_b g its = true →
  Forall (λ it, shows demo demo_arrays g (i_depth it) (i_var it) (i_base it) (i_ix it)) its.
Proof.
  intros H. apply list.Forall_forall. intros it Hit. unfold items_b in H. rewrite forallb_forall in H.
  apply elem_of_list_In in Hit. apply H in Hit. apply bool_decide_eq_true in Hit. by eapply look_ok.
Qed.

Definition holds_b (g : gmap oid (core demo)) (X : oid) (v : list Z) : bool :=
  match g !! X with
  | Some c => match c_attr demo c !! "x"%string with
              | Some (AVal t) => bool_decide (c_cls demo c = KBase ∧ (t : list Z) = v)
              | _ => false
              end
  | None => false
  end.
Lemma holds_b_ok g X v : holds_b g X v = true → holds demo demo_arrays g X v.
Proof.
  unfold holds_b. destruct (g !! X) as [c|] eqn:Hg; [|done].
  destruct (c_attr demo c !! "x"%string) as [[t|]|] eqn:Hx; [|done..]. intros H.
  apply bool_decide_eq_true in H as [Hc Ht]. exists c, t. split_and!; try done.
  simpl. by apply bool_decide_eq_true.
Qed.

(** x = [1 2 3 4], s = x[[1,2,3]], t = s[[2,0]], y = [7], z = t*t, a vector object 6
    and the stacked object 7; the free variables are t and y. *)
Definition nested : list (op demo) :=
  [new 1 KBase; OSet demo 1 "x" (val [1; 2; 3; 4]%Z) 101;
   new 2 KSel; OSetKw demo 2 [("a"%string, ref 1, 102); ("idxs"%string, val [1; 2; 3]%Z, 103)];
   new 3 KSel; OSetKw demo 3 [("a"%string, ref 2, 104); ("idxs"%string, val [2; 0]%Z, 105)];
   new 4 KBase; OSet demo 4 "x" (val [7]%Z) 106;
   new 5 KMul; OSetKw demo 5 [("a"%string, ref 3, 107); ("b"%string, ref 3, 108)];
   new 6 KBase; OSet demo 6 "x" (val [4; 2; 7]%Z) 109;
   new 7 KAdd; OSetKw demo 7 [("a"%string, ref 5, 110); ("b"%string, ref 6, 111)];
   ORead demo 9 7 QR; ORead demo 9 1 QR;
   OSet demo 6 "x" (val [10; 20; 30]%Z) 112].
Definition nested_items : list item := [Item 3 2 1 [3; 1]; Item 4 0 4 [0]].

Lemma nested_ok : valid demo nested ∧ items_ok demo demo_arrays (gexec demo nested ∅) 6 nested_items ∧
  holds demo demo_arrays (gexec demo nested ∅) 6 [10; 20; 30]%Z.
Proof.
  split_and!.
  - apply valid_b_ok. vm_compute. reflexivity.
  - split.
    + apply items_b_ok. vm_compute. reflexivity.
    + repeat constructor; set_solver.
    + simpl. repeat constructor; set_solver.
    + simpl. set_solver.
  - apply holds_b_ok. vm_compute. reflexivity.
Qed.

Lemma nested_run :
  let st' := (stacked_changed demo demo_arrays 9 1 7 6 [3; 4] {["x"%string]} (final nested)).1 in
  (read demo 9 1 QR st').2 = Some [1; 20; 3; 10]%Z ∧ (read demo 9 3 QR st').2 = Some [10; 20]%Z ∧
  (read demo 9 4 QR st').2 = Some [30]%Z ∧ (read demo 9 5 QR st').2 = Some [100; 400]%Z.
Proof. vm_compute. done. Qed.

Lemma nested_ready : sync_ready demo demo_arrays (tags_of demo nested ∅)
  (cores demo (st_h demo (final nested))) 9 1 6 nested_items [10; 20; 30]%Z {["x"%string]}.
Proof.
  destruct nested_ok as (H1 & H2 & H3).
  rewrite (proj2 (exec_ok demo nested demo_lib_ok H1)). split; [| |exact H2|exact H3| | |].
  - apply (bool_decide_eq_true_1 _). vm_compute. reflexivity.
  - apply (bool_decide_eq_true_1 _). reflexivity.
  - apply (bool_decide_eq_true_1 _). reflexivity.
  - unfold nested_items. repeat constructor.
  - apply elem_of_singleton. reflexivity.
Qed.

Lemma pair_snd {X Y} (p : X * Y) b : p.2 = b → p = (p.1, b).
Proof. destruct p. simpl. by intros ->. Qed.

Lemma nested_done : stacked_changed demo demo_arrays 9 1 7 6 (i_var <$> nested_items) {["x"%string]} (final nested) =
  ((stacked_changed demo demo_arrays 9 1 7 6 (i_var <$> nested_items) {["x"%string]} (final nested)).1, Some 3).
Proof. apply pair_snd. vm_compute. reflexivity. Qed.

(** Two Selects over one base, with different elements. *)
Definition halves : list (op demo) :=
  [new 1 KBase; OSet demo 1 "x" (val [1; 2]%Z) 101;
   new 2 KSel; OSetKw demo 2 [("a"%string, ref 1, 102); ("idxs"%string, val [0]%Z, 103)];
   new 3 KSel; OSetKw demo 3 [("a"%string, ref 1, 104); ("idxs"%string, val [1]%Z, 105)];
   new 4 KBase; OSet demo 4 "x" (val [10; 20]%Z) 106].

Lemma halves_stale : ∃ (L : lib) (A : arrays L) l n i s X it1 it2 vec st' p v,
  lib_ok L ∧ arrays_ok L A ∧ valid L l ∧ i ∉ tags_of L l ∅ ∧ i ≠ 9999%Z ∧
  let its := [it1; it2] in
  Forall (λ it, shows L A (gexec L l ∅) (i_depth it) (i_var it) (i_base it) (i_ix it)) its ∧
  NoDup (i_var <$> its) ∧ NoDup (i_ix it1 ++ i_ix it2) ∧ X ∉ i_base <$> its ∧
  holds L A (gexec L l ∅) X vec ∧ total its = length vec ∧ Forall (λ it, i_depth it < n) its ∧
  stacked_changed L A n i s X (i_var <$> its) {["x"%string]} (exec L l (init L)) = (st', Some p) ∧
  reads L st' (i_var it2) QR v ∧
  ravel L A v ≠ take (length (i_ix it2)) (drop (length (i_ix it1)) vec).
Proof.
  exists demo, demo_arrays, halves, 9, 1%Z, 9, 4, (Item 2 1 1 [0]), (Item 3 1 1 [1]), [10; 20]%Z.
  exists (stacked_changed demo demo_arrays 9 1 9 4 [2; 3] {["x"%string]} (final halves)).1, 2, [2]%Z. split_and!.
  - exact demo_lib_ok.
  - exact demo_arrays_ok.
  - apply valid_b_ok. vm_compute. reflexivity.
  - simpl. set_solver.
  - done.
  - split; [apply items_b_ok; vm_compute; reflexivity|].
    split; [simpl; repeat constructor; set_solver|]. split; [simpl; repeat constructor; set_solver|].
    split; [simpl; set_solver|]. split; [apply holds_b_ok; vm_compute; reflexivity|].
    split; [done|]. split; [simpl; repeat constructor; lia|].
    split; [apply pair_snd; vm_compute; reflexivity|]. split; [exists 9; vm_compute; reflexivity|]. done.
Qed.

(** One Select that repeats an element. *)
Definition repeated : list (op demo) :=
  [new 1 KBase; OSet demo 1 "x" (val [1; 2]%Z) 101;
   new 2 KSel; OSetKw demo 2 [("a"%string, ref 1, 102); ("idxs"%string, val [0; 0]%Z, 103)];
   new 4 KBase; OSet demo 4 "x" (val [10; 20]%Z) 106].

Lemma repeated_lost : ∃ (L : lib) (A : arrays L) l n i s X it vec st' p v,
  lib_ok L ∧ arrays_ok L A ∧ valid L l ∧ i ∉ tags_of L l ∅ ∧ i ≠ 9999%Z ∧
  shows L A (gexec L l ∅) (i_depth it) (i_var it) (i_base it) (i_ix it) ∧ X ≠ i_base it ∧
  holds L A (gexec L l ∅) X vec ∧ length (i_ix it) = length vec ∧ i_depth it < n ∧
  stacked_changed L A n i s X [i_var it] {["x"%string]} (exec L l (init L)) = (st', Some p) ∧
  reads L st' (i_var it) QR v ∧ ravel L A v ≠ vec.
Proof.
  exists demo, demo_arrays, repeated, 9, 1%Z, 9, 4, (Item 2 1 1 [0; 0]), [10; 20]%Z.
  exists (stacked_changed demo demo_arrays 9 1 9 4 [2] {["x"%string]} (final repeated)).1, 2, [20; 20]%Z. split_and!.
  - exact demo_lib_ok.
  - exact demo_arrays_ok.
  - apply valid_b_ok. vm_compute. reflexivity.
  - simpl. set_solver.
  - done.
  - eapply (look_ok 9). vm_compute. reflexivity.
  - done.
  - apply holds_b_ok. vm_compute. reflexivity.
  - done.
  - simpl. lia.
  - apply pair_snd. vm_compute. reflexivity.
  - exists 9. vm_compute. reflexivity.
  - done.
Qed.
