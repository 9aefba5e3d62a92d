(** clear_cache_wrt: counterexamples and examples over the library of EngineDemo.v. *)
From stdpp Require Import gmap strings list relations.
From Verif Require Import EngineModel EngineSpec EngineEval EngineDemo EngineRefute ForgetModel ForgetSpec.

Notation xfinal l := (xexec demo l (init demo)).

(** y = x*x; dy/dx is read, forgotten, and read again. *)
Definition square : list (op demo) :=
  [new 1 KBase; OSet demo 1 "x" (val [3]%Z) 101;
   new 2 KMul; OSetKw demo 2 [("a"%string, ref 1, 102); ("b"%string, ref 1, 103)]].
Definition forget_square : list (xop demo) :=
  (XOp demo <$> square) ++ [XOp demo (OReadDr demo 9 2 1); XForget demo 9 2 1].

Lemma forgotten_wrong : ∃ (L : lib) l o w j, lib_ok L ∧ valid L (plain_ops L l) ∧
  not_view L (gexec L (plain_ops L l) ∅) w ∧
  reads_dr L (xexec L l (init L)) o w None ∧
  dr_denotes L (gexec L (plain_ops L l) ∅) o w (Some j).
Proof.
  exists demo, forget_square, 2, 1, ([[6]]%Z : Jac demo). split_and!.
  - exact demo_lib_ok.
  - apply valid_b_ok. vm_compute. reflexivity.
  - apply not_view_b_ok. vm_compute. reflexivity.
  - exists 9. vm_compute. reflexivity.
  - exists 9. vm_compute. reflexivity.
Qed.

(** A derivative through y: z = y + x where y = x*x; only z's own entry is forgotten, and
    y.clear_cache_wrt(x) forgets z's too. *)
Definition chain : list (op demo) :=
  square ++ [new 3 KAdd; OSetKw demo 3 [("a"%string, ref 2, 104); ("b"%string, ref 1, 105)];
             ORead demo 9 3 QR; OReadDr demo 9 3 1].
Definition forget_chain : list (xop demo) := (XOp demo <$> chain) ++ [XForget demo 9 3 2].

(** Checking by computation that objects refer to objects with smaller numbers. *)
Definition below_b (o : oid) (c : core demo) : bool :=
  forallb (λ k, match c_attr demo c !! k with Some (ARef p) => p <? o | _ => true end) (c_dt demo c).
Lemma acyclic_b_ok (g : gmap oid (core demo)) :
  forallb (λ oc, below_b oc.1 oc.2) (map_to_list g) = true → acyclic demo g.
Proof.
  intros H. exists (λ o, o). intros o p (k & c & Hc & _ & Hd & Ha). rewrite forallb_forall in H.
  specialize (H (o, c)). simpl in H. apply elem_of_map_to_list, elem_of_list_In, H in Hc.
  unfold below_b in Hc. rewrite forallb_forall in Hc. specialize (Hc k). apply elem_of_list_In, Hc in Hd.
  rewrite Ha in Hd. by apply Nat.ltb_lt.
Qed.

(** s = x + y is read, s.a's cached derivative is cleared under the number 5, and then x is
    assigned under the number 5. *)
Lemma tagged_stale : ∃ (L : lib) l i m o w s v, lib_ok L ∧ valid L l ∧ assigns_ok L (gexec L l ∅) s ∧
  let st := on_heap L (λ h, batch L i s (clear_wrt L m (Some i) w o h).1) (exec L l (init L)) in
  let g := gexec L (l ++ [OBatch L i s]) ∅ in
  valid L (l ++ [OBatch L i s]) ∧
  (clear_wrt L m (Some i) w o (st_h L (exec L l (init L)))).2 = true ∧
  ∃ x, reads L st x QR v ∧ ¬ denotes L g x QR v.
Proof.
  exists demo, (two ++ [ORead demo 9 3 QR]), 5%Z, 9, 1, 1, [(1, "x"%string, val [10]%Z, 105)], ([3]%Z : Arr demo).
  split_and!.
  - exact demo_lib_ok.
  - apply valid_b_ok. vm_compute. reflexivity.
  - apply assigns_b_ok. vm_compute. reflexivity.
  - intros st g. split_and!.
    + apply valid_b_ok. vm_compute. reflexivity.
    + vm_compute. reflexivity.
    + exists 3. split.
      * exists 9. vm_compute. reflexivity.
      * intros H. assert (H' : denotes demo g 3 QR [12]%Z) by (exists 9; vm_compute; reflexivity).
        pose proof (denotes_det demo _ _ _ _ _ H H') as E. discriminate E.
Qed.
