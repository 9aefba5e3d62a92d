(** Counterexamples over the concrete library of EngineDemo.v. *)
From stdpp Require Import gmap strings list relations.
From Verif Require Import EngineModel EngineSpec EngineEval EngineDemo.

Notation final l := (exec demo l (init demo)).

Lemma elem_of_dom_none {A} (m : gmap oid A) x : m !! x = None → x ∉ dom m.
Proof. apply not_elem_of_dom. Qed.

(** y = x*x, w = x[0]; dy/dw is read, then w becomes x[1]. *)
Definition view_hist : list (op demo) :=
  [new 1 KBase; OSet demo 1 "x" (val [1; 2]%Z) 101;
   new 2 KMul; OSetKw demo 2 [("a"%string, ref 1, 102); ("b"%string, ref 1, 103)];
   new 3 KSel; OSetKw demo 3 [("a"%string, ref 1, 104); ("idxs"%string, val [0]%Z, 105)];
   OReadDr demo 9 2 3;
   OSet demo 3 "idxs" (val [1]%Z) 106].

Lemma view_stale : ∃ (L : lib) l m o w j, lib_ok L ∧ valid L l ∧
  (read_dr L m o w (exec L l (init L))).2 = Some j ∧ ¬ dr_denotes L (gexec L l ∅) o w j.
Proof.
  exists demo, view_hist, 9, 2, 3, (Some [[2]; [0]]%Z : option (Jac demo)). split_and!.
  - exact demo_lib_ok.
  - apply valid_b_ok. vm_compute. reflexivity.
  - vm_compute. reflexivity.
  - intros H. assert (H' : dr_denotes demo (gexec demo view_hist ∅) 2 3 (Some [[0]; [4]]%Z)).
    { exists 9. vm_compute. reflexivity. }
    pose proof (dr_denotes_det demo _ _ _ _ _ H H') as E. discriminate E.
Qed.

(** s = x + y; x, then s, then y are assigned/read under the same number. *)
Definition two : list (op demo) :=
  [new 1 KBase; OSet demo 1 "x" (val [1]%Z) 101; new 2 KBase; OSet demo 2 "x" (val [2]%Z) 102;
   new 3 KAdd; OSetKw demo 3 [("a"%string, ref 1, 103); ("b"%string, ref 2, 104)]].

Lemma read_between_stale : ∃ (L : lib) l i s1 m o s2 v, lib_ok L ∧
  valid L (l ++ [OBatch L i s1; ORead L m o QR]) ∧
  assigns_ok L (gexec L (l ++ [OBatch L i s1; ORead L m o QR]) ∅) s2 ∧
  let l' := l ++ [OBatch L i s1; ORead L m o QR; OBatch L i s2] in
  (read L m o QR (exec L l' (init L))).2 = Some v ∧ ¬ denotes L (gexec L l' ∅) o QR v.
Proof.
  exists demo, two, 5%Z, [(1, "x"%string, val [10]%Z, 105)], 9, 3, [(2, "x"%string, val [20]%Z, 106)],
    ([12]%Z : Arr demo). split_and!.
  - exact demo_lib_ok.
  - apply valid_b_ok. vm_compute. reflexivity.
  - apply assigns_b_ok. vm_compute. reflexivity.
  - split; [vm_compute; reflexivity|]. intros H.
    match type of H with denotes _ ?g _ _ _ =>
      assert (H' : denotes demo g 3 QR [30]%Z) by (exists 9; vm_compute; reflexivity) end.
    pose proof (denotes_det demo _ _ _ _ _ H H') as E. discriminate E.
Qed.

(** s.set(a=.., note=..) twice, s read in between; note is no term of s. *)
Lemma untracked_last_stale : ∃ (L : lib) l o kws1 m kws2 v, lib_ok L ∧ valid L l ∧
  assigns_ok L (gexec L l ∅) (kw_sets L o kws1) ∧
  let l1 := l ++ [OSetKw L o kws1; ORead L m o QR] in
  assigns_ok L (gexec L l1 ∅) (kw_sets L o kws2) ∧
  let l2 := l1 ++ [OSetKw L o kws2] in
  (read L m o QR (exec L l2 (init L))).2 = Some v ∧ ¬ denotes L (gexec L l2 ∅) o QR v.
Proof.
  exists demo, two, 3, [("a"%string, val [10]%Z, 105); ("note"%string, val [0]%Z, 106)], 9,
    [("a"%string, val [20]%Z, 107); ("note"%string, val [0]%Z, 108)], ([12]%Z : Arr demo). split_and!.
  - exact demo_lib_ok.
  - apply valid_b_ok. vm_compute. reflexivity.
  - apply assigns_b_ok. vm_compute. reflexivity.
  - split; [apply assigns_b_ok; vm_compute; reflexivity|].
    split; [vm_compute; reflexivity|]. intros H.
    match type of H with denotes _ ?g _ _ _ =>
      assert (H' : denotes demo g 3 QR [22]%Z) by (exists 9; vm_compute; reflexivity) end.
    pose proof (denotes_det demo _ _ _ _ _ H H') as E. discriminate E.
Qed.
