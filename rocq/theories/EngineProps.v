(** Properties C01-C12 and C18 of the object graph.  Each theorem is followed by
    its assumptions and by a concrete case that meets its hypotheses. *)
From stdpp Require Import gmap strings list relations.
From Verif Require Import EngineModel EngineSpec EngineDemo EngineThms EngineRefute.

Notation after L l := (exec L l (init L)).
Notation attrs L l := (gexec L l ∅).

(* ------------------------------------------------------------------ *)
(** C01. After any history the value read is the one recomputed from the current
    attributes, and a read succeeds whenever that recomputation does, with no more
    stack. *)
Theorem C01_values_never_stale (L : lib) l : lib_ok L → valid L l → ∀ m o,
  (∀ v, (read L m o QR (after L l)).2 = Some v → denotes L (attrs L l) o QR v) ∧
  (∀ v, eval L m (attrs L l) o QR = Some v → (read L m o QR (after L l)).2 = Some v).
Proof. intros Hlib Hv m o. exact (hist_read L l Hlib Hv m o QR). Qed.
Print Assumptions C01_values_never_stale.
Example C01_case : lib_ok demo ∧ valid demo (build ++ use) ∧
  eval demo 4 (attrs demo (build ++ use)) 4 QR = Some [4; 6]%Z ∧
  (read demo 9 4 QR (after demo build)).2 = Some [24; 40]%Z.
Proof. split_and!; [exact demo_lib_ok|exact demo_valid|vm_compute; reflexivity..]. Qed.

(** C02. The same for derivatives with respect to any object that is not a
    reordering view. *)
Theorem C02_derivatives_never_stale_partial (L : lib) l : lib_ok L → valid L l →
  ∀ m o w, not_view L (attrs L l) w →
  (∀ j, (read_dr L m o w (after L l)).2 = Some j → dr_denotes L (attrs L l) o w j) ∧
  (∀ j, drval L m (attrs L l) o w = Some j → (read_dr L m o w (after L l)).2 = Some j).
Proof. exact (hist_read_dr L l). Qed.
Print Assumptions C02_derivatives_never_stale_partial.
Example C02_case : valid demo (build ++ use) ∧ not_view demo (attrs demo (build ++ use)) 1 ∧
  drval demo 6 (attrs demo (build ++ use)) 4 1 = Some (Some [[4; 0]; [0; 5]]%Z).
Proof.
  split_and!; [exact demo_valid|apply not_view_b_ok; vm_compute; reflexivity|vm_compute; reflexivity].
Qed.

(** With respect to a view (an indexed variable) it fails: a Jacobian stays cached
    when the view's indices are re-assigned. *)
Theorem C02_view_refuted : ∃ (L : lib) l m o w j, lib_ok L ∧ valid L l ∧
  (read_dr L m o w (after L l)).2 = Some j ∧ ¬ dr_denotes L (attrs L l) o w j.
Proof. exact view_stale. Qed.
Print Assumptions C02_view_refuted.

(* ------------------------------------------------------------------ *)
(** C03. A read changes no attribute and no parent link... *)
Theorem C03_reads_change_no_attribute (L : lib) l a : lib_ok L → is_read L a → valid L (l ++ [a]) →
  ∀ x, option_Forall2 (λ n n', n_core L n' = n_core L n ∧ n_par L n' = n_par L n)
         (st_h L (after L l) !! x) (st_h L (after L (l ++ [a])) !! x).
Proof. exact (read_frame L l a). Qed.
Print Assumptions C03_reads_change_no_attribute.

(** ... and, whatever happens afterwards, no later result. *)
Theorem C03_reads_change_no_result (L : lib) l1 a l2 : lib_ok L → is_read L a → valid L (l1 ++ a :: l2) →
  (∀ o w v, reads L (after L (l1 ++ a :: l2)) o w v ↔ reads L (after L (l1 ++ l2)) o w v) ∧
  (∀ o w j, not_view L (attrs L (l1 ++ l2)) w →
     reads_dr L (after L (l1 ++ a :: l2)) o w j ↔ reads_dr L (after L (l1 ++ l2)) o w j).
Proof. exact (reads_pure L l1 a l2). Qed.
Print Assumptions C03_reads_change_no_result.
Example C03_case : is_read demo (OReadDr demo 9 4 1) ∧
  valid demo ((build ++ [ORead demo 9 4 QR]) ++ OReadDr demo 9 4 1 :: drop 2 use) ∧
  valid demo (build ++ [ORead demo 9 4 QR]).
Proof. split_and!; [done|apply valid_b_ok; vm_compute; reflexivity..]. Qed.

(* ------------------------------------------------------------------ *)
(** C04. An assignment leaves every object that does not depend on the assigned
    one alone: caches, pending notifications, values, derivatives. *)
Theorem C04_assignment_touches_only_dependents (L : lib) l o k v o' :
  lib_ok L → valid L (l ++ [OSet L o k v o']) →
  ∀ x n, st_h L (after L l) !! x = Some n → ¬ dep L (attrs L l) x o →
  (∃ n', st_h L (after L (l ++ [OSet L o k v o'])) !! x = Some n' ∧
     n_r L n' = n_r L n ∧ n_dr L n' = n_dr L n ∧ n_pc L n' = n_pc L n ∧ n_dirty L n' = n_dirty L n) ∧
  (∀ w u, denotes L (attrs L (l ++ [OSet L o k v o'])) x w u ↔ denotes L (attrs L l) x w u) ∧
  (∀ w j, not_view L (attrs L l) w →
     dr_denotes L (attrs L (l ++ [OSet L o k v o'])) x w j ↔ dr_denotes L (attrs L l) x w j).
Proof. exact (hist_untouched L l o k v o'). Qed.
Print Assumptions C04_assignment_touches_only_dependents.
Example C04_case : valid demo ((build ++ use) ++ [OSet demo 1 "x" (val [8; 8]%Z) 200]) ∧
  is_Some (st_h demo (after demo (build ++ use)) !! 5) ∧ ¬ dep demo (attrs demo (build ++ use)) 5 1.
Proof.
  split_and!; [apply valid_b_ok; vm_compute; reflexivity|apply some_b_ok; vm_compute; reflexivity|].
  apply (closed_b_ok _ {[5; 2]}); [vm_compute; reflexivity|set_solver|set_solver].
Qed.

(* ------------------------------------------------------------------ *)
(** C05. Once read, compute_r of an object is not called again while nothing it
    depends on is assigned or cleared; later reads still give the value, at once. *)
Theorem C05_no_recomputation (L : lib) l1 l2 m o v : lib_ok L → valid L (l1 ++ ORead L m o QR :: l2) →
  (read L m o QR (after L l1)).2 = Some v →
  leaves_alone L o l2 (attrs L l1) →
  let st1 := after L (l1 ++ [ORead L m o QR]) in
  let st2 := after L (l1 ++ ORead L m o QR :: l2) in
  EvCompute o ∉ new_events L st1 st2 ∧
  ∀ m', (read L (S m') o QR st2).2 = Some v ∧ ∀ x, EvCompute x ∉ new_events L st2 (read L (S m') o QR st2).1.
Proof. exact (hist_no_recompute L l1 l2 m o v). Qed.
Print Assumptions C05_no_recomputation.

(** In one successful read every method body runs at most once, and only those of
    objects it depends on. *)
Theorem C05_each_body_once (L : lib) l m o w v : lib_ok L → valid L l →
  (read L m o w (after L l)).2 = Some v →
  let evs := new_events L (after L l) (read L m o w (after L l)).1 in
  (∀ x u, body x u ∈ evs → dep L (attrs L l) o x) ∧
  (∀ x u e1 e2, evs = e2 ++ body x u :: e1 → body x u ∉ e1).
Proof. exact (hist_once L l m o w v). Qed.
Print Assumptions C05_each_body_once.
(** 5 does not depend on 1, nor on 4, which is read in between. *)
Example C05_case :
  let l2 := [OSet demo 1 "x" (val [8; 8]%Z) 200; ORead demo 9 4 QR] in
  valid demo (build ++ ORead demo 9 5 QR :: l2) ∧
  (read demo 9 5 QR (after demo build)).2 = Some [25; 36]%Z ∧
  leaves_alone demo 5 l2 (attrs demo build) ∧
  show_event <$> new_events demo (after demo build) (read demo 9 4 QR (after demo build)).1 =
    [Computed 2; Changed 2 ["x"]; Computed 1; Changed 1 ["x"];
     Computed 3; Changed 3 ["b"; "a"]; Computed 4; Changed 4 ["b"; "a"]]%string.
Proof.
  split_and!; [apply valid_b_ok; vm_compute; reflexivity|vm_compute; reflexivity| |vm_compute; reflexivity].
  split; [|done]. split; [|done]. intros _.
  apply (closed_b_ok _ {[5; 2]}); [vm_compute; reflexivity|set_solver|set_solver].
Qed.

(* ------------------------------------------------------------------ *)
(** C06. clear_cache ends on every heap, cyclic or not, within one more than the
    number of parent links ... *)
Theorem C06_clear_terminates (L : lib) itr h o :
  ∃ h' cnt, clear_run L itr h o = Some (h', cnt) ∧ cnt ≤ 1 + n_links L h.
Proof. exact (clear_total L itr h o). Qed.
Print Assumptions C06_clear_terminates.

(** ... and empties exactly the caches of the object and what depends on it, looking
    at the parents of each of these once. *)
Theorem C06_clear_exact (L : lib) l o : lib_ok L → valid L l → o ∈ dom (attrs L l) →
  let h := st_h L (after L l) in
  ∃ (D : gset oid) h', clear_run L None h o = Some (h', 1 + sum_list_with (n_parents L h) (elements D)) ∧
    (∀ x, x ∈ D ↔ dep L (attrs L l) x o) ∧
    (∀ x n, h !! x = Some n → ∃ n', h' !! x = Some n' ∧
       n_core L n' = n_core L n ∧ n_par L n' = n_par L n ∧
       (x ∈ D → n_r L n' = None ∧ n_dr L n' = ∅) ∧
       (x ∉ D → n_r L n' = n_r L n ∧ n_dr L n' = n_dr L n)).
Proof. exact (hist_clear L l o). Qed.
Print Assumptions C06_clear_exact.
(** Also for a cyclic graph: 3 = 1 + 3. *)
Example C06_case :
  let l := [new 1 KBase; OSet demo 1 "x" (val [3]%Z) 101; new 3 KAdd; OSet demo 3 "a" (ref 1) 102;
            OSet demo 3 "b" (ref 3) 103] in
  valid demo l ∧ is_Some (attrs demo l !! 1) ∧
  snd <$> clear_run demo None (st_h demo (after demo l)) 1 = Some 3.
Proof. split_and!; [apply valid_b_ok; vm_compute; reflexivity|apply some_b_ok; vm_compute; reflexivity|vm_compute; reflexivity]. Qed.

(* ------------------------------------------------------------------ *)
(** C07. A batch of assignments under one fresh iteration number, nothing read in
    between, is as good as the same assignments made one by one: same results, same
    pending notifications. *)
Theorem C07_tagged_batch (L : lib) l i sets : lib_ok L → valid L (l ++ [OBatch L i sets]) →
  let tagged := after L (l ++ [OBatch L i sets]) in
  let plain := after L (l ++ separately L (OBatch L i sets)) in
  (∀ o w v, reads L tagged o w v ↔ reads L plain o w v) ∧
  (∀ o w j, not_view L (attrs L (l ++ [OBatch L i sets])) w → reads_dr L tagged o w j ↔ reads_dr L plain o w j) ∧
  (∀ o d, due_after L (l ++ [OBatch L i sets]) (init L) nothing_due o d ↔
          due_after L (l ++ separately L (OBatch L i sets)) (init L) nothing_due o d).
Proof. intros Hlib Hv. exact (separately_same L l (OBatch L i sets) Hlib Hv I). Qed.
Print Assumptions C07_tagged_batch.
Example C07_case : valid demo ((build ++ take 4 use) ++ drop 4 use).
Proof. exact demo_valid. Qed.

(** Reading between two assignments with the same number breaks it. *)
Theorem C07_read_between_refuted : ∃ (L : lib) l i s1 m o s2 v, lib_ok L ∧
  valid L (l ++ [OBatch L i s1; ORead L m o QR]) ∧
  assigns_ok L (attrs L (l ++ [OBatch L i s1; ORead L m o QR])) s2 ∧
  let l' := l ++ [OBatch L i s1; ORead L m o QR; OBatch L i s2] in
  (read L m o QR (after L l')).2 = Some v ∧ ¬ denotes L (attrs L l') o QR v.
Proof. exact read_between_stale. Qed.
Print Assumptions C07_read_between_refuted.

(* ------------------------------------------------------------------ *)
(** C08. set(k1=v1, ...) is the same as separate assignments ... *)
Theorem C08_set_is_assignments_partial (L : lib) l o kws : lib_ok L → valid L (l ++ [OSetKw L o kws]) →
  let once := after L (l ++ [OSetKw L o kws]) in
  let plain := after L (l ++ separately L (OSetKw L o kws)) in
  (∀ x w v, reads L once x w v ↔ reads L plain x w v) ∧
  (∀ x w j, not_view L (attrs L (l ++ [OSetKw L o kws])) w → reads_dr L once x w j ↔ reads_dr L plain x w j) ∧
  (∀ x d, due_after L (l ++ [OSetKw L o kws]) (init L) nothing_due x d ↔
          due_after L (l ++ separately L (OSetKw L o kws)) (init L) nothing_due x d).
Proof. intros Hlib Hv. exact (separately_same L l (OSetKw L o kws) Hlib Hv I). Qed.
Print Assumptions C08_set_is_assignments_partial.

(** ... in whatever order the keywords are processed. *)
Theorem C08_keyword_order (L : lib) l o kws kws' : lib_ok L → kws ≡ₚ kws' →
  valid L (l ++ [OSetKw L o kws]) → valid L (l ++ [OSetKw L o kws']) → kws_distinct L (attrs L l) o kws →
  (∀ x w v, reads L (after L (l ++ [OSetKw L o kws])) x w v ↔ reads L (after L (l ++ [OSetKw L o kws'])) x w v) ∧
  (∀ x w j, not_view L (attrs L (l ++ [OSetKw L o kws])) w →
     reads_dr L (after L (l ++ [OSetKw L o kws])) x w j ↔ reads_dr L (after L (l ++ [OSetKw L o kws'])) x w j).
Proof. exact (hist_kw_perm L l o kws kws'). Qed.
Print Assumptions C08_keyword_order.
Example C08_case :
  let kws := [("a"%string, val [7; 7]%Z, 301); ("b"%string, ref 5, 302)] in
  valid demo ((build ++ use) ++ [OSetKw demo 4 kws]) ∧
  valid demo ((build ++ use) ++ [OSetKw demo 4 (reverse kws)]) ∧
  kws_distinct demo (attrs demo (build ++ use)) 4 kws.
Proof.
  split_and!; [apply valid_b_ok; vm_compute; reflexivity..|].
  split_and!; [apply some_b_ok; vm_compute; reflexivity| | |].
  - apply (bool_decide_unpack _). vm_compute. exact I.
  - apply (bool_decide_unpack _). vm_compute. exact I.
  - intros x Hx. apply elem_of_dom_none.
    rewrite !elem_of_cons, elem_of_nil in Hx. destruct Hx as [->|[->|[]]]; vm_compute; reflexivity.
Qed.

(** If the keyword processed last is no term (say, a plain attribute), a later
    set() of the same kind leaves stale values. *)
Theorem C08_untracked_last_refuted : ∃ (L : lib) l o kws1 m kws2 v, lib_ok L ∧ valid L l ∧
  assigns_ok L (attrs L l) (kw_sets L o kws1) ∧
  let l1 := l ++ [OSetKw L o kws1; ORead L m o QR] in
  assigns_ok L (attrs L l1) (kw_sets L o kws2) ∧
  let l2 := l1 ++ [OSetKw L o kws2] in
  (read L m o QR (after L l2)).2 = Some v ∧ ¬ denotes L (attrs L l2) o QR v.
Proof. exact untracked_last_stale. Qed.
Print Assumptions C08_untracked_last_refuted.

(* ------------------------------------------------------------------ *)
(** C09. on_changed reports exactly the names due, at most once per read, and before
    compute_r and compute_dr_wrt of the object run. *)
Theorem C09_notifications_exact (L : lib) l a : lib_ok L → is_read L a → valid L (l ++ [a]) →
  let evs := new_events L (after L l) (after L (l ++ [a])) in
  let due := due_after L l (init L) nothing_due in
  (∀ x ks, EvChanged x ks ∈ evs → ks ≠ ∅ ∧ ∀ d, d ∈ ks ↔ due x d) ∧
  (∀ x ks e1 e2, evs = e2 ++ EvChanged x ks :: e1 → ∀ ks', EvChanged x ks' ∉ e1) ∧
  (∀ e x e1 e2, (e = EvCompute x ∨ ∃ w, e = EvDr x w) → evs = e2 ++ e :: e1 →
     ∀ d, due x d → ∃ ks, EvChanged x ks ∈ e1 ∧ d ∈ ks).
Proof. exact (hist_notify L l a). Qed.
Print Assumptions C09_notifications_exact.
Example C09_case : valid demo ((build ++ use) ++ [ORead demo 9 4 QR]) ∧
  show_event <$> new_events demo (after demo (build ++ use)) (after demo ((build ++ use) ++ [ORead demo 9 4 QR])) =
    [Computed 2; Changed 2 ["x"]; Computed 1; Changed 1 ["x"];
     Computed 3; Changed 3 ["b"; "a"]; Computed 4; Changed 4 ["b"; "a"]]%string.
Proof. split; [apply valid_b_ok|]; vm_compute; reflexivity. Qed.

(* ------------------------------------------------------------------ *)
(** C10. @depends_on properties are never stale ... *)
Theorem C10_properties_never_stale (L : lib) l : lib_ok L → valid L l → ∀ m o k,
  (∀ v, (read L m o (QProp k) (after L l)).2 = Some v → denotes L (attrs L l) o (QProp k) v) ∧
  (∀ v, eval L m (attrs L l) o (QProp k) = Some v → (read L m o (QProp k) (after L l)).2 = Some v).
Proof. intros Hlib Hv m o k. exact (hist_read L l Hlib Hv m o (QProp k)). Qed.
Print Assumptions C10_properties_never_stale.

(** ... and are not recomputed while their declared dependencies are left alone. *)
Theorem C10_properties_not_recomputed (L : lib) l1 l2 m o k v c ds : lib_ok L →
  valid L (l1 ++ ORead L m o (QProp k) :: l2) →
  (read L m o (QProp k) (after L l1)).2 = Some v →
  attrs L l1 !! o = Some c → prop_deps L (c_cls L c) !! k = Some ds →
  leaves_inputs_alone L o ds l2 (attrs L l1) →
  let st1 := after L (l1 ++ [ORead L m o (QProp k)]) in
  let st2 := after L (l1 ++ ORead L m o (QProp k) :: l2) in
  EvProp o k ∉ new_events L st1 st2 ∧
  ∀ m', read L (S m') o (QProp k) st2 = (st2, Some v).
Proof. exact (hist_no_recompute_prop L l1 l2 m o k v c ds). Qed.
Print Assumptions C10_properties_not_recomputed.
(** Changing the term c clears the value of 6 but not its property. *)
Example C10_case :
  let l1 := build ++ [new 6 KScale; OSetKw demo 6 [("c"%string, val [3]%Z, 301); ("a"%string, ref 1, 302)]] in
  let l2 := [OSet demo 6 "c" (val [5]%Z) 303] in
  valid demo (l1 ++ ORead demo 9 6 (QProp "sq") :: l2) ∧
  (read demo 9 6 (QProp "sq") (after demo l1)).2 = Some [9; 16]%Z ∧
  (λ c, prop_deps demo (c_cls demo c) !! "sq"%string) <$> (attrs demo l1 !! 6) = Some (Some {["a"%string]}) ∧
  leaves_inputs_alone demo 6 {["a"%string]} l2 (attrs demo l1).
Proof.
  split_and!; [apply valid_b_ok; vm_compute; reflexivity|vm_compute; reflexivity| |].
  - vm_compute. reflexivity.
  - split; [|done]. split; [|done]. intros _ d Hd%elem_of_singleton [[_ E]|(a & Ha%child_at_ok & Hdep)].
    + rewrite Hd in E. discriminate E.
    + subst d. match type of Ha with ?t = _ => let u := eval vm_compute in t in change (u = Some a) in Ha end.
      injection Ha as <-. revert Hdep.
      apply (closed_b_ok _ {[1]}); [vm_compute; reflexivity|set_solver|set_solver].
Qed.

(* ------------------------------------------------------------------ *)
(** C11. q is recorded as a parent of p under exactly the names k with q.k is p. *)
Theorem C11_parent_links_exact (L : lib) l : lib_ok L → valid L l →
  ∀ p n, st_h L (after L l) !! p = Some n →
  (∀ q k, (∃ ks, n_par L n !! q = Some ks ∧ k ∈ ks) ↔ edge L (attrs L l) q k p) ∧
  (∀ q, n_par L n !! q ≠ Some ∅).
Proof. exact (hist_parents L l). Qed.
Print Assumptions C11_parent_links_exact.
(** The same child under two names, one of them re-assigned. *)
Definition shown_parents (n : option (node demo)) : option (list (oid * list name)) :=
  (λ n, (λ p, (p.1, elements p.2)) <$> map_to_list (n_par demo n)) <$> n.
Example C11_case : valid demo (build ++ [OSet demo 5 "a" (ref 1) 301]) ∧
  shown_parents (st_h demo (after demo build) !! 2) = Some [(3, ["b"]); (5, ["b"; "a"])]%string ∧
  shown_parents (st_h demo (after demo (build ++ [OSet demo 5 "a" (ref 1) 301])) !! 2) =
    Some [(3, ["b"]); (5, ["b"])]%string.
Proof. split_and!; [apply valid_b_ok|..]; vm_compute; reflexivity. Qed.

(* ------------------------------------------------------------------ *)
(** C12. Collecting unreferenced objects at any moment is not observable. *)
Theorem C12_collection_transparent (L : lib) l1 X l2 : lib_ok L →
  valid L (l1 ++ OCollect L X :: l2) → valid L (l1 ++ l2) →
  ∀ o, o ∈ dom (attrs L (l1 ++ OCollect L X :: l2)) →
  (∀ w v, reads L (after L (l1 ++ OCollect L X :: l2)) o w v ↔ reads L (after L (l1 ++ l2)) o w v) ∧
  (∀ w j, not_view L (attrs L (l1 ++ OCollect L X :: l2)) w →
     reads_dr L (after L (l1 ++ OCollect L X :: l2)) o w j ↔ reads_dr L (after L (l1 ++ l2)) o w j).
Proof. exact (hist_collect L l1 X l2). Qed.
Print Assumptions C12_collection_transparent.
Example C12_case : valid demo ((build ++ take 3 use) ++ OCollect demo {[4; 3]} :: drop 3 use) ∧
  valid demo ((build ++ take 3 use) ++ drop 3 use) ∧
  5 ∈ dom (attrs demo ((build ++ take 3 use) ++ OCollect demo {[4; 3]} :: drop 3 use)).
Proof.
  split_and!; [apply valid_b_ok; vm_compute; reflexivity|exact demo_valid|].
  apply elem_of_dom, some_b_ok. vm_compute. reflexivity.
Qed.

(* ------------------------------------------------------------------ *)
(** C18. A read that fails keeps only right values, and later results are those of
    the history without it. *)
Theorem C18_failed_read_caches_nothing_wrong (L : lib) l m o : lib_ok L → valid L l →
  (read L m o QR (after L l)).2 = None →
  ∀ x n v, st_h L (read L m o QR (after L l)).1 !! x = Some n → n_r L n = Some v →
    denotes L (attrs L l) x QR v.
Proof. exact (hist_failed_read L l m o). Qed.
Print Assumptions C18_failed_read_caches_nothing_wrong.
Theorem C18_failed_read_leaves_no_trace (L : lib) l1 a l2 : lib_ok L → is_read L a → valid L (l1 ++ a :: l2) →
  ∀ m o v, (read L m o QR (after L (l1 ++ a :: l2))).2 = Some v → denotes L (attrs L (l1 ++ l2)) o QR v.
Proof. exact (failed_read_trace L l1 a l2). Qed.
Print Assumptions C18_failed_read_leaves_no_trace.
(** 6 = 1/x raises at x = 0 after a partial evaluation, then x is repaired. *)
Example C18_case :
  let l1 := build ++ [new 6 KRecip; OSet demo 6 "a" (ref 1) 301; new 7 KAdd;
                      OSetKw demo 7 [("a"%string, ref 5, 302); ("b"%string, ref 6, 303)];
                      OSet demo 1 "x" (val [0; 2]%Z) 304] in
  let l2 := [OSet demo 1 "x" (val [4; 2]%Z) 305] in
  valid demo (l1 ++ ORead demo 9 7 QR :: l2) ∧
  (read demo 9 7 QR (after demo l1)).2 = None ∧
  (read demo 9 7 QR (after demo (l1 ++ ORead demo 9 7 QR :: l2))).2 = Some [28; 42]%Z.
Proof. split_and!; [apply valid_b_ok|..]; vm_compute; reflexivity. Qed.
