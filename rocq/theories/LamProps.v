(** C44: ChLambda.  Statements only; proofs are in LamThms.v, LamMake.v and LamDemo.v.
    [lafter L is_lam l] is the state after the calls [l]; its registry says which handle
    stands for which argument of which lambda object.  Full C44 speaks of values and
    derivatives and of every read.  Here: values; classes without @depends_on; assigned
    attributes are terms or dterms; what is read is [safe], that is, does not reach into
    the body of a lambda object past the object itself while it has a new argument.
    C44_inside_refuted shows that this last restriction is needed. *)
From stdpp Require Import gmap strings list relations.
From Verif Require Import EngineModel EngineSpec GraphSpec LamModel LamSpec LamGraph LamThms LamHist LamMake LamDemo.

Notation attrs_l L ls := (lattrs L ls).
Notation reg_l L ls := (ls_reg L ls).

(** After any history, every value read is the value of the expression in which each
    handle stands for the current argument. *)
Theorem C44_value_partial : ∀ (L : lib) is_lam is_handle, lib_ok L → lam_lib_ok L is_lam is_handle →
  ∀ l o v, lvalid L is_lam is_handle l → let ls := lafter L is_lam l in
  safe L (reg_l L ls) (attrs_l L ls) o →
  (reads_l L ls o v ↔ denotes L (substituted L (reg_l L ls) (attrs_l L ls)) o QR v).
Proof. exact lafter_reads. Qed.
Print Assumptions C44_value_partial.
Example C44_value_case : lib_ok klib ∧ lam_lib_ok klib k_lam k_handle ∧ lvalid klib k_lam k_handle l_demo ∧
  safe klib (reg_l klib (lafter klib k_lam l_demo)) (attrs_l klib (lafter klib k_lam l_demo)) 7 ∧
  reads_l klib (lafter klib k_lam l_demo) 7 50%Z.
Proof.
  split; [exact klib_ok|]. split; [exact klam_ok|]. split; [exact l_demo_valid|].
  split; [apply l_demo_safe; repeat constructor|]. exists 20. exact (proj1 (proj2 l_demo_read)).
Qed.

(** The lambda object reads as the body written out by hand over the current arguments. *)
Theorem C44_body_partial : ∀ (L : lib) is_lam is_handle, lib_ok L → lam_lib_ok L is_lam is_handle →
  ∀ l f cf r y R v, lvalid L is_lam is_handle l → let ls := lafter L is_lam l in
  attrs_l L ls !! f = Some cf → is_lam (c_cls L cf) = true →
  c_attr L cf !! "_result"%string = Some (ARef r) →
  written_out L (reg_l L ls) (attrs_l L ls) f R → R r y →
  safe L (reg_l L ls) (attrs_l L ls) f → safe L (reg_l L ls) (attrs_l L ls) y →
  (reads_l L ls f v ↔ reads_l L ls y v).
Proof. exact lambda_reads. Qed.
Print Assumptions C44_body_partial.
(** a*b + a after a has been replaced, against x2*x1 + x2. *)
Example C44_body_case : lvalid klib k_lam k_handle l_demo ∧
  (∃ cf, attrs_l klib (lafter klib k_lam l_demo) !! 7 = Some cf ∧ k_lam (c_cls klib cf) = true ∧
     c_attr klib cf !! "_result"%string = Some (ARef 6)) ∧
  written_out klib (reg_l klib (lafter klib k_lam l_demo)) (attrs_l klib (lafter klib k_lam l_demo)) 7 l_rel ∧
  l_rel 6 9 ∧
  (∀ x, x ∈ [7; 9] → safe klib (reg_l klib (lafter klib k_lam l_demo)) (attrs_l klib (lafter klib k_lam l_demo)) x) ∧
  reads_l klib (lafter klib k_lam l_demo) 7 50%Z ∧ reads_l klib (lafter klib k_lam l_demo) 9 50%Z ∧
  reads_l klib (lafter klib k_lam l_make) 7 15%Z.
Proof.
  split; [exact l_demo_valid|]. split; [exact l_demo_f|]. split; [exact l_demo_written|].
  split; [by left|]. split.
  { intros x [->|[->|Hx%elem_of_nil]%elem_of_cons]%elem_of_cons; [| |done]; apply l_demo_safe; repeat constructor. }
  destruct l_demo_read as (H1 & H2 & H3). split; [exists 20; exact H2|]. split; exists 20; [exact H3|exact H1].
Qed.

(** Making a lambda object: it is made unless attributes form a cycle; it holds the
    initial arguments and the body, and every argument the body can reach is recorded,
    so that the substitution above concerns all of them. *)
Theorem C44_make : ∀ (L : lib) is_lam is_handle, lib_ok L → lam_lib_ok L is_lam is_handle →
  ∀ l c f args result, lvalid L is_lam is_handle l →
  let ls := lafter L is_lam l in let ls' := lstep L is_lam (LMake L c f args result) ls in
  lop_ok L is_lam is_handle (LMake L c f args result) ls →
  (acyclic (points L (attrs_l L ls)) → is_Some (attrs_l L ls' !! f)) ∧
  ∀ cf, attrs_l L ls' !! f = Some cf →
    c_cls L cf = c ∧ c_attr L cf !! "_result"%string = Some (ARef result) ∧
    ∀ k hd, (k, hd) ∈ args → c_attr L cf !! k = gattr L (attrs_l L ls) hd "x"%string ∧
      (rtc (points L (attrs_l L ls)) result hd → reg_l L ls' !! hd = Some (f, k)).
Proof. exact make_binds. Qed.
Print Assumptions C44_make.
Example C44_make_case : lvalid klib k_lam k_handle (l_two ++ [l_other]) ∧
  reg_l klib (lafter klib k_lam (l_two ++ [l_other])) !! 6 = Some (9, "a"%string) ∧
  reg_l klib (lafter klib k_lam (l_two ++ [l_other])) !! 7 = None.
Proof. split; [exact l_two_valid|]. split; vm_compute; reflexivity. Qed.

(** Objects that do not depend on the one assigned to keep their values. *)
Theorem C44_set_independent_partial : ∀ (L : lib) is_lam is_handle, lib_ok L → lam_lib_ok L is_lam is_handle →
  ∀ l o k v o' x u, lvalid L is_lam is_handle l →
  let ls := lafter L is_lam l in let ls' := lstep L is_lam (LSet L o k v o') ls in
  lop_ok L is_lam is_handle (LSet L o k v o') ls → is_Some (attrs_l L ls !! x) →
  ¬ dep L (attrs_l L ls) x o →
  safe L (reg_l L ls) (attrs_l L ls) x → safe L (reg_l L ls') (attrs_l L ls') x →
  (reads_l L ls x u ↔ reads_l L ls' x u).
Proof. exact set_others. Qed.
Print Assumptions C44_set_independent_partial.
Example C44_set_independent_case : lvalid klib k_lam k_handle (l_demo ++ [LSet klib 7 "b" (@ARef klib 0) 100]) ∧
  ¬ dep klib (attrs_l klib (lafter klib k_lam l_demo)) 9 7 ∧
  safe klib (reg_l klib (lafter klib k_lam l_demo)) (attrs_l klib (lafter klib k_lam l_demo)) 9 ∧
  safe klib (reg_l klib (lafter klib k_lam (l_demo ++ [LSet klib 7 "b" (@ARef klib 0) 100])))
    (attrs_l klib (lafter klib k_lam (l_demo ++ [LSet klib 7 "b" (@ARef klib 0) 100]))) 9.
Proof.
  split; [apply lvalidb_ok; vm_compute; reflexivity|]. split; [exact l_demo_apart|].
  split; [apply l_demo_safe; repeat constructor|]. apply safeb_ok. vm_compute. reflexivity.
Qed.

(** Reading one object changes the value of no other, and no attributes except those of
    the handles. *)
Theorem C44_read_independent_partial : ∀ (L : lib) is_lam is_handle, lib_ok L → lam_lib_ok L is_lam is_handle →
  ∀ l n o x u, lvalid L is_lam is_handle l →
  let ls := lafter L is_lam l in let ls' := lstep L is_lam (LRead L n o) ls in
  safe L (reg_l L ls) (attrs_l L ls) o → safe L (reg_l L ls) (attrs_l L ls) x →
  safe L (reg_l L ls') (attrs_l L ls') x ∧ (reads_l L ls x u ↔ reads_l L ls' x u).
Proof. exact read_others. Qed.
Print Assumptions C44_read_independent_partial.
Theorem C44_read_attributes_partial : ∀ (L : lib) is_lam is_handle, lib_ok L → lam_lib_ok L is_lam is_handle →
  ∀ l n o x, lvalid L is_lam is_handle l →
  let ls := lafter L is_lam l in let ls' := lstep L is_lam (LRead L n o) ls in
  safe L (reg_l L ls) (attrs_l L ls) o → reg_l L ls !! x = None → attrs_l L ls' !! x = attrs_l L ls !! x.
Proof. exact read_attrs. Qed.
Print Assumptions C44_read_attributes_partial.
(** In the case above: 7 and 9 are safe; the read of 7 does change the handle 3. *)
Example C44_read_case :
  (∀ x, x ∈ [7; 9] → safe klib (reg_l klib (lafter klib k_lam l_demo)) (attrs_l klib (lafter klib k_lam l_demo)) x) ∧
  reg_l klib (lafter klib k_lam l_demo) !! 9 = None ∧
  gattr klib (attrs_l klib (lafter klib k_lam l_demo)) 3 "x"%string = Some (ARef 0) ∧
  gattr klib (attrs_l klib (lstep klib k_lam (LRead klib 20 7) (lafter klib k_lam l_demo))) 3 "x"%string = Some (ARef 2).
Proof.
  split.
  { intros x [->|[->|Hx%elem_of_nil]%elem_of_cons]%elem_of_cons; [| |done]; apply l_demo_safe; repeat constructor. }
  split_and!; vm_compute; reflexivity.
Qed.

(** Making a lambda object changes no value that could be read before. *)
Theorem C44_make_independent_partial : ∀ (L : lib) is_lam is_handle, lib_ok L → lam_lib_ok L is_lam is_handle →
  ∀ l c f args result x u, lvalid L is_lam is_handle l →
  let ls := lafter L is_lam l in let ls' := lstep L is_lam (LMake L c f args result) ls in
  lop_ok L is_lam is_handle (LMake L c f args result) ls → is_Some (attrs_l L ls !! x) →
  safe L (reg_l L ls) (attrs_l L ls) x →
  safe L (reg_l L ls') (attrs_l L ls') x ∧ (reads_l L ls x u ↔ reads_l L ls' x u).
Proof. exact make_others. Qed.
Print Assumptions C44_make_independent_partial.
Example C44_make_independent_case : lvalid klib k_lam k_handle (l_two ++ [l_other]) ∧
  is_Some (attrs_l klib (lafter klib k_lam l_two) !! 3) ∧
  safe klib (reg_l klib (lafter klib k_lam l_two)) (attrs_l klib (lafter klib k_lam l_two)) 3 ∧
  reads_l klib (lafter klib k_lam (l_two ++ [l_other])) 3 9%Z.
Proof.
  split; [exact l_two_valid|]. split; [exact l_two_old|].
  split; [apply safeb_ok; vm_compute; reflexivity|]. exists 20. vm_compute. reflexivity.
Qed.

(** A condition on attributes alone that makes reads safe: the handle lies in a set of
    objects entered only through the _result of its lambda object. *)
Theorem C44_private : ∀ (L : lib) reg g hd B x,
  private L reg g hd B → x ∉ B → ¬ exposed L reg g hd x.
Proof. exact private_safe. Qed.
Print Assumptions C44_private.
Example C44_private_case :
  private klib (reg_l klib (lafter klib k_lam l_demo)) (attrs_l klib (lafter klib k_lam l_demo)) 3 {[3; 5; 6]} ∧
  7 ∉ ({[3; 5; 6]} : gset oid).
Proof. split; [exact l_demo_private|]. apply (bool_decide_eq_true_1 _). vm_compute. reflexivity. Qed.

(** False: a piece of the body asked for directly is not up to date with the arguments
    of the lambda object; f._result.r differs from f.r. *)
Theorem C44_inside_refuted : ∃ (L : lib) is_lam is_handle l f r u v,
  lib_ok L ∧ lam_lib_ok L is_lam is_handle ∧ lvalid L is_lam is_handle l ∧
  gattr L (attrs_l L (lafter L is_lam l)) f "_result" = Some (ARef r) ∧
  reads_l L (lafter L is_lam l) r u ∧ reads_l L (lafter L is_lam l) f v ∧ u ≠ v.
Proof. exact inside_stale. Qed.
Print Assumptions C44_inside_refuted.

(** False: instances do not influence each other in any way.  terms.append(argname) changes
    a list shared by all lambda objects: making one with an unused argument b turns b
    into a tracked attribute of another, so that assigning it there discards a value that
    was kept before (events: on_changed, recomputation). *)
Theorem C44_terms_refuted : ∃ (L : lib) is_lam is_handle l c f args result o k v o' n,
  lib_ok L ∧ lam_lib_ok L is_lam is_handle ∧
  lvalid L is_lam is_handle (l ++ [LMake L c f args result]) ∧ ¬ dep L (attrs_l L (lafter L is_lam l)) o f ∧
  let more := lexec L is_lam [LSet L o k v o'; LRead L n o] in
  let log ls := st_log L (ls_st L ls) in
  log (more (lafter L is_lam l)) = log (lafter L is_lam l) ∧
  log (more (lafter L is_lam (l ++ [LMake L c f args result]))) ≠ log (lafter L is_lam (l ++ [LMake L c f args result])).
Proof. exact terms_leak. Qed.
Print Assumptions C44_terms_refuted.
