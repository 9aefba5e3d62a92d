(** Property C22: differentiating with respect to a slice. *)
From stdpp Require Import gmap strings list relations.
From Verif Require Import EngineModel EngineSpec EngineDemo Check GraphModel GraphSpec RevModel RevSpec RevThms RevDemo SliceThms.

Notation attrs L l := (gexec L l ∅).

(** C22. s is a view whose operand "a" is the object p, and o neither is p nor
    refers to s anywhere.  The derivative of o with respect to s is the derivative
    with respect to p times the transpose of the view's own Jacobian. [dr_denotes] is
    what an uncached dr_wrt computes. *)
Theorem C22_slice_is_product_partial (L : lib) l : lib_ok L → valid L l → jac_laws L →
  (∀ a b c, jmul L (jadd L a b) c = jadd L (jmul L a c) (jmul L b c)) → local_derivatives L →
  acyclic (points L (attrs L l)) → ∀ o s p cs jw x y,
  attrs L l !! s = Some cs → is_permute L (c_cls L cs) = true → "a"%string ∈ c_dt L cs →
  c_attr L cs !! "a"%string = Some (ARef p) → not_view L (attrs L l) p →
  (∃ k, pdirect L k (attrs L l) s p = Some (Some jw)) →
  o ≠ p → ¬ rtc (points L (attrs L l)) o s →
  dr_denotes L (attrs L l) o s x → dr_denotes L (attrs L l) o p y → x = (λ j, jmul L j (jT L jw)) <$> y.
Proof. exact (hist_slice L l). Qed.
Print Assumptions C22_slice_is_product_partial.

(** Multiplying by the transpose of a selection matrix picks the selected columns. *)
Theorem C22_product_selects_columns : ∀ j idxs i k, Forall (λ q, q < fcols j) idxs → k < length idxs →
  fent (fmul j (fT (sel_mat (fcols j) idxs))) i k = fent j i (nth k idxs 0).
Proof. exact sel_columns. Qed.
Print Assumptions C22_product_selects_columns.
Example C22_columns_case :
  to_mat (fmul (of_mat [[1; 2; 3]; [4; 5; 6]]%Z) (fT (sel_mat 3 [2; 0]))) = [[3; 1]; [6; 4]]%Z.
Proof. vm_compute. reflexivity. Qed.

(** 6 is x\[0\] where x is 1, and 5 is built from x without using 6. *)
Example C22_case : acyclic (points fdemo (attrs fdemo fbuild)) ∧ not_view fdemo (attrs fdemo fbuild) 1 ∧
  sel_of (attrs fdemo fbuild) 6 = Some 1 ∧ ¬ rtc (points fdemo (attrs fdemo fbuild)) 5 6 ∧
  shown (drval fdemo 9 (attrs fdemo fbuild) 5 1) = Some (Some [[30; 0]; [0; 48]]%Z) ∧
  shown (drval fdemo 9 (attrs fdemo fbuild) 5 6) = Some (Some [[30]; [0]]%Z) ∧
  shown (pdirect fdemo 9 (attrs fdemo fbuild) 6 1) = Some (Some [[1; 0]]%Z).
Proof.
  split_and!; [| |vm_compute; reflexivity| |vm_compute; reflexivity..].
  - apply (Check.down_b_ok fdemo). vm_compute. reflexivity.
  - apply (Check.not_view_b_ok fdemo). vm_compute. reflexivity.
  - assert (Hn : ¬ rtc (holds fdemo (attrs fdemo fbuild)) 5 6).
    { apply (Check.closed_all_b_ok fdemo (attrs fdemo fbuild) {[1; 2; 3; 4; 5]} 5 6);
        [vm_compute; reflexivity|apply (bool_decide_unpack _); vm_compute; exact I..]. }
    intros H. apply Hn. clear Hn. revert H. generalize (attrs fdemo fbuild). intros g H.
    eapply rtc_subrel; [|exact H]. intros x y (c & k & Hc & Hk & Ha). exists c, k. auto.
Qed.

(** A slice of a slice: the derivative with respect to the outer one raises although
    the derivative with respect to the inner one exists. *)
Theorem C22_slice_of_slice_refuted : ∃ (L : lib) l o a s j, lib_ok L ∧ valid L l ∧ jac_laws L ∧ local_derivatives L ∧
  (∃ c, attrs L l !! s = Some c ∧ is_permute L (c_cls L c) = true ∧ c_attr L c !! "a"%string = Some (ARef a)) ∧
  dr_denotes L (attrs L l) o a (Some j) ∧ (∀ x, ¬ dr_denotes L (attrs L l) o s x).
Proof. exact nested_raises. Qed.
Print Assumptions C22_slice_of_slice_refuted.
