(** Properties C21 and C23: reverse mode, and derivatives without dependence. *)
From stdpp Require Import gmap strings list relations.
From Verif Require Import EngineModel EngineSpec EngineDemo Check GraphModel GraphSpec RevModel RevSpec RevThms RevDemo.

Notation after L l := (exec L l (init L)).
Notation attrs L l := (gexec L l ∅).

(* ------------------------------------------------------------------ *)
(** C21. lop(w, lhs) is lhs times the derivative, and None exactly when the
    derivative is None; w may be any object, views included. When nothing raises it
    succeeds. *)
Theorem C21_lop_is_product (L : lib) l : lib_ok L → valid L l → jac_laws L → ∀ o w lhs,
  (∀ m x j, (lop L m o w lhs (after L l)).2 = Some x → dr_denotes L (attrs L l) o w j → x = jmul L lhs <$> j) ∧
  (smooth L (attrs L l) → acyclic (points L (attrs L l)) → o ∈ dom (attrs L l) → w ∈ dom (attrs L l) →
     ∃ m j, dr_denotes L (attrs L l) o w j ∧ (lop L m o w lhs (after L l)).2 = Some (jmul L lhs <$> j)).
Proof. exact (hist_lop L l). Qed.
Print Assumptions C21_lop_is_product.

(** C21. dr_wrt(reverse_mode=True) is the derivative, and leaves all later results
    as they were, for every w that is not a reordering view. *)
Theorem C21_reverse_mode_partial (L : lib) l : lib_ok L → valid L l → jac_laws L → local_derivatives L → ∀ m o w j,
  not_view L (attrs L l) w → dr_denotes L (attrs L l) o w j →
  (∀ x, (read_dr_rev L m o w (after L l)).2 = Some x → x = j) ∧
  (∀ o' q v, reads L (read_dr_rev L m o w (after L l)).1 o' q v ↔ denotes L (attrs L l) o' q v) ∧
  (∀ o' w' v, not_view L (attrs L l) w' →
     reads_dr L (read_dr_rev L m o w (after L l)).1 o' w' v ↔ dr_denotes L (attrs L l) o' w' v).
Proof. exact (hist_rev L l). Qed.
Print Assumptions C21_reverse_mode_partial.
Example C21_case : lib_ok fdemo ∧ valid fdemo fbuild ∧ jac_laws fdemo ∧ local_derivatives fdemo ∧
  smooth fdemo (attrs fdemo fbuild) ∧ acyclic (points fdemo (attrs fdemo fbuild)) ∧
  not_view fdemo (attrs fdemo fbuild) 1 ∧
  shown (drval fdemo 9 (attrs fdemo fbuild) 5 1) = Some (Some [[30; 0]; [0; 48]]%Z) ∧
  shown (lop fdemo 9 5 1 (of_mat [[1; 2]]%Z) (after fdemo fbuild)).2 = Some (Some [[30; 96]]%Z) ∧
  shown (lop fdemo 9 5 6 (of_mat [[1; 2]]%Z) (after fdemo fbuild)).2 = Some (Some [[30]]%Z) ∧
  shown (read_dr_rev fdemo 9 5 1 (after fdemo fbuild)).2 = Some (Some [[30; 0]; [0; 48]]%Z).
Proof.
  split_and!; [apply fdemo_lib_ok|apply fbuild_valid|apply fdemo_laws|apply fdemo_local| | | |vm_compute; reflexivity..].
  - apply smooth_b_ok. vm_compute. reflexivity.
  - apply (Check.down_b_ok fdemo). vm_compute. reflexivity.
  - apply (Check.not_view_b_ok fdemo). vm_compute. reflexivity.
Qed.

(** With respect to a view, reverse mode loses what lies three objects down:
    is_dr_wrt does not see views. *)
Theorem C21_reverse_mode_view_refuted : ∃ (L : lib) l m o w j, lib_ok L ∧ valid L l ∧ jac_laws L ∧ local_derivatives L ∧
  (read_dr_rev L m o w (after L l)).2 = Some None ∧ dr_denotes L (attrs L l) o w (Some j).
Proof. exact rev_view. Qed.
Print Assumptions C21_reverse_mode_view_refuted.

(* ------------------------------------------------------------------ *)
(** C23. The derivative with respect to something the object does not depend on is
    None... *)
Theorem C23_no_dependence_no_derivative (L : lib) l : lib_ok L → valid L l → local_derivatives L → ∀ o w j,
  not_view L (attrs L l) w → o ≠ w → ¬ tc (points L (attrs L l)) o w → reads_dr L (after L l) o w j → j = None.
Proof. exact (hist_no_dependence L l). Qed.
Print Assumptions C23_no_dependence_no_derivative.
(** ... and is_dr_wrt never denies a derivative that exists. *)
Theorem C23_derivative_implies_is_dr_wrt (L : lib) l : lib_ok L → valid L l → local_derivatives L → ∀ o w j,
  not_view L (attrs L l) w → reads_dr L (after L l) o w (Some j) →
  (tc (points L (attrs L l)) o w ∨ o = w) ∧ ∀ n b, is_dr_wrt L n (attrs L l) o w = Some b → b = true.
Proof. exact (hist_no_phantom L l). Qed.
Print Assumptions C23_derivative_implies_is_dr_wrt.
Example C23_case : not_view fdemo (attrs fdemo fbuild) 2 ∧
  ¬ tc (points fdemo (attrs fdemo fbuild)) 3 2 ∧
  (read_dr fdemo 9 3 2 (after fdemo fbuild)).2 = Some None ∧
  shown (read_dr fdemo 9 5 2 (after fdemo fbuild)).2 = Some (Some [[19; 0]; [0; 28]]%Z).
Proof.
  split_and!; [apply (Check.not_view_b_ok fdemo); vm_compute; reflexivity| |vm_compute; reflexivity..].
  assert (Hn : ¬ rtc (holds fdemo (attrs fdemo fbuild)) 3 2).
  { apply (Check.closed_all_b_ok fdemo (attrs fdemo fbuild) {[3; 1]} 3 2);
      [vm_compute; reflexivity|apply (bool_decide_unpack _); vm_compute; exact I..]. }
  intros H. apply Hn. clear Hn. apply tc_rtc in H. revert H. generalize (attrs fdemo fbuild). intros g H.
  eapply rtc_subrel; [|exact H]. intros x y (c & k & Hc & Hk & Ha). exists c, k. auto.
Qed.
