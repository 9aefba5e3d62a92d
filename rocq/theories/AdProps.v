(** Properties C19 and C20: dr_wrt and the Jacobian. *)
From Coq Require Import Reals Lra.
From stdpp Require Import gmap strings list list_numbers relations.
From Verif Require Import EngineModel EngineSpec GraphSpec RevModel RevSpec ArrModel Curve AdSpec AdHist ElemModel ElemSpec
  NpModel NpSpec NpThms NpDemo.

(* ------------------------------------------------------------------ *)
(** C19. For any history of any library: give the basic object w values along a curve.
    If the local Jacobians are right at every object below o, and no object other than
    w is two operands of one of them, then o.r moves with the velocity that o.dr_wrt(w),
    read before, predicts. *)
Theorem C19_dr_wrt_is_jacobian (L : lib) (M : real_sem L) l :
  lib_ok L → valid L l → sem_ok M → local_derivatives L → ∀ o w c (vals : R → Val L) o' gam v j,
  gexec L l ∅ !! w = Some c → is_base L (c_cls L c) = true → o' ∉ dom (gexec L l ∅) →
  near (λ t, reads L (exec L (l ++ [OSet L w "x" (AVal (vals t)) o']) (init L)) w QR (gam t)) →
  reads L (exec L l (init L)) w QR (gam 0%R) → moves M gam v → o ≠ w →
  (∀ x, rtc (points L (gexec L l ∅)) o x → x ≠ w →
     right_at M (gexec L l ∅) x ∧ no_repeat (gexec L l ∅) w x) →
  reads_dr L (exec L l (init L)) o w j →
  ∃ y, reads L (exec L l (init L)) o QR (y 0%R) ∧
    near (λ t, reads L (exec L (l ++ [OSet L w "x" (AVal (vals t)) o']) (init L)) o QR (y t)) ∧
    moves M y (jact M j v).
Proof. exact (hist_jacobian M l). Qed.
Print Assumptions C19_dr_wrt_is_jacobian.

(** C19. For w any object that is not a reordering view, composite ones included: o.r as
    a function of the value of w. *)
Theorem C19_dr_wrt_intermediate (L : lib) (M : real_sem L) l :
  lib_ok L → valid L l → sem_ok M → local_derivatives L → ∀ o w gam v j,
  not_view L (gexec L l ∅) w → reads L (exec L l (init L)) w QR (gam 0%R) → moves M gam v → o ≠ w →
  (∀ x, rtc (points L (gexec L l ∅)) o x → x ≠ w →
     right_at M (gexec L l ∅) x ∧ no_repeat (gexec L l ∅) w x) →
  reads_dr L (exec L l (init L)) o w j →
  ∃ y, reads L (exec L l (init L)) o QR (y 0%R) ∧
    near (λ t, denotes_env (only w (gam t)) (gexec L l ∅) o (y t)) ∧ moves M y (jact M j v).
Proof. exact (hist_chain_rule M l). Qed.
Print Assumptions C19_dr_wrt_intermediate.

(** C19, over arrays of real numbers: local Jacobians are those of the operations on
    arrays. *)
Theorem C19_dr_wrt_is_jacobian_arrays l : valid nplib l → ∀ o w c o' gam v j,
  attrs l !! w = Some c → c_cls nplib c = NBase → c_attr nplib c !! "x"%string = Some (narr (gam 0%R)) →
  o' ∉ dom (attrs l) → amoves gam v → o ≠ w →
  (∀ x, rtc (points nplib (attrs l)) o x → x ≠ w → fine_at (attrs l) x ∧ no_repeat (attrs l) w x) →
  reads_dr nplib (after l) o w j →
  ∃ y, reads nplib (after l) o QR (y 0%R) ∧
    near (λ t, reads nplib (after (l ++ [OSet nplib w "x" (narr (gam t)) o'])) o QR (y t)) ∧ amoves y (jact' j v).
Proof. exact (np_jacobian l). Qed.
Print Assumptions C19_dr_wrt_is_jacobian_arrays.

(** The elementwise operations are right wherever they are differentiable. *)
Theorem C19_unary_is_right f q a tms : unary_shape (sh a) → (∀ i, i < asize a → u_dom f (dat a i)) →
  op_right (op_unary f) tms [q] [a].
Proof. exact (unary_op_right f q a tms). Qed.
Print Assumptions C19_unary_is_right.
Theorem C19_binary_is_right f p q a b tms out : bshape (sh a) (sh b) = Some out → meet b_dom f a b →
  (p = q → a = b) → op_right (op_binary f) tms [p; q] [a; b].
Proof. exact (binary_op_right f p q a b tms out). Qed.
Print Assumptions C19_binary_is_right.

(** z = x ** 2 * x at (1, 2): all hypotheses hold, and the derivative in direction
    (1, 1) is (3, 12). *)
Example C19_case : valid nplib (cube a12) ∧
  (∃ c, attrs (cube a12) !! 1 = Some c ∧ c_cls nplib c = NBase ∧
    c_attr nplib c !! "x"%string = Some (narr a12) ∧ is_base nplib (c_cls nplib c) = true ∧
    not_view nplib (attrs (cube a12)) 1) ∧
  lib_ok nplib ∧ sem_ok np_sem ∧ local_derivatives nplib ∧
  amoves (λ t, amap (λ x, x + t)%R a12) (λ i, if decide (i < 2) then 1%R else 0%R) ∧
  (∀ x, rtc (points nplib (attrs (cube a12))) 3 x → x ≠ 1 →
     fine_at (attrs (cube a12)) x ∧ right_at np_sem (attrs (cube a12)) x ∧ no_repeat (attrs (cube a12)) 1 x) ∧
  ∃ j, reads_dr nplib (after (cube a12)) 3 1 (Some j) ∧
    mact j (λ i, if decide (i < 2) then 1%R else 0%R) 0 = 3%R ∧ mact j (λ i, if decide (i < 2) then 1%R else 0%R) 1 = 12%R.
Proof.
  split_and!; [apply cube_valid| |apply np_lib_ok|apply np_sem_ok|apply np_local|apply shift_moves| |apply cube_dr].
  - eexists. split; [apply cube_1|]. split_and!; [done..|]. eexists. split; [apply cube_1|done].
  - intros x Hx Hne. destruct (cube_fine a12 ltac:(simpl; lia) x Hx Hne) as [H1 H2].
    split_and!; [done|by apply fine_right|done].
Qed.

(* ------------------------------------------------------------------ *)
(** C20. The property is false: with p = -x and t = p + p, all operations right and
    everything as in C19 except that p is two operands of t, the derivative reported is
    not that of t. *)
Theorem C20_shared_operand_refuted : ∃ l o w c o' gam v j, valid nplib l ∧ no_views (attrs l) ∧
  attrs l !! w = Some c ∧ c_cls nplib c = NBase ∧ c_attr nplib c !! "x"%string = Some (narr (gam 0%R)) ∧
  o' ∉ dom (attrs l) ∧ amoves gam v ∧ o ≠ w ∧
  (∀ x, rtc (points nplib (attrs l)) o x → x ≠ w → fine_at (attrs l) x) ∧
  reads_dr nplib (after l) o w j ∧
  ¬ ∃ y, near (λ t, reads nplib (after (l ++ [OSet nplib w "x" (narr (gam t)) o'])) o QR (y t)) ∧ amoves y (jact' j v).
Proof. exact shared_operand. Qed.
Print Assumptions C20_shared_operand_refuted.
