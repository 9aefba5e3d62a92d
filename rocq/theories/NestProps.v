(** Property C65: an expression hangs on the objects it was built from. *)
From Coq Require Import Reals.
From stdpp Require Import list list_numbers numbers.
From Verif Require Import ArrModel NestModel NestSpec NestThms NestDemo.

(** C65. In programs that do not reassign the operands of concatenations and reshapes, every
    object has the value it has as written, whatever was looked through.  Missing: programs
    that reassign them (C65_assign_refuted). *)
Theorem C65_values_partial n m cs h o y : tidy [] cs → nrun n [] cs = Some h → nval m (written [] cs) o = Some y →
  ∃ z, nval m h o = Some z ∧ aeq y z.
Proof. exact (run_val n m cs h o y). Qed.
Print Assumptions C65_values_partial.
Example C65_values_case : (tidy [] prog ∧ backward 0 prog) ∧
  ∃ h, nrun 9 [] prog = Some h ∧ h !! 4 = Some (NCat 0 [0; 1; 3]) ∧ h !! 6 = Some (NResh [1; -1]%Z 4) ∧
  sh <$> nval 9 (written [] prog) 6 = Some [1; 11] ∧ sh <$> nval 9 h 6 = Some [1; 11].
Proof. exact (conj prog_tidy prog_values). Qed.

(** C65. In these programs every object depends on just what it depends on as written, among
    the objects that are neither concatenations nor reshapes. *)
Theorem C65_depends_partial n cs h e o : tidy [] cs → nrun n [] cs = Some h →
  (∀ x, written [] cs !! o = Some x → ¬ may_be_looked_through x) → hangs (written [] cs) e o ↔ hangs h e o.
Proof. exact (run_hangs n cs h e o). Qed.
Print Assumptions C65_depends_partial.
Example C65_depends_case : ∃ x, written [] prog !! 1 = Some x ∧ ¬ may_be_looked_through x.
Proof. eexists. split; [reflexivity|]. intros []. Qed.

(** C65. The loops that look through operands end. *)
Theorem C65_ends_partial cs : tidy [] cs → backward 0 cs → ∃ n h, nrun n [] cs = Some h.
Proof. intros Ht Hb. refine (run_ends cs [] [] (List.Forall2_nil _) _ Ht Hb). intros e x p Hx. discriminate Hx. Qed.
Print Assumptions C65_ends_partial.
Example C65_ends_case : tidy [] prog ∧ backward 0 prog.
Proof. exact prog_tidy. Qed.

(* ------------------------------------------------------------------ *)
(** C65 is false when an operand of the operand is reassigned: inner.m0 = z and a.a = y show
    in inner and a, but not in what was built from them. *)
Theorem C65_assign_refuted : (∃ h, nrun 9 [] cat_assign = Some h ∧
    sh <$> nval 9 h 3 = Some [7] ∧ sh <$> nval 9 h 4 = Some [8] ∧ sh <$> nval 9 (written [] cat_assign) 4 = Some [10]) ∧
  ∃ h, nrun 9 [] resh_assign = Some h ∧
    sh <$> nval 9 h 2 = Some [3; 1] ∧ sh <$> nval 9 h 3 = Some [2] ∧ sh <$> nval 9 (written [] resh_assign) 3 = Some [3].
Proof. exact (conj cat_assign_values resh_assign_values). Qed.
Print Assumptions C65_assign_refuted.

(** C65 is false for derivatives with respect to the operand itself: concatenate((inner, y))
    does not depend on inner, nor a.ravel() on a = x.reshape((-1, 1)). *)
Theorem C65_operand_refuted :
  (tidy [] cat_only ∧ ∃ h, nrun 9 [] cat_only = Some h ∧ hangs (written [] cat_only) 3 2 ∧ ¬ hangs h 3 2) ∧
  tidy [] resh_only ∧ ∃ h, nrun 9 [] resh_only = Some h ∧ hangs (written [] resh_only) 2 1 ∧ ¬ hangs h 2 1.
Proof. exact (conj cat_lost resh_lost). Qed.
Print Assumptions C65_operand_refuted.
