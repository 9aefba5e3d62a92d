(** When an operation's local Jacobians are right, stated on arrays. *)
From Coq Require Import Reals.
From stdpp Require Import gmap strings list list_numbers.
From Verif Require Import EngineModel EngineSpec GraphSpec ArrModel Curve NpModel AdSpec.

(** Arrays as vectors, sparse matrices as linear maps. *)
Definition np_sem : real_sem nplib := {| vec := (elem : Arr nplib → nat → R); shape := (sh : Arr nplib → list nat); act := (mact : Jac nplib → (nat → R) → nat → R) |}.

(** Well-formed operations: a Permute keeps its operand in the dterm a. *)
Definition op_wf (p : npop) : Prop := NoDup (np_dt p) ∧ (np_perm p = true → "a"%string ∈ np_dt p).

(** [p], with terms [tms], operands [ps] (objects) of values [vs]: when the operands
    move, the result moves with the velocity the Jacobians predict; the Jacobian asked
    for an object accounts for all operands that are this object. *)
Definition jact' (j : option spm) (v : nat → R) (i : nat) : R := match j with Some j => mact j v i | None => 0%R end.
Definition op_right (p : npop) (tms : list (option nval)) (ps : list oid) (vs : list (arr R)) : Prop :=
  ∃ J : oid → option spm,
    (∀ q, q ∈ ps → np_jac p tms vs ((λ r, bool_decide (r = q)) <$> ps) = Some (J q)) ∧
    ∀ (rho : oid → R → arr R) (V : oid → nat → R),
      (λ q, rho q 0%R) <$> ps = vs → (∀ q, q ∈ ps → amoves (rho q) (V q)) →
      ∃ y, near (λ t, np_r p tms ((λ q, rho q t) <$> ps) = Some (y t)) ∧
           amoves y (λ i, sumR ((λ q, jact' (J q) (V q) i) <$> remove_dups ps)).

Notation graph := (gmap oid (core nplib)).
(** [x] is a basic object holding an array, or an operation whose local Jacobians are
    right where it is; if it returns None for an operand, this is not a reordering view. *)
Definition fine_at (g : graph) (x : oid) : Prop :=
  ∃ c, g !! x = Some c ∧
  match c_cls nplib c with
  | NBase => ∃ a, c_attr nplib c !! "x"%string = Some (@AVal nplib (NArr a)) ∧ c_dt nplib c = ["x"%string]
  | NOp p => c_dt nplib c = np_dt p ∧ c_tm nplib c = np_tm p ∧ ∃ ps vs,
      Forall2 (λ k q, c_attr nplib c !! k = Some (@ARef nplib q)) (np_dt p) ps ∧
      Forall2 (λ q v, denotes nplib g q QR v) ps vs ∧ NoDup (np_dt p) ∧
      op_right p (terms_of p (plain nplib c)) ps vs ∧
      ∀ q, q ∈ ps → np_jac p (terms_of p (plain nplib c)) vs ((λ r, bool_decide (r = q)) <$> ps) = Some None → not_view nplib g q
  end.
(** No reordering views. *)
Definition no_views (g : graph) : Prop := ∀ x c, g !! x = Some c → is_permute nplib (c_cls nplib c) = false.
