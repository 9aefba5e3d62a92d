(** What the minimizer may rely on. *)
From Flocq Require Import Core IEEE754.BinarySingleNaN.
From stdpp Require Import list numbers.
From Verif Require Import Dog64 BridgeModel.

(** equal as finite numbers (0 and -0 are) *)
Definition numeq (x y : b64) : Prop := is_finite x = true ∧ is_finite y = true ∧ B2R x = B2R y.
(** values [xs] for the variables [w] that are, in order, the vector [vs] *)
Definition vector_of (w : list var) (xs : list (list b64)) (vs : list b64) : Prop :=
  length <$> xs = (length ∘ v_val) <$> w ∧ Forall2 numeq (concat xs) vs.
Definition values (s : bridge) : list (list b64) := v_val <$> vars s.
Definition finite (a : list b64) : Prop := ∀ x, x ∈ a → is_finite x = true.
(** variables of their own, with finite elements *)
Definition proper (w : list var) : Prop := ∀ v, v ∈ w → v_kind v = Own ∧ v_val v ≠ [] ∧ finite (v_val v).
(** a vector for these variables *)
Definition fitting (w : list var) (a : list b64) : Prop := length a = length (concat (v_val <$> w)) ∧ finite a.
(** The minimizer asks at fitting vectors, and leaves alone the arrays it got and those
    where it asked for a gradient. *)
Fixpoint polite (w : list var) (h : loc → list b64) (lent : list loc) (qs : list request) : Prop :=
  match qs with
  | [] => True
  | Write l a :: qs => (∃ n, l = Theirs n) ∧ l ∉ lent ∧ polite w (put h l a) lent qs
  | Jac l :: qs => (∃ n, l = Theirs n) ∧ fitting w (h l) ∧ polite w h (l :: lent) qs
  | Fun l :: qs | Hess l :: qs | Answer l :: qs => (∃ n, l = Theirs n) ∧ fitting w (h l) ∧ polite w h lent qs
  end.
