(** What callbacks should see. *)
From stdpp Require Import list.
From Verif Require Import Dog64 BridgeModel BridgeSpec CallModel.

(** what the minimizer asks or writes *)
Definition asks (es : list event) : list request := omap (λ e, match e with Ask q => Some q | Announce _ => None end) es.
(** how often it announces a step *)
Fixpoint steps (es : list event) : nat := match es with [] => 0 | Announce _ :: es => S (steps es) | Ask _ :: es => steps es end.
(** a request at the vector in [l] *)
Definition at_vector (q : request) (l : loc) : Prop := q = Fun l ∨ q = Jac l ∨ q = Hess l ∨ q = Answer l.
(** the variables hold the point announced *)
Definition informed (w : list var) (c : call) : Prop := ∃ a, c_arg c = Some a ∧ vector_of w (c_vars c) a.
