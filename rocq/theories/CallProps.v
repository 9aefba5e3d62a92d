(** C74: the user's callback in minimize. *)
From Coq Require Import String.
From Flocq Require Import Core IEEE754.BinarySingleNaN.
From stdpp Require Import list.
From Verif Require Import Dog64 BridgeModel BridgeSpec BridgeThms BridgeDemo CallModel CallSpec CallThms CallDemo.

(** C74. Methods that chumpy does not call back for itself: one call for each step announced by
    scipy, in order, with the vector announced. *)
Theorem C74_once f g (method : string) (s : bridge) (es : list event) : calls_itself method = false →
  let m := calls_itself method in
  length (happens f g m s es).2 = steps es ∧
  ∀ es1 l es2, es = es1 ++ Announce l :: es2 →
    (happens f g m s es).2 !! steps es1 = Some (Call (Some (heap (happens f g m s es1).1 l)) (values (happens f g m s es1).1)).
Proof. intros ->. exact (once f g s es). Qed.
Print Assumptions C74_once.
Example C74_once_case : calls_itself "BFGS" = false ∧ calls_itself "Newton-CG" = false ∧ steps elsewhere = 1.
Proof. done. Qed.

(** C74, where it is true: if since some evaluation of the objective everything was asked at the
    vector that is announced, the free variables hold it.  Missing: announcements of points
    where the minimizer was earlier (below). *)
Theorem C74_announced_partial f g (method : string) h w es1 l es2 k : w ≠ [] → proper w → polite w h [] (asks (es1 ++ Ask (Fun l) :: es2)) →
  let m := calls_itself method in
  let a := heap (happens f g m (fresh_bridge h w) (es1 ++ Ask (Fun l) :: es2)).1 k in
  (∀ i q l', (Ask (Fun l) :: es2) !! i = Some (Ask q) → at_vector q l' → Forall2 numeq (heap (happens f g m (fresh_bridge h w) (es1 ++ take i (Ask (Fun l) :: es2))).1 l') a) →
  ∃ c, (happens f g m (fresh_bridge h w) (es1 ++ Ask (Fun l) :: es2 ++ [Announce k])).2 = (happens f g m (fresh_bridge h w) (es1 ++ Ask (Fun l) :: es2)).2 ++ [c] ∧ c_arg c = Some a ∧ informed w c.
Proof. exact (announced f g (calls_itself method) h w es1 l es2 k). Qed.
Print Assumptions C74_announced_partial.
Example C74_announced_partial_case : proper w1 ∧ polite w1 h12 [] (asks [Ask (Fun (Theirs 1)); Ask (Fun (Theirs 0)); Ask (Jac (Theirs 0))]) ∧
  ∀ i q l', [Ask (Fun (Theirs 0)); Ask (Jac (Theirs 0))] !! i = Some (Ask q) → at_vector q l' →
    Forall2 numeq (heap (happens obj0 grad0 false start12 ([Ask (Fun (Theirs 1))] ++ take i [Ask (Fun (Theirs 0)); Ask (Jac (Theirs 0))])).1 l') (heap (happens obj0 grad0 false start12 [Ask (Fun (Theirs 1)); Ask (Fun (Theirs 0)); Ask (Jac (Theirs 0))]).1 (Theirs 0)).
Proof. split; [exact w1_proper|exact announced_case]. Qed.

(** C74. The calls chumpy makes itself: at most one for each request, made when the variables
    have got the vector asked for and only if they had held another; evaluations of the objective
    at a vector they did not hold are not passed over. *)
Theorem C74_itself_partial f g (method : string) h w es1 q l es2 : calls_itself method = true → w ≠ [] → proper w → polite w h [] (asks (es1 ++ Ask q :: es2)) → at_vector q l →
  let s := (happens f g (calls_itself method) (fresh_bridge h w) es1).1 in
  let cs := (happen f g (calls_itself method) s (Ask q)).2 in
  (cs = [] ∧ (q ≠ Jac l → vector_of w (values s) (heap s l))) ∨
  (∃ xs, cs = [Call None xs] ∧ vector_of w xs (heap s l) ∧ ¬ vector_of w (values s) (heap s l)).
Proof. intros ->. exact (told_spec f g true h w es1 q l es2). Qed.
Print Assumptions C74_itself_partial.
Example C74_itself_partial_case : calls_itself "SLSQP" = true ∧ proper w1 ∧ polite w1 h12 [] (asks [Ask (Fun (Theirs 0)); Ask (Jac (Theirs 0)); Ask (Fun (Theirs 1))]).
Proof. split; [done|]. split; [exact w1_proper|]. apply asks12. repeat constructor; eexists; eauto. Qed.

(** C74 is false: of a method that announces a point other than the last one evaluated, *)
Theorem C74_elsewhere_refuted : ∃ f g h w es l, proper w ∧ polite w h [] (asks es) ∧
  ∃ c, (happens f g (calls_itself "Nelder-Mead") (fresh_bridge h w) (es ++ [Announce l])).2 = [c] ∧ c_arg c = Some (h l) ∧ ¬ informed w c.
Proof. exact elsewhere_refuted. Qed.
Print Assumptions C74_elsewhere_refuted.
(** even if the last thing asked for was the gradient at the point announced, *)
Theorem C74_memo_refuted : ∃ f g h w es l, proper w ∧ polite w h [] (asks (es ++ [Ask (Jac l)])) ∧
  ∃ c, (happens f g (calls_itself "BFGS") (fresh_bridge h w) (es ++ [Ask (Jac l); Announce l])).2 = [c] ∧ c_arg c = Some (h l) ∧ ¬ informed w c.
Proof. exact memo_refuted. Qed.
Print Assumptions C74_memo_refuted.
(** of methods that chumpy calls back for and scipy does, too: two calls for a step, one
    without the point, *)
Theorem C74_doubled_refuted : ∃ f g h w l, proper w ∧ polite w h [] [Fun l] ∧
  ∃ c1 c2, (happens f g (calls_itself "Powell") (fresh_bridge h w) [Ask (Fun l); Announce l]).2 = [c1; c2] ∧ c_arg c1 = None ∧ is_Some (c_arg c2).
Proof. exact doubled_refuted. Qed.
Print Assumptions C74_doubled_refuted.
(** and of all of these: calls without any step, at points worse than the answer. *)
Theorem C74_rejected_refuted : ∃ f g h w es l, proper w ∧ polite w h [] (asks (es ++ [Ask (Answer l)])) ∧ steps es = 0 ∧
  ∃ c, c ∈ (happens f g (calls_itself "COBYLA") (fresh_bridge h w) (es ++ [Ask (Answer l)])).2 ∧ Bltb (f [h l]) (f (c_vars c)) = true.
Proof. exact rejected_refuted. Qed.
Print Assumptions C74_rejected_refuted.
