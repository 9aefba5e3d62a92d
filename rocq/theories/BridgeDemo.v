(** Runs of the callbacks: a polite one, and ones where the replies are wrong. *)
From Coq Require Import ZArith Reals Lra Lia.
From Flocq Require Import Core IEEE754.BinarySingleNaN.
From stdpp Require Import prelude.
From Verif Require Import Dog64 BridgeModel BridgeSpec BridgeThms.

Definition num (z : Z) : b64 := of_int z.
(** the objective |x|^2/2 up to its value, which does not matter here *)
Definition obj0 (xs : list (list b64)) : b64 := match concat xs with x :: _ => x | [] => zero64 end.
Definition grad0 (xs : list (list b64)) : list b64 := concat xs.
Notation run0 := (serves obj0 grad0). Notation reply0 := (serve obj0 grad0).

Definition finite_b (a : list b64) : bool := forallb is_finite a.
Lemma finite_check a : finite_b a = true → finite a.
Proof. intros H x Hx. unfold finite_b in H. rewrite forallb_forall in H. apply H. by apply elem_of_list_In. Qed.
Definition differ (x y : b64) : bool := Bltb x y || Bltb y x.
Lemma differ_spec x y : differ x y = true → ¬ numeq x y.
Proof.
  intros H (Fx & Fy & E). apply orb_prop in H as [H|H]; apply lt_fin in H; try done; lra.
Qed.
(** a reply that is the gradient at no values that are this vector *)
Definition wrong_b (r : reply) (a : list b64) : bool :=
  match r, a with Gradient _ [x], [y] => differ x y | _, _ => false end.
Lemma wrong_check w r a : wrong_b r a = true → ∃ j g, r = Gradient j g ∧ ∀ xs, vector_of w xs a → g ≠ grad0 xs.
Proof.
  destruct r as [|j g| | |]; try done. intros H. exists j, g. split; [done|]. destruct g as [|x []], a as [|y []]; try done. simpl in H. intros xs [_ H2] E. unfold grad0 in E. rewrite <- E in H2.
  apply Forall2_cons in H2 as [H2 _]. by apply (differ_spec x y).
Qed.

Definition w1 : list var := [Var Own [num 0]].
Definition h1 (a : list b64) : loc → list b64 := λ _, a.
Lemma w1_proper : proper w1.
Proof. intros v ->%elem_of_list_singleton. split_and!; [done|done|]. apply finite_check. vm_compute. reflexivity. Qed.
Lemma fit1 x : is_finite x = true → fitting w1 [x].
Proof. intros H. split; [done|]. by intros y ->%elem_of_list_singleton. Qed.
Lemma num_fin z : is_finite (num z) = true → is_finite (num z) = true.
Proof. done. Qed.

(** writing into the vector after the gradient was asked there *)
Definition reused : list request := [Jac (Theirs 0); Write (Theirs 0) [num 2]].
Lemma reused_wrong : wrong_b (reply0 (run0 (fresh_bridge (h1 [num 1]) w1) reused) (Jac (Theirs 0))).2 [num 2] = true.
Proof. vm_compute. reflexivity. Qed.
(** writing into the gradient that was returned *)
Definition scribbled : list request := [Jac (Theirs 0); Write (Ours 1) [num 7]].
Lemma scribbled_wrong : wrong_b (reply0 (run0 (fresh_bridge (h1 [num 1]) w1) scribbled) (Jac (Theirs 0))).2 [num 1] = true.
Proof. vm_compute. reflexivity. Qed.
(** the first gradient at 1e16 *)
Definition raised_b (r : reply) : bool := match r with Raised => true | _ => false end.
Lemma raised_check r : raised_b r = true → r = Raised.
Proof. by destruct r. Qed.
Lemma huge_raises : raised_b (reply0 (fresh_bridge (h1 [huge]) w1) (Jac (Theirs 0))).2 = true.
Proof. vm_compute. reflexivity. Qed.
(** a vector with a NaN *)
Lemma nan_ignored f g : (serve f g (fresh_bridge (h1 [B754_nan]) w1) (Fun (Theirs 0))).2 = Value (f [[num 0]]).
Proof.
  cbv [serve residuals fresh_bridge vars heap h1 w1 changevars v_val length take drop zip_with npmax foldl].
  replace (absdiff B754_nan (num 0)) with (B754_nan : b64) by (unfold absdiff, sub64; destruct (num 0); done). reflexivity.
Qed.
(** a variable without elements *)
Lemma empty_raises f g h qs : (serve f g (fresh_bridge h (Var Own [] :: qs)) (Fun (Theirs 0))).2 = Raised.
Proof. done. Qed.
(** a view: 1e16, to be set to 1, becomes 0 *)
Definition wv : list var := [Var View [huge]].
Definition off_b (s : bridge) (a : list b64) : bool := match vars s, a with [v], [y] => match v_val v with [x] => differ x y | _ => false end | _, _ => false end.
Lemma off_check w s a : off_b s a = true → ¬ vector_of w (values s) a.
Proof.
  unfold off_b, values. destruct (vars s) as [|v []]; try done. destruct a as [|y []]; try done. destruct (v_val v) as [|x []] eqn:E; try done. intros H [_ H2]. rewrite fmap_cons in H2. simpl in H2. rewrite E in H2. simpl in H2.
  apply Forall2_cons in H2 as [H2 _]. by apply (differ_spec x y).
Qed.
Lemma view_off : off_b (reply0 (fresh_bridge (h1 [num 1]) wv) (Answer (Theirs 0))).1 [num 1] = true.
Proof. vm_compute. reflexivity. Qed.

(** a polite run over two variables: evaluated at (1,2,3), at (1,2,4), and there again *)
Definition w2 : list var := [Var Own [num 5]; Var Own [num 5; num 5]].
Definition h2 : loc → list b64 := λ l, match l with Theirs 0 => [num 1; num 2; num 3] | Theirs 1 => [num 1; num 2; num 4] | _ => [] end.
Definition polite2 : list request := [Fun (Theirs 0); Jac (Theirs 0); Fun (Theirs 1); Write (Theirs 2) [num 1; num 2; num 4]; Jac (Theirs 1); Jac (Theirs 2); Hess (Theirs 0); Answer (Theirs 2)].
Lemma w2_proper : proper w2.
Proof. intros v Hv. repeat (apply elem_of_cons in Hv as [->|Hv]; [split_and!; [done|done|apply finite_check; vm_compute; reflexivity]|]). by apply elem_of_nil in Hv. Qed.
Lemma polite2_ok : polite w2 h2 [] polite2.
Proof.
  assert (F : ∀ a, length a = 3 → finite_b a = true → fitting w2 a) by (intros a H1 H2; split; [done|by apply finite_check]).
  unfold polite2. cbn [polite]. repeat match goal with
  | |- True => done
  | |- ∃ n, _ = Theirs n => by eexists
  | |- fitting _ _ => apply F; [done|vm_compute; reflexivity]
  | |- _ ∧ _ => split
  end. by rewrite !elem_of_cons, elem_of_nil; intuition.
Qed.
Definition first_b (r : reply) : bool := match r with Gradient (Ours 1) _ => true | _ => false end.
Lemma first_gradient r : first_b r = true → ∃ d, r = Gradient (Ours 1) d.
Proof. destruct r as [|[?|[|[]]] d| | |]; try done. by exists d. Qed.
