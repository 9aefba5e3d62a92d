(** Runs with callbacks. *)
From Coq Require Import ZArith Ascii String.
From Flocq Require Import Core IEEE754.BinarySingleNaN.
From stdpp Require Import prelude.
From Verif Require Import Dog64 BridgeModel BridgeSpec BridgeThms BridgeDemo CallModel CallSpec CallThms.

(** the points 1 and 2 of the minimizer *)
Definition h12 : loc → list b64 := λ l, match l with Theirs 0 => [num 1] | _ => [num 2] end.
Lemma h12_fits l : fitting w1 (h12 l).
Proof. destruct l as [[|n]|n]; apply fit1; vm_compute; reflexivity. Qed.
Definition start12 : bridge := fresh_bridge h12 w1.
(** what a call says, to be computed with *)
Definition off_b (c : call) : bool := match c_arg c, c_vars c with Some [x], [[y]] => differ y x | _, _ => false end.
Lemma off_check c : off_b c = true → ¬ informed w1 c.
Proof.
  unfold off_b. intros H (a & Ha & _ & Hv). rewrite Ha in H. destruct a as [|x []]; try done. destruct (c_vars c) as [|[|y []] []]; try done. simpl in Hv.
  apply Forall2_cons in Hv as [Hv _]. by apply (differ_spec y x).
Qed.
Definition elsewhere : list event := [Ask (Fun (Theirs 0)); Ask (Fun (Theirs 1)); Announce (Theirs 0)].
Definition memo : list event := [Ask (Jac (Theirs 0)); Ask (Fun (Theirs 1)); Ask (Jac (Theirs 0)); Announce (Theirs 0)].
Definition doubled : list event := [Ask (Fun (Theirs 0)); Announce (Theirs 0)].
Definition rejected : list event := [Ask (Fun (Theirs 1)); Ask (Fun (Theirs 0)); Ask (Answer (Theirs 0))].
Lemma elsewhere_off : forallb off_b (happens obj0 grad0 false start12 elsewhere).2 = true ∧ length (happens obj0 grad0 false start12 elsewhere).2 = 1.
Proof. vm_compute. done. Qed.
Lemma memo_off : forallb off_b (happens obj0 grad0 false start12 memo).2 = true ∧ length (happens obj0 grad0 false start12 memo).2 = 1.
Proof. vm_compute. done. Qed.
Lemma asks12 (qs : list request) : Forall (λ q, ∃ n, q = Fun (Theirs n) ∨ q = Jac (Theirs n) ∨ q = Answer (Theirs n)) qs → ∀ lent, polite w1 h12 lent qs.
Proof.
  induction 1 as [|q qs (n & Hq) _ IH]; intros lent; [done|]. destruct Hq as [->|[->| ->]]; cbn [polite]; (split; [by eexists|split; [apply h12_fits|apply IH]]).
Qed.
Lemma elsewhere_polite : polite w1 h12 [] (asks elsewhere).
Proof. apply asks12. repeat constructor; eexists; eauto. Qed.
Lemma memo_polite : polite w1 h12 [] (asks memo).
Proof. apply asks12. repeat constructor; eexists; eauto. Qed.
Lemma doubled_polite : polite w1 h12 [] (asks doubled).
Proof. apply asks12. repeat constructor; eexists; eauto. Qed.
Lemma rejected_polite : polite w1 h12 [] (asks rejected).
Proof. apply asks12. repeat constructor; eexists; eauto. Qed.
(** two calls per step, one of them with None *)
Definition kinds (cs : list call) : list bool := (λ c, match c_arg c with Some _ => true | None => false end) <$> cs.
Lemma doubled_kinds : kinds (happens obj0 grad0 (calls_itself "Powell") start12 doubled).2 = [false; true].
Proof. vm_compute. reflexivity. Qed.
(** calls at points the method leaves again *)
Definition worse_b (c : call) : bool := Bltb (obj0 [[num 1]]) (obj0 (c_vars c)).
Lemma rejected_worse : existsb worse_b (happens obj0 grad0 (calls_itself "COBYLA") start12 rejected).2 = true.
Proof. vm_compute. reflexivity. Qed.

Definition reads (q : request) : Prop := match q with Fun _ | Jac _ | Answer _ => True | _ => False end.
Lemma heap_keeps f g s q n : reads q → heap (serve f g s q).1 (Theirs n) = heap s (Theirs n).
Proof.
  destruct q as [l a|l|l|l|l]; try done; intros _; cbn [serve].
  - unfold residuals. by destruct (changevars (vars s) (heap s l)).
  - unfold jacfunc. set (s1 := match m_vs s with Some _ => s | None => _ end). assert (E : heap s1 (Theirs n) = heap s (Theirs n)) by (unfold s1; by destruct (m_vs s)).
    clearbody s1. destruct (distance s1 l (m_vs s1)) as [m|]; [|done]. destruct (Beqb m zero64); [done|]. by destruct (changevars (vars s1) (heap s1 l)) as [w []].
  - by destruct (changevars (vars s) (heap s l)).
Qed.
Lemma heaps_keep f g i s es n : Forall reads (asks es) → heap (happens f g i s es).1 (Theirs n) = heap s (Theirs n).
Proof.
  rewrite happens_state. revert s. generalize (asks es). intros qs. induction qs as [|q qs IH]; intros s H; [done|]. apply Forall_cons in H as [H1 H2]. cbn [serves]. rewrite IH by done. by apply heap_keeps.
Qed.
Lemma elsewhere_refuted : ∃ f g h w es l, proper w ∧ polite w h [] (asks es) ∧ ∃ c, (happens f g (calls_itself "Nelder-Mead") (fresh_bridge h w) (es ++ [Announce l])).2 = [c] ∧ c_arg c = Some (h l) ∧ ¬ informed w c.
Proof.
  exists obj0, grad0, h12, w1, [Ask (Fun (Theirs 0)); Ask (Fun (Theirs 1))], (Theirs 0). split; [exact w1_proper|]. split; [exact elsewhere_polite|]. change (calls_itself "Nelder-Mead") with false. fold start12.
  destruct elsewhere_off as [H1 H2]. unfold elsewhere in H1, H2. cbn [app]. pose proof (once obj0 grad0 start12 elsewhere) as [_ O]. specialize (O [Ask (Fun (Theirs 0)); Ask (Fun (Theirs 1))] (Theirs 0) [] eq_refl). unfold elsewhere in O.
  rewrite (heaps_keep obj0 grad0 false start12 [Ask (Fun (Theirs 0)); Ask (Fun (Theirs 1))] 0 ltac:(by repeat constructor)) in O.
  destruct (happens obj0 grad0 false start12 _).2 as [|c []]; try done. cbn [steps lookup list_lookup] in O. injection O as O. exists c. split; [done|]. cbn [forallb] in H1. apply andb_prop in H1 as [H1 _]. split; [by rewrite O|by apply off_check].
Qed.
Lemma memo_refuted : ∃ f g h w es l, proper w ∧ polite w h [] (asks (es ++ [Ask (Jac l)])) ∧ ∃ c, (happens f g (calls_itself "BFGS") (fresh_bridge h w) (es ++ [Ask (Jac l); Announce l])).2 = [c] ∧ c_arg c = Some (h l) ∧ ¬ informed w c.
Proof.
  exists obj0, grad0, h12, w1, [Ask (Jac (Theirs 0)); Ask (Fun (Theirs 1))], (Theirs 0). split; [exact w1_proper|]. split; [exact memo_polite|]. change (calls_itself "BFGS") with false. fold start12.
  destruct memo_off as [H1 H2]. unfold memo in H1, H2. cbn [app]. pose proof (once obj0 grad0 start12 memo) as [_ O]. specialize (O [Ask (Jac (Theirs 0)); Ask (Fun (Theirs 1)); Ask (Jac (Theirs 0))] (Theirs 0) [] eq_refl). unfold memo in O.
  rewrite (heaps_keep obj0 grad0 false start12 [Ask (Jac (Theirs 0)); Ask (Fun (Theirs 1)); Ask (Jac (Theirs 0))] 0 ltac:(by repeat constructor)) in O.
  destruct (happens obj0 grad0 false start12 _).2 as [|c []]; try done. cbn [steps lookup list_lookup] in O. injection O as O. exists c. split; [done|]. cbn [forallb] in H1. apply andb_prop in H1 as [H1 _]. split; [by rewrite O|by apply off_check].
Qed.
Lemma doubled_refuted : ∃ f g h w l, proper w ∧ polite w h [] [Fun l] ∧ ∃ c1 c2, (happens f g (calls_itself "Powell") (fresh_bridge h w) [Ask (Fun l); Announce l]).2 = [c1; c2] ∧ c_arg c1 = None ∧ is_Some (c_arg c2).
Proof.
  exists obj0, grad0, h12, w1, (Theirs 0). split; [exact w1_proper|]. split; [exact doubled_polite|]. fold start12. pose proof doubled_kinds as H. unfold doubled in H.
  destruct (happens obj0 grad0 (calls_itself "Powell") start12 _).2 as [|c1 [|c2 []]]; try done.
  exists c1, c2. split; [done|]. unfold kinds in H. cbn in H. destruct (c_arg c1), (c_arg c2); done.
Qed.
Lemma rejected_refuted : ∃ f g h w es l, proper w ∧ polite w h [] (asks (es ++ [Ask (Answer l)])) ∧ steps es = 0 ∧
  ∃ c, c ∈ (happens f g (calls_itself "COBYLA") (fresh_bridge h w) (es ++ [Ask (Answer l)])).2 ∧ Bltb (f [h l]) (f (c_vars c)) = true.
Proof.
  exists obj0, grad0, h12, w1, [Ask (Fun (Theirs 1)); Ask (Fun (Theirs 0))], (Theirs 0). split; [exact w1_proper|]. split; [exact rejected_polite|]. split; [done|].
  pose proof rejected_worse as H. apply existsb_exists in H as (c & Hc & Hb). exists c. split; [apply elem_of_list_In; exact Hc|exact Hb].
Qed.
(** a step announced after its evaluation and its gradient *)
Lemma announced_case : polite w1 h12 [] (asks [Ask (Fun (Theirs 1)); Ask (Fun (Theirs 0)); Ask (Jac (Theirs 0))]) ∧
  ∀ i q l', [Ask (Fun (Theirs 0)); Ask (Jac (Theirs 0))] !! i = Some (Ask q) → at_vector q l' →
    Forall2 numeq (heap (happens obj0 grad0 false start12 ([Ask (Fun (Theirs 1))] ++ take i [Ask (Fun (Theirs 0)); Ask (Jac (Theirs 0))])).1 l') (heap (happens obj0 grad0 false start12 [Ask (Fun (Theirs 1)); Ask (Fun (Theirs 0)); Ask (Jac (Theirs 0))]).1 (Theirs 0)).
Proof.
  split; [apply asks12; repeat constructor; eexists; eauto|]. intros i q l' Hi Hq.
  assert (G : l' = Theirs 0 ∧ (i = 0 ∨ i = 1)).
  { destruct i as [|[|i]]; [| |done]; injection Hi as <-; destruct Hq as [[= ->]|[[= ->]|[[= ->]|[= ->]]]]; try done; eauto. }
  destruct G as [-> Hi']. rewrite heaps_keep by (destruct Hi' as [->| ->]; by repeat constructor). rewrite heaps_keep by (by repeat constructor).
  assert (N : is_finite (num 1) = true) by (vm_compute; reflexivity). constructor; [|constructor]. done.
Qed.
