From stdpp Require Import strings gmap list prelude.
From Verif Require Import BindModel BindSpec.

Section thms.
  Context (classes : nat → cls) (reserved : string → bool).
  Notation mro c := (c_mro (classes c)).
  Notation body c := (c_body (classes c)).
  Context (Hsi : single_inheritance classes).
  Notation look := (look classes).
  Notation declared := (declared classes). Notation declared_order := (declared_order classes).
  Notation setup_terms := (setup_terms classes reserved). Notation construct := (construct classes reserved).
  Notation after := (after classes reserved).

  Definition keeps (f : attrs → option decl) (t : table) : Prop :=
    ∀ c, f (t_own t c) = f (body c) ∨ f (t_own t c) = Some (Many (names (declared f c))).
  Record inv (t : table) : Prop := {
    i_terms : keeps a_terms t;
    i_dterms : keeps a_dterms t;
    i_order : ∀ c, a_order (t_own t c) = a_order (body c) ∨ (declared a_order c = None ∧ a_order (t_own t c) = Some (declared_order c));
    i_setup : ∀ c, t_setup t c = true → look t a_order c ≠ None ∧ existsb reserved (names (declared a_terms c) ++ names (declared a_dterms c)) = false;
    i_parms : ∀ n l, t_parms t n = Some l → ∃ c, c_name (classes c) = n ∧ c_parms (classes c) = l
  }.
  Lemma mro_self c : ∃ l, mro c = c :: l.
  Proof. apply Hsi. Qed.
  Lemma mro_next c b l : mro c = c :: b :: l → mro b = b :: l.
  Proof. intros H. exact (proj2 (Hsi c) b [c] l H). Qed.
  Lemma declared_step {A} (f : attrs → option A) c b l : mro c = c :: b :: l → f (body c) = None → declared f c = declared f b.
  Proof. intros H Hc. unfold declared. rewrite (mro_next c b l H), H. simpl. by rewrite Hc. Qed.
  Lemma look_names f t c : keeps f t → many (look t f c) = names (declared f c).
  Proof.
    intros Hk. unfold look. remember (mro c) as l eqn:El. revert c El. induction l as [|b l IH]; intros c El; [unfold declared; by rewrite <- El|].
    destruct (mro_self c) as [l' El']. rewrite <- El in El'. injection El' as -> ->. simpl. destruct (Hk c) as [E|E]; rewrite E; [|done]. destruct (f (body c)) as [d|] eqn:Ed; [unfold declared; rewrite <- El; simpl; by rewrite Ed|].
    destruct l' as [|b l']; [unfold declared; rewrite <- El; simpl; by rewrite Ed|]. rewrite (declared_step f c b l' (eq_sym El) Ed). apply IH. by rewrite (mro_next c b l' (eq_sym El)).
  Qed.
  Lemma look_order_none t c : inv t → look t a_order c = None → declared a_order c = None.
  Proof.
    intros Hi. unfold look, declared. induction (mro c) as [|b l IH]; [done|]. simpl. destruct (i_order t Hi b) as [E|[_ E]]; rewrite E; [|done]. by destruct (a_order (body b)).
  Qed.
  Lemma look_order t c o : inv t → (∀ b, above_order classes c b → declared_order b = declared_order c) → look t a_order c = Some o → o = declared_order c.
  Proof.
    intros Hi Hc. unfold look. assert (G : ∀ l l1, mro c = l1 ++ l → (∀ a, a ∈ l1 → a_order (body a) = None) → first_of (λ b, a_order (t_own t b)) l = Some o → o = declared_order c).
    { intros l. induction l as [|b l IH]; intros l1 El Hl; [done|]. simpl. destruct (i_order t Hi b) as [E|[_ E]]; rewrite E.
      - destruct (a_order (body b)) as [o'|] eqn:Eb.
        + intros [= ->]. unfold declared_order. assert (declared a_order c = Some o) as ->; [|done]. unfold declared. rewrite El. clear El IH E. induction l1 as [|a l1 IH]; simpl; [by rewrite Eb|]. rewrite (Hl a) by (by left). apply IH. intros. apply Hl. by right.
        + apply (IH (l1 ++ [b])); [by rewrite <- app_assoc|]. intros a [Ha|Ha]%elem_of_app; [by apply Hl|]. apply elem_of_list_singleton in Ha. by subst.
      - intros [= <-]. apply Hc. exists l1, l. done. }
    intros Ho. apply (G (mro c) []); [done|by intros ? ?%elem_of_nil|done].
  Qed.
  (** giving more attributes keeps the order found *)
  Lemma look_mono t t' c : (∀ b, a_order (t_own t b) ≠ None → a_order (t_own t' b) ≠ None) → look t a_order c ≠ None → look t' a_order c ≠ None.
  Proof.
    intros H. unfold look. induction (mro c) as [|b l IH]; [done|]. simpl. specialize (H b). destruct (a_order (t_own t b)); [intros _; by destruct (a_order (t_own t' b)); [|destruct H]|]. by destruct (a_order (t_own t' b)).
  Qed.
  Lemma fixed_keeps f t c : keeps f t → fixed (f (t_own t c)) (look t f c) = f (body c) ∨ fixed (f (t_own t c)) (look t f c) = Some (Many (names (declared f c))).
  Proof.
    intros Hk. rewrite <- (look_names f t c Hk). unfold fixed. destruct (look t f c) as [[s|l]|] eqn:E; [by right| |by right]. destruct (Hk c) as [H|H]; [by left|]. right. by rewrite H, <- (look_names f t c Hk), E.
  Qed.
  Lemma look_some_self t c (x : list string) : a_order (t_own t c) = Some x → look t a_order c = Some x.
  Proof. intros H. unfold look. destruct (mro_self c) as [l ->]. simpl. by rewrite H. Qed.
  Lemma first_of_ext {A} (f g : nat → option A) l : (∀ b, f b = g b) → first_of f l = first_of g l.
  Proof. intros H. induction l as [|b l IH]; [done|]. simpl. rewrite H. by rewrite IH. Qed.
  (** the effects of setup_terms *)
  Lemma setup_spec t c : inv t → inv (setup_terms t c).1 ∧ ((setup_terms t c).2 = None → look (setup_terms t c).1 a_order c ≠ None).
  Proof.
    intros Hi. unfold setup_terms. destruct (t_setup t c) eqn:Es; [split; [done|]; intros _; by apply (i_setup t Hi)|].
    assert (P : inv (parm_declarations classes t c).1 ∧ (∀ n l, t_parms (parm_declarations classes t c).1 n = Some l → ∃ c, c_name (classes c) = n ∧ c_parms (classes c) = l)).
    { unfold parm_declarations. destruct (t_parms t _) eqn:Ep; [split; [done|apply Hi]|]. assert (Q : ∀ n l, (if decide (n = c_name (classes c)) then Some (c_parms (classes c)) else t_parms t n) = Some l → ∃ c, c_name (classes c) = n ∧ c_parms (classes c) = l).
      { intros n l. destruct (decide _) as [->|]; [intros [= <-]; by exists c|apply Hi]. }
      split; [|done]. destruct Hi. by split. }
    destruct (parm_declarations classes t c) as [t1 parms]. simpl in P. destruct P as [H1 _]. clear Hi. cbv zeta.
    set (own := Attrs _ _ _). set (t2 := set_own t1 c own).
    assert (H2 : inv t2).
    { assert (O : ∀ b, a_order (t_own t2 b) = a_order (t_own t1 b)) by (intros b; simpl; by destruct (decide (b = c)) as [->|]). split.
      - intros b. simpl. destruct (decide (b = c)) as [->|]; [|apply H1]. by apply fixed_keeps, H1.
      - intros b. simpl. destruct (decide (b = c)) as [->|]; [|apply H1]. by apply fixed_keeps, H1.
      - intros b. rewrite O. apply H1.
      - intros b Hb. destruct (i_setup t1 H1 b Hb) as [X1 X2]. split; [|done]. apply (look_mono t1); [|done]. intros b'. by rewrite O.
      - apply H1. }
    clearbody t2. clear own. rewrite (look_names a_terms t2 c) by apply H2. rewrite (look_names a_dterms t2 c) by apply H2.
    destruct (decide (parms ≠ [])); [done|]. set (t3 := match look t2 a_order c with Some _ => _ | None => _ end).
    assert (H3 : inv t3 ∧ look t3 a_order c ≠ None).
    { unfold t3. destruct (look t2 a_order c) as [o|] eqn:Eo; [by rewrite Eo|]. split; [split|].
      - intros b. simpl. destruct (decide (b = c)) as [->|]; apply H2.
      - intros b. simpl. destruct (decide (b = c)) as [->|]; apply H2.
      - intros b. simpl. destruct (decide (b = c)) as [->|]; [|apply H2]. right. pose proof (look_order_none t2 c H2 Eo) as Hn. split; [done|]. unfold declared_order. by rewrite Hn.
      - intros b Hb. destruct (i_setup t2 H2 b Hb) as [X1 X2]. split; [|done]. apply (look_mono t2); [|done]. intros b'. simpl. by destruct (decide (b' = c)).
      - apply H2.
      - erewrite look_some_self; [done|]. simpl. by rewrite decide_True. }
    clearbody t3. destruct H3 as [H3 H4]. destruct (existsb reserved _) eqn:Er; [done|]. split; [|done].
    split; try apply H3. intros b. simpl. destruct (decide (b = c)) as [->|]; [done|]. intros Hb. by apply (i_setup t3 H3).
  Qed.
  Lemma setup_inv t c : inv t → inv (setup_terms t c).1.
  Proof. intros. by apply setup_spec. Qed.
  Lemma construct_inv t c args kw : inv t → inv (construct t c args kw).1.
  Proof. intros Hi. pose proof (setup_inv t c Hi) as H. unfold construct. destruct (setup_terms t c) as [t' [e|]]; [done|]. cbv zeta. by destruct (bind_args _ _ _). Qed.
  Lemma first_inv : inv (at_first classes).
  Proof. split; [by left|by left|by left|done|done]. Qed.
  Lemma after_inv h : inv (after (at_first classes) h).
  Proof. pose proof first_inv as H. revert H. generalize (at_first classes). induction h as [|[[c args] kw] h IH]; intros t Ht; [done|]. simpl. by apply IH, construct_inv. Qed.

  (** when setup_terms succeeds *)
  Lemma setup_ok t c : inv t → (∀ b, c_name (classes b) = c_name (classes c) → c_parms (classes b) = []) →
    existsb reserved (names (declared a_terms c) ++ names (declared a_dterms c)) = false → (setup_terms t c).2 = None.
  Proof.
    intros Hi Hp Hr. unfold setup_terms. destruct (t_setup t c) eqn:Es; [done|].
    assert (P : (parm_declarations classes t c).2 = [] ∧ keeps a_terms (parm_declarations classes t c).1 ∧ keeps a_dterms (parm_declarations classes t c).1).
    { unfold parm_declarations. destruct (t_parms t _) as [l|] eqn:Ep; [|by split; [apply Hp|split; apply Hi]]. split; [|split; apply Hi]. simpl. destruct (i_parms t Hi _ _ Ep) as (b & Hb & <-). by apply Hp. }
    destruct (parm_declarations classes t c) as [t1 parms]. simpl in P. destruct P as (-> & K1 & K2). cbv zeta. set (own := Attrs _ _ _). set (t2 := set_own t1 c own).
    assert (L1 : keeps a_terms t2). { intros b. simpl. destruct (decide (b = c)) as [->|]; [|apply K1]. by apply fixed_keeps. }
    assert (L2 : keeps a_dterms t2). { intros b. simpl. destruct (decide (b = c)) as [->|]; [|apply K2]. by apply fixed_keeps. }
    rewrite (look_names a_terms t2 c L1), (look_names a_dterms t2 c L2). rewrite decide_False by (intros H; by apply H). by rewrite Hr.
  Qed.
  Lemma setup_terms_fail t c : inv t → (∀ b, c_name (classes b) = c_name (classes c) → c_parms (classes b) ≠ []) → t_setup t c = false →
    ∃ e, (setup_terms t c).2 = Some e ∧ (e = AttributeError ∨ e = AssertionError) ∧ ∀ b, t_setup (setup_terms t c).1 b = t_setup t b.
  Proof.
    intros Hi Hp Hs. unfold setup_terms. rewrite Hs.
    assert (P : (parm_declarations classes t c).2 ≠ [] ∧ t_setup (parm_declarations classes t c).1 = t_setup t).
    { unfold parm_declarations. destruct (t_parms t _) as [l|] eqn:Ep; [|by split; [apply Hp|]]. split; [|done]. simpl. destruct (i_parms t Hi _ _ Ep) as (b & Hb & <-). by apply Hp. }
    destruct (parm_declarations classes t c) as [t1 parms]. simpl in P. destruct P as (P1 & P2). cbv zeta. rewrite (decide_True (P := parms ≠ [])) by done. simpl. rewrite P2. destruct (decide _); eexists; split; try done; (split; [|done]); [by left|by right].
  Qed.

  (** binding *)
  Lemma bind_args_ok order args kw : NoDup order → length args ≤ length order → ∃ kw', bind_args order args kw = Some kw' ∧ ∀ n, kw' !! n = given order args kw n.
  Proof.
    revert args kw. induction order as [|m order IH]; intros args kw Hn Hl; destruct args as [|a args]; simpl in *; try (by eexists); [lia|]. apply NoDup_cons in Hn as [Hm Hn].
    destruct (IH args (<[m := a]> kw) Hn ltac:(lia)) as (kw' & E & H). exists kw'. split; [done|]. intros n. rewrite H. clear -Hm. destruct (decide (n = m)) as [->|Hne].
    - revert args Hm. induction order as [|k order IH]; intros args Hm; simpl; [apply lookup_insert|]. destruct args as [|b args]; [apply lookup_insert|]. apply not_elem_of_cons in Hm as [H1 H2]. rewrite decide_False by done. by apply IH.
    - revert args Hm. induction order as [|k order IH]; intros args Hm; simpl; [by apply lookup_insert_ne|]. destruct args as [|b args]; [by apply lookup_insert_ne|]. destruct (decide (n = k)); [done|]. apply IH. set_solver.
  Qed.
  Lemma bind_args_many order args kw : length order < length args → bind_args order args kw = None.
  Proof. revert args kw. induction order as [|m order IH]; intros [|a args] kw Hl; simpl in *; try lia; [done|]. apply IH. lia. Qed.
  Lemma stored_holds dterms n a : holds dterms n a (stored dterms n a).
  Proof. unfold stored. destruct (decide (n ∈ dterms)); [|by constructor]. destruct a; by constructor. Qed.
  Definition options (kw : gmap string arg) : gmap string arg := delete "make_dense"%string (delete "make_sparse"%string kw).
  Lemma construct_spec t c args kw : inv t → (∀ b, c_name (classes b) = c_name (classes c) → c_parms (classes b) = []) →
    existsb reserved (names (declared a_terms c) ++ names (declared a_dterms c)) = false →
    (∀ b, above_order classes c b → declared_order b = declared_order c) → NoDup (declared_order c) →
    if decide (length args ≤ length (declared_order c)) then ∃ b, (construct t c args kw).2 = inl b ∧ bound classes c args (options kw) b
    else (construct t c args kw).2 = inr IndexError.
  Proof.
    intros Hi Hp Hr Ha Hn. pose proof (setup_ok t c Hi Hp Hr) as E. destruct (setup_spec t c Hi) as [H1 H2]. specialize (H2 E). unfold construct. destruct (setup_terms t c) as [t' e]. simpl in *. subst e.
    destruct (look t' a_order c) as [o|] eqn:Eo; [|done]. rewrite (look_order t' c o H1 Ha Eo). simpl. fold (options kw). rewrite (look_names a_dterms t' c) by apply H1. destruct (decide _) as [Hl|Hl].
    - destruct (bind_args_ok (declared_order c) args (options kw) Hn Hl) as (kw' & -> & Hk). eexists. split; [done|]. split; [done|]. intros n. rewrite <- Hk. simpl. rewrite map_lookup_imap. destruct (kw' !! n); simpl; constructor. apply stored_holds.
    - by rewrite bind_args_many by lia.
  Qed.
  Theorem construct_binds h c args kw : (∀ b, c_name (classes b) = c_name (classes c) → c_parms (classes b) = []) →
    existsb reserved (names (declared a_terms c) ++ names (declared a_dterms c)) = false →
    (∀ b, above_order classes c b → declared_order b = declared_order c) → NoDup (declared_order c) → length args ≤ length (declared_order c) →
    ∃ b, (construct (after (at_first classes) h) c args kw).2 = inl b ∧ bound classes c args (options kw) b.
  Proof. intros Hp Hr Ha Hn Hl. pose proof (construct_spec _ c args kw (after_inv h) Hp Hr Ha Hn) as H. by rewrite decide_True in H. Qed.
  Theorem construct_rejects h c args kw : (∀ b, c_name (classes b) = c_name (classes c) → c_parms (classes b) = []) →
    existsb reserved (names (declared a_terms c) ++ names (declared a_dterms c)) = false →
    (∀ b, above_order classes c b → declared_order b = declared_order c) → NoDup (declared_order c) → length (declared_order c) < length args →
    (construct (after (at_first classes) h) c args kw).2 = inr IndexError.
  Proof. intros Hp Hr Ha Hn Hl. pose proof (construct_spec _ c args kw (after_inv h) Hp Hr Ha Hn) as H. rewrite decide_False in H by lia. done. Qed.
  (** Term declarations *)
  Lemma never_setup h c : (∀ b, c_name (classes b) = c_name (classes c) → c_parms (classes b) ≠ []) → t_setup (after (at_first classes) h) c = false.
  Proof.
    intros Hp. assert (G : ∀ h t, inv t → t_setup t c = false → t_setup (after t h) c = false).
    { clear h. intros h. induction h as [|[[c' args] kw] h IH]; intros t Hi Hs; [done|]. simpl. apply IH; [by apply construct_inv|]. 
      assert (S : t_setup (setup_terms t c').1 c = false).
      { destruct (decide (c' = c)) as [->|Hne]; [by destruct (setup_terms_fail t c Hi Hp Hs) as (e & _ & _ & ->)|]. unfold setup_terms. destruct (t_setup t c'); [done|].
        assert (P : t_setup (parm_declarations classes t c').1 = t_setup t) by (unfold parm_declarations; by destruct (t_parms t _)). destruct (parm_declarations classes t c') as [t1 parms]. simpl in P. cbv zeta. destruct (decide (parms ≠ [])); simpl; [by rewrite P|].
        destruct (existsb _ _); simpl; [|rewrite decide_False by done]; destruct (look _ a_order c'); simpl; by rewrite P. }
      unfold construct. destruct (setup_terms t c') as [t' [e|]]; [done|]. cbv zeta. by destruct (bind_args _ _ _). }
    apply G; [apply first_inv|done].
  Qed.
  Theorem terms_never h c args kw : (∀ b, c_name (classes b) = c_name (classes c) → c_parms (classes b) ≠ []) →
    (construct (after (at_first classes) h) c args kw).2 = inr AttributeError ∨ (construct (after (at_first classes) h) c args kw).2 = inr AssertionError.
  Proof.
    intros Hp. destruct (setup_terms_fail _ c (after_inv h) Hp (never_setup h c Hp)) as (e & E & He & _). unfold construct. destruct (setup_terms _ c) as [t' e']. simpl in E. subst e'. simpl. destruct He as [->| ->]; [by left|by right].
  Qed.
End thms.

Section operators.
  Context (classes : nat → cls) (reserved : string → bool) (class_of : op → nat).
  Context (Hsi : single_inheritance classes) (Hop : operator_classes classes reserved class_of).
  Context {V : Type} (value : slot → V) (operation : op → V → V → V).
  Lemma build_operation h o l r : ∃ b,
    (construct classes reserved (after classes reserved (at_first classes) h) (class_of o) [] (<[(operand_names o).1 := l]> {[(operand_names o).2 := r]})).2 = inl b ∧
    o_class b = class_of o ∧ compute_r value operation o b = Some (operation o (value (operand l)) (value (operand r))).
  Proof.
    destruct (Hop o) as (Hm & Hb & Hp & Hr1 & Hr2).
    assert (D1 : declared classes a_dterms (class_of o) = Some (Many [(operand_names o).1; (operand_names o).2])) by (unfold declared; rewrite Hm; simpl; by rewrite Hb).
    assert (D2 : declared classes a_terms (class_of o) = None) by (unfold declared; rewrite Hm; simpl; by rewrite Hb).
    assert (D3 : declared classes a_order (class_of o) = None) by (unfold declared; rewrite Hm; simpl; by rewrite Hb).
    assert (D4 : declared_order classes (class_of o) = [(operand_names o).1; (operand_names o).2]) by (unfold declared_order; by rewrite D3, D2, D1).
    assert (Hne : (operand_names o).1 ≠ (operand_names o).2) by (by destruct o).
    destruct (construct_binds classes reserved Hsi h (class_of o) [] (<[(operand_names o).1 := l]> {[(operand_names o).2 := r]})) as (b & E & Hc & Ha).
    - done.
    - rewrite D1, D2. simpl. by rewrite Hr1, Hr2.
    - intros b (l1 & l2 & Hl & _). rewrite Hm in Hl. destruct l1 as [|? []]; simplify_eq/=. done.
    - rewrite D4. apply NoDup_cons. split; [set_solver|apply NoDup_singleton].
    - simpl. lia.
    - exists b. split; [done|]. split; [done|]. unfold compute_r. rewrite D4 in Ha. unfold declared_dterms in Ha. rewrite D1 in Ha. simpl in Ha.
      assert (O : ∀ a s n, n ∈ [(operand_names o).1; (operand_names o).2] → holds [(operand_names o).1; (operand_names o).2] n a s → s = operand a).
      { intros a s n Hn Hh. destruct Hh as [o' _|a _ Ho|a Hx]; [done| |done]. destruct a as [o'| |]; [by destruct (Ho o')|done|done]. }
      pose proof (Ha (operand_names o).1) as H1. pose proof (Ha (operand_names o).2) as H2. unfold options in H1, H2.
      rewrite !lookup_delete_ne in H1, H2 by (by destruct o). rewrite lookup_insert in H1. rewrite lookup_insert_ne, lookup_singleton in H2 by done.
      inversion H1 as [x s1 X1 Y1 Z1|]; subst. inversion H2 as [x' s2 X2 Y2 Z2|]; subst. rewrite (O _ _ _ ltac:(by left) X1), (O _ _ _ ltac:(right; by left) X2). done.
  Qed.
  Lemma swap_insert o (l r : arg) : <[(operand_names o).2 := r]> {[(operand_names o).1 := l]} = (<[(operand_names o).1 := l]> {[(operand_names o).2 := r]} : gmap string arg).
  Proof. assert (Hne : (operand_names o).1 ≠ (operand_names o).2) by (by destruct o). unfold singletonM, map_singleton. by rewrite insert_commute by done. Qed.
  Theorem operate_builds v o h l r : is_ch l ∨ is_ch r → v = Py2 ∨ o ≠ Div ∨ is_ch l → ∃ b,
    (operate classes reserved class_of v o (after classes reserved (at_first classes) h) l r).2 = inl b ∧
    o_class b = class_of o ∧ compute_r value operation o b = Some (operation o (value (operand l)) (value (operand r))).
  Proof.
    intros Hlr Hv. set (t := after classes reserved (at_first classes) h).
    assert (F : is_ch l → operate classes reserved class_of v o t l r = construct classes reserved t (class_of o) [] (<[(operand_names o).1 := l]> {[(operand_names o).2 := r]})).
    { intros [x ->]. destruct o, v; reflexivity. }
    assert (B : ¬ is_ch l → is_ch r → v = Py2 ∨ o ≠ Div → operate classes reserved class_of v o t l r = construct classes reserved t (class_of o) [] (<[(operand_names o).2 := r]> {[(operand_names o).1 := l]})).
    { intros Hl [x ->] Hv'. destruct l as [y| |]; [by destruct Hl; exists y| |]; (destruct o, v; try reflexivity; by destruct Hv'). }
    assert (is_ch l ∨ ¬ is_ch l) as [Hl|Hl] by (destruct l as [x| |]; [left; by exists x|right; by intros [? ?]|right; by intros [? ?]]).
    - rewrite F by done. apply build_operation.
    - rewrite B; [|done|by destruct Hlr|by destruct Hv as [|[|]]; auto]. rewrite swap_insert. apply build_operation.
  Qed.
End operators.
