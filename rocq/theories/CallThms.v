(** Proofs about the user's callback. *)
From Coq Require Import ZArith Ascii String Lia.
From Flocq Require Import Core IEEE754.BinarySingleNaN.
From stdpp Require Import prelude.
From Verif Require Import Dog64 BridgeModel BridgeSpec BridgeThms CallModel CallSpec.

Lemma numeq_sym x y : numeq x y → numeq y x.
Proof. by intros (? & ? & ?). Qed.
Lemma numeqs_sym a b : Forall2 numeq a b → Forall2 numeq b a.
Proof. intros H. apply Forall2_flip. eapply Forall2_impl; [exact H|]. intros x y. apply numeq_sym. Qed.
Lemma changed_spec w vs : proper w → fitting w vs → changed w vs = false ↔ Forall2 numeq (concat (v_val <$> w)) vs.
Proof.
  revert vs. induction w as [|v w IH]; intros vs Hw [Hlen Hf]; [destruct vs; [split; [constructor|done]|done]|].
  destruct (Hw v) as (Hk & Hn & Hv); [by left|]. cbn [fmap list_fmap] in Hlen. simpl in Hlen. rewrite app_length in Hlen. cbn [changed]. set (sz := length (v_val v)) in *.
  assert (Lt : length (take sz vs) = sz) by (apply take_length_le; lia).
  assert (Ft : finite (take sz vs)). { intros x Hx. apply Hf. rewrite <- (take_drop sz vs). apply elem_of_app. by left. }
  destruct (npmax_spec (take sz vs) (v_val v)) as (m & -> & z & Hz & Hz'); [done|intros E; rewrite E in Lt; simpl in Lt; unfold sz in Lt; by destruct (v_val v)|done|done|].
  rewrite (zp_pos z m Hz). rewrite orb_false_iff, negb_false_iff, Hz', IH.
  - rewrite fmap_cons. simpl. split.
    + intros [H1 H2]. rewrite <- (take_drop sz vs). apply Forall2_app; [by apply numeqs_sym|done].
    + intros H. apply Forall2_app_inv_l in H as (k1 & k2 & H1 & H2 & ->). pose proof (Forall2_length _ _ _ H1) as E. fold sz in E. rewrite E in *. rewrite take_app, drop_app. split; [by apply numeqs_sym|done].
  - intros u Hu. apply Hw. by right.
  - split; [rewrite drop_length; unfold sz in *; lia|]. intros x Hx. apply Hf. rewrite <- (take_drop sz vs). apply elem_of_app. by right.
Qed.
Lemma change_calls_spec w0 w vs : proper w → sizes w = sizes w0 → fitting w0 vs →
  (change_calls w vs = [] ∧ vector_of w0 (v_val <$> w) vs) ∨ (∃ xs, change_calls w vs = [Call None xs] ∧ vector_of w0 xs vs ∧ ¬ vector_of w0 (v_val <$> w) vs).
Proof.
  intros Hp Hs Hf. pose proof (fitting_sizes w0 w vs Hs Hf) as Hf'. unfold change_calls. destruct (change_spec w vs Hp Hf') as (w' & -> & _ & V1 & V2).
  pose proof (changed_spec w vs Hp Hf') as Hc. destruct (changed w vs).
  - right. exists (v_val <$> w'). split_and!; [done|split; [congruence|done]|]. intros [_ H]. by apply Hc in H.
  - left. split; [done|]. split; [by rewrite <- list_fmap_compose|]. by apply Hc.
Qed.

Section thms.
  Context (f : list (list b64) → b64) (grad : list (list b64) → list b64) (itself : bool).
  Notation serves := (serves f grad). Notation serve := (serve f grad). Notation happens := (happens f grad itself). Notation happen := (happen f grad itself).
  Lemma happens_state s es : (happens s es).1 = serves s (asks es).
  Proof.
    revert s. induction es as [|[q|l] es IH]; intros s; [done| |]; cbn.
    - specialize (IH (serve s q).1). destruct (happens (serve s q).1 es). by simpl in *.
    - specialize (IH s). destruct (happens s es). by simpl in *.
  Qed.
  Lemma happens_app s es1 es2 : (happens s (es1 ++ es2)).2 = (happens s es1).2 ++ (happens (happens s es1).1 es2).2.
  Proof.
    revert s. induction es1 as [|e es IH]; intros s; [done|]. cbn [app]. cbn [CallModel.happens]. destruct (happen s e) as [s1 c]. specialize (IH s1).
    destruct (happens s1 (es ++ es2)) as [sa ca]. destruct (happens s1 es) as [sb cb]. simpl in *. rewrite IH. by rewrite app_assoc.
  Qed.
  Lemma asks_app es1 es2 : asks (es1 ++ es2) = asks es1 ++ asks es2.
  Proof. apply omap_app. Qed.
  (** what one request makes the user see *)
  Lemma told_spec h w es1 q l es2 : w ≠ [] → proper w → polite w h [] (asks (es1 ++ Ask q :: es2)) → at_vector q l →
    let s := (happens (fresh_bridge h w) es1).1 in
    (told s q = [] ∧ (q ≠ Jac l → vector_of w (values s) (heap s l))) ∨
    (∃ xs, told s q = [Call None xs] ∧ vector_of w xs (heap s l) ∧ ¬ vector_of w (values s) (heap s l)).
  Proof.
    intros Hne Hw Hp Hq. rewrite happens_state. rewrite asks_app in Hp. change (asks (Ask q :: es2)) with (q :: asks es2) in Hp.
    destruct (reach_inv f grad h w _ _ Hne Hw Hp) as (lent & I1 & I2 & I3). cbv zeta. set (s := serves _ _) in *.
    assert (G : fitting w (heap s l)). { destruct Hq as [->|[->|[->| ->]]]; cbn in I3; apply I3. }
    pose proof (change_calls_spec w (vars s) (heap s l) (iv_proper _ _ _ _ I1) (iv_size _ _ _ _ I1) G) as C. unfold values.
    destruct Hq as [->|[->|[->| ->]]]; cbn [told].
    - destruct C as [[C1 C2]|C]; [left; by split|by right].
    - destruct (npmax _) as [m|]; [|by left]. destruct (Beqb m zero64); [by left|]. destruct C as [[C1 C2]|C]; [left; by split|by right].
    - destruct C as [[C1 C2]|C]; [left; by split|by right].
    - destruct C as [[C1 C2]|C]; [left; by split|by right].
  Qed.
  (** requests at the vector the variables hold *)
  Lemma values_inv w lent s : inv grad w lent s → sizes (vars s) = sizes w.
  Proof. apply iv_size. Qed.
  Lemma jac_keeps w lent s k qs a : w ≠ [] → inv grad w lent s → (∀ l, l ∈ lent → ∃ n, l = Theirs n) → polite w (heap s) lent (Jac (Theirs k) :: qs) →
    Forall2 numeq (heap s (Theirs k)) a → vector_of w (values s) a → vector_of w (values (serve s (Jac (Theirs k))).1) a.
  Proof.
    intros Hne Hi Hl Hp Ha Hv. cbn [polite] in Hp. destruct Hp as (_ & Hf & _). unfold BridgeModel.serve. unfold jacfunc. cbv zeta.
    set (s1 := match m_vs s with Some _ => s | None => _ end).
    assert (E1 : vars s1 = vars s) by (unfold s1; by destruct (m_vs s)). assert (E2 : heap s1 (Theirs k) = heap s (Theirs k)) by (unfold s1; by destruct (m_vs s)).
    clearbody s1. destruct (distance s1 (Theirs k) (m_vs s1)) as [m|]; [|unfold values; simpl; by rewrite E1]. destruct (Beqb m zero64); [unfold values; simpl; by rewrite E1|].
    rewrite E1, E2. destruct (change_inv grad _ _ _ _ Hi Hf) as (w' & E & P1 & P2 & P3). rewrite E. unfold values. simpl. apply (vector_trans w _ (heap s (Theirs k))); [done|by apply numeqs_sym].
  Qed.
  Lemma hess_keeps w lent s k qs a : w ≠ [] → inv grad w lent s → (∀ l, l ∈ lent → ∃ n, l = Theirs n) → polite w (heap s) lent (Hess (Theirs k) :: qs) →
    Forall2 numeq (heap s (Theirs k)) a → vector_of w (values (serve s (Hess (Theirs k))).1) a.
  Proof.
    intros Hne Hi Hl Hp Ha. cbn [polite] in Hp. destruct Hp as (_ & Hf & _). unfold BridgeModel.serve. unfold hessian. destruct (change_inv grad _ _ _ _ Hi Hf) as (w1 & E & P1 & P2 & P3). rewrite E. cbv zeta. cbn [orb].
    assert (V1 : vector_of w (v_val <$> w1) a) by (apply (vector_trans w _ (heap s (Theirs k))); [done|by apply numeqs_sym]).
    set (s1 := match h_vs (set_vars s w1) with Some _ => _ | None => _ end).
    assert (Q1 : vars s1 = w1) by (unfold s1; simpl; by destruct (h_vs s)). assert (Q2 : heap s1 (Theirs k) = heap s (Theirs k)) by (unfold s1; simpl; by destruct (h_vs s)).
    clearbody s1. destruct (distance s1 (Theirs k) (h_vs s1)) as [m|]; [|unfold values; simpl; by rewrite Q1]. destruct (Bltb zero64 m); [|unfold values; simpl; by rewrite Q1].
    unfold ns_jacfunc. set (s2 := match n_vs s1 with Some _ => _ | None => _ end).
    assert (R1 : vars s2 = w1) by (unfold s2; simpl; by destruct (n_vs s1)). assert (R2 : heap s2 (Theirs k) = heap s (Theirs k)) by (unfold s2; simpl; by destruct (n_vs s1)).
    clearbody s2. destruct (distance s2 (Theirs k) (n_vs s2)) as [m'|]; [|unfold values; simpl; by rewrite R1]. destruct (Beqb m' zero64); [destruct (n_J s2); unfold values; simpl; by rewrite R1|].
    rewrite R1, R2. destruct (change_spec w1 (heap s (Theirs k)) P1) as (w2 & E' & _ & V2 & V3); [by apply (fitting_sizes w)|]. rewrite E'. cbn [orb negb hstack_defined]. unfold values. simpl.
    apply (vector_trans w _ (heap s (Theirs k))); [|by apply numeqs_sym]. split; [|done]. congruence.
  Qed.
  Lemma ask_keeps w lent s q qs a : w ≠ [] → inv grad w lent s → (∀ l, l ∈ lent → ∃ n, l = Theirs n) → polite w (heap s) lent (q :: qs) →
    (∀ l, at_vector q l → Forall2 numeq (heap s l) a) → (∀ l, q ≠ Fun l) → vector_of w (values s) a → vector_of w (values (serve s q).1) a.
  Proof.
    intros Hne Hi Hl Hp Ha Hn Hv. pose proof (serve_spec f grad w lent s q qs Hne Hi Hl Hp) as [A _]. destruct q as [l b|l|l|l|l]; [done|by destruct (Hn l)| | |].
    - destruct Hp as ((k & ->) & Hf & Hp). apply (jac_keeps w lent s k qs a); try done; [|apply Ha; right; by left]. by split_and!; [exists k| |].
    - destruct Hp as ((k & ->) & Hf & Hp). apply (hess_keeps w lent s k qs a); try done; [|apply Ha; right; right; by left]. by split_and!; [exists k| |].
    - destruct A as [_ A]. simpl in A. apply (vector_trans w _ (heap s l)); [done|]. apply numeqs_sym, Ha. by right; right; right.
  Qed.
  Lemma fun_reaches w lent s l qs a : w ≠ [] → inv grad w lent s → (∀ l, l ∈ lent → ∃ n, l = Theirs n) → polite w (heap s) lent (Fun l :: qs) →
    Forall2 numeq (heap s l) a → vector_of w (values (serve s (Fun l)).1) a.
  Proof.
    intros Hne Hi Hl Hp Ha. destruct (serve_spec f grad w lent s (Fun l) qs Hne Hi Hl Hp) as [[_ A] _]. simpl in A. apply (vector_trans w _ (heap s l)); [done|]. by apply numeqs_sym.
  Qed.
  Lemma stays w a es lent s qs : w ≠ [] → inv grad w lent s → (∀ l, l ∈ lent → ∃ n, l = Theirs n) → polite w (heap s) lent (asks es ++ qs) → vector_of w (values s) a →
    (∀ i q l, es !! i = Some (Ask q) → at_vector q l → Forall2 numeq (heap (happens s (take i es)).1 l) a) → vector_of w (values (happens s es).1) a.
  Proof.
    intros Hne. revert s lent. induction es as [|[q|l] es IH]; intros s lent Hi Hl Hp Hv Ha; [done| |].
    - destruct (serve_spec f grad w lent s q (asks es ++ qs) Hne Hi Hl Hp) as (_ & lent' & I1 & I2 & I3 & _). rewrite happens_state. change (asks (Ask q :: es)) with (q :: asks es). cbn [BridgeModel.serves]. rewrite <- happens_state. apply (IH _ lent'); try done.
      + assert (Hq : ∀ l, at_vector q l → Forall2 numeq (heap s l) a) by (intros l Hl'; apply (Ha 0 q l eq_refl Hl')). destruct q as [l b|l|l|l|l]; try (by apply (ask_keeps w lent s _ (asks es ++ qs))).
        apply (fun_reaches w lent s l (asks es ++ qs)); try done. apply Hq. by left.
      + intros i q' l Hi' Hq'. specialize (Ha (S i) q' l Hi' Hq'). rewrite happens_state in Ha. cbn [take] in Ha. rewrite happens_state. exact Ha.
    - rewrite happens_state. change (asks (Announce l :: es)) with (asks es). rewrite <- happens_state. apply (IH _ lent); try done. intros i q' l' Hi' Hq'. specialize (Ha (S i) q' l' Hi' Hq'). rewrite happens_state in Ha. cbn [take] in Ha. rewrite happens_state. exact Ha.
  Qed.
  Theorem announced h w es1 l es2 k : w ≠ [] → proper w → polite w h [] (asks (es1 ++ Ask (Fun l) :: es2)) →
    let a := heap (happens (fresh_bridge h w) (es1 ++ Ask (Fun l) :: es2)).1 k in
    (∀ i q l', (Ask (Fun l) :: es2) !! i = Some (Ask q) → at_vector q l' → Forall2 numeq (heap (happens (fresh_bridge h w) (es1 ++ take i (Ask (Fun l) :: es2))).1 l') a) →
    ∃ c, (happens (fresh_bridge h w) (es1 ++ Ask (Fun l) :: es2 ++ [Announce k])).2 = (happens (fresh_bridge h w) (es1 ++ Ask (Fun l) :: es2)).2 ++ [c] ∧ c_arg c = Some a ∧ informed w c.
  Proof.
    intros Hne Hw Hp a Ha. assert (S : ∀ es, (happens (fresh_bridge h w) (es1 ++ es)).1 = (happens (happens (fresh_bridge h w) es1).1 es).1).
    { intros es. rewrite !happens_state, asks_app, serves_app. done. }
    assert (V : vector_of w (values (happens (fresh_bridge h w) (es1 ++ Ask (Fun l) :: es2)).1) a).
    { rewrite asks_app in Hp. destruct (reach_inv f grad h w _ _ Hne Hw Hp) as (lent & I1 & I2 & I3). set (s := serves _ _) in *. rewrite S. rewrite happens_state. fold s.
      change (asks (Ask (Fun l) :: es2)) with (Fun l :: asks es2) in *. destruct (serve_spec f grad w lent s _ _ Hne I1 I2 I3) as (_ & lent' & J1 & J2 & J3 & _).
      rewrite happens_state. change (asks (Ask (Fun l) :: es2)) with (Fun l :: asks es2). cbn [BridgeModel.serves]. rewrite <- happens_state.
      apply (stays w a es2 lent' _ []); try done; [by rewrite app_nil_r|..].
      - apply (fun_reaches w lent s l (asks es2)); try done. specialize (Ha 0 (Fun l) l eq_refl ltac:(by left)). rewrite S, !happens_state in Ha. rewrite ?happens_state. exact Ha.
      - intros i q l' Hi Hq. specialize (Ha (Datatypes.S i) q l' Hi Hq). rewrite S, !happens_state in Ha. rewrite ?happens_state. exact Ha. }
    eexists. split.
    - change (es1 ++ Ask (Fun l) :: es2 ++ [Announce k]) with (es1 ++ (Ask (Fun l) :: es2) ++ [Announce k]). rewrite app_assoc. rewrite happens_app. done.
    - split; [done|]. exists a. done.
  Qed.
End thms.

(** methods with a callback of their own *)
Theorem once f grad s es : length (happens f grad false s es).2 = steps es ∧
  ∀ es1 l es2, es = es1 ++ Announce l :: es2 → (happens f grad false s es).2 !! steps es1 = Some (Call (Some (heap (happens f grad false s es1).1 l)) (values (happens f grad false s es1).1)).
Proof.
  assert (L : ∀ s es, length (happens f grad false s es).2 = steps es).
  { intros s0 es0. revert s0. induction es0 as [|[q|l] es0 IH]; intros s0; [done| |]; cbn.
    - specialize (IH (serve f grad s0 q).1). destruct (happens f grad false (serve f grad s0 q).1 es0). done.
    - specialize (IH s0). destruct (happens f grad false s0 es0). simpl in *. by f_equal. }
  split; [done|]. intros es1 l es2 ->. rewrite happens_app, lookup_app_r; rewrite L; [|lia]. rewrite Nat.sub_diag. cbn. by destruct (happens _ _ _ _ es2).
Qed.
