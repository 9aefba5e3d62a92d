(** Proofs about sessions. *)
From Coq Require Import ssreflect.
From stdpp Require Import list numbers gmap.
From Verif Require Import BlendModel BlendSpec BlendThms SessModel SessSpec.

Section thms.
  Context {N : numpy}.
  Implicit Types (e : nat → arrays N) (p q : prog N).
  Lemma named_outside_nil p : named p = [] → named_outside p = [].
  Proof.
    induction p as [i|v|o p IHp q IHq|f p IHp|f p IHp q IHq|f p IHp|f p IHp q IHq|p IHp|p IHp]; cbn; intros H; try done; try by apply IHp.
    - apply app_nil in H as [H1 H2]. by rewrite IHp // IHq.
    - apply app_nil in H as [H1 H2]. by rewrite IHp // IHq.
  Qed.
  Lemma array_same e e' p x : named p = [] → run e p = Some x → array_of e x = array_of e' x.
  Proof.
    intros H Hr. apply (only_outside e e e' p x Hr). rewrite (named_outside_nil p H). by intros i ?%elem_of_nil.
  Qed.
  Lemma run_same_nil e e' p : named p = [] → run e p = run e' p.
  Proof.
    induction p as [i|v|o p IHp q IHq|f p IHp|f p IHp q IHq|f p IHp|f p IHp q IHq|p IHp|p IHp]; cbn; intros H; try done.
    - apply app_nil in H as [H1 H2]. by rewrite (IHp H1) (IHq H2).
    - by rewrite (IHp H).
    - apply app_nil in H as [H1 H2]. by rewrite (IHp H1) (IHq H2).
    - rewrite (IHp H). destruct (run e' p) as [x|] eqn:E; [|done]. cbn. by rewrite (array_same e' e p x H E).
    - apply app_nil in H as [H1 H2]. rewrite (IHp H1) (IHq H2).
      destruct (run e' p) as [x|] eqn:E; [|done]. destruct (run e' q) as [y|] eqn:E'; [|done]. cbn.
      by rewrite (array_same e' e p x H1 E) (array_same e' e q y H2 E').
    - rewrite (IHp H). destruct (run e' p) as [x|] eqn:E; [|done]. cbn. by rewrite (array_same e' e p x H E).
    - by rewrite (IHp H).
  Qed.
  Lemma run_same e e' p : open p → run e p = run e' p.
  Proof.
    induction p as [i|v|o p IHp q IHq|f p IHp|f p IHp q IHq|f p IHp|f p IHp q IHq|p IHp|p IHp]; intros H.
    - done.
    - done.
    - destruct H as [H1 H2]. cbn. by rewrite (IHp H1) (IHq H2).
    - cbn. by rewrite (IHp H).
    - destruct H as [H1 H2]. cbn. by rewrite (IHp H1) (IHq H2).
    - by apply run_same_nil.
    - apply run_same_nil. destruct H as [H1 H2]. cbn. by rewrite H1 H2.
    - by apply run_same_nil.
    - cbn. by rewrite (IHp H).
  Qed.
  Lemma run_in_inline ns (f : nat → option (prog N)) e p : (∀ y, ns y = (q ← f y; run e q)) →
    run_in ns e p = (q ← inline f p; run e q).
  Proof.
    intros H. induction p as [i|v|o p IHp q IHq|g p IHp|g p IHp q IHq|g p IHp|g p IHp q IHq|p IHp|p IHp]; cbn.
    - apply H.
    - done.
    - rewrite IHp IHq; destruct (inline f p) as [p'|]; cbn; [|done]; destruct (inline f q) as [q'|]; cbn; [done|]; destruct (run e p'); done.
    - rewrite IHp; destruct (inline f p) as [p'|]; cbn; done.
    - rewrite IHp IHq; destruct (inline f p) as [p'|]; cbn; [|done]; destruct (inline f q) as [q'|]; cbn; [done|]; destruct (run e p'); done.
    - rewrite IHp; destruct (inline f p) as [p'|]; cbn; done.
    - rewrite IHp IHq; destruct (inline f p) as [p'|]; cbn; [|done]; destruct (inline f q) as [q'|]; cbn; [done|]; destruct (run e p'); done.
    - rewrite IHp; destruct (inline f p) as [p'|]; cbn; done.
    - rewrite IHp; destruct (inline f p) as [p'|]; cbn; done.
  Qed.
  Lemma run_cell e p x : run e p = Some x → open p →
    cell_of p = match x with Obj (OVar k) => Some k | _ => None end.
  Proof.
    revert x. induction p as [i|v|o p IHp q IHq|f p IHp|f p IHp q IHq|f p IHp|f p IHp q IHq|p IHp|p IHp]; intros z; cbn.
    - by intros [= <-].
    - by intros [= <-].
    - destruct (run e p) as [x|]; [|done]. destruct (run e q) as [y|]; [|done]. cbn. intros H _.
      destruct x as [v|a], y as [w|b]; cbn [apply_op] in H.
      + destruct (np2 N _ v w); [|done]. by injection H as <-.
      + destruct o; try done; by injection H as <-.
      + by injection H as <-.
      + by injection H as <-.
    - destruct (run e p) as [x|]; [|done]. by intros [= <-].
    - destruct (run e p) as [x|]; [|done]. destruct (run e q) as [y|]; [|done]. by intros [= <-].
    - destruct (run e p) as [x|]; [|done]. cbn. destruct (array_of e x) as [v|]; [|done]. cbn.
      destruct (np1 N f v); [|done]. by intros [= <-].
    - destruct (run e p) as [x|]; [|done]. destruct (run e q) as [y|]; [|done]. cbn.
      destruct (array_of e x) as [v|]; [|done]. cbn. destruct (array_of e y) as [w|]; [|done]. cbn.
      destruct (np2 N f v w); [|done]. by intros [= <-].
    - destruct (run e p) as [x|]; [|done]. cbn. destruct (array_of e x) as [v|]; [|done]. by intros [= <-].
    - destruct (run e p) as [x|]; [|done]. cbn. intros [= <-] Ho. rewrite (IHp x eq_refl Ho).
      by destruct x as [v|[]].
  Qed.

  Lemma put_eq {A} (f : nat → A) k x : put f k x k = x.
  Proof. unfold put. by rewrite decide_True. Qed.
  Lemma put_ne {A} (f : nat → A) k i x : i ≠ k → put f k x i = f i.
  Proof. intros. unfold put. by rewrite decide_False. Qed.
  Definition agree (st : state N) (t : sheet N) : Prop :=
    made st = count t ∧ (∀ i, cells st i = value t i) ∧
    (∀ y q, formula t y = Some q → open q) ∧
    (∀ y, names st y = (q ← formula t y; run (cells st) q)) ∧
    (∀ y, is_Some (formula t y) → is_Some (names st y)).
  Lemma agree_fresh (v : arrays N) : agree (fresh v) (blank v).
  Proof. repeat split; try done. by intros y [? [=]]. Qed.
  Lemma step_agree st t s st' : agree st t → clean_stmt t s → step st s = Some st' →
    ∃ t', sheet_step t s = Some t' ∧ agree st' t'.
  Proof.
    intros (Hm & Hc & Ho & Hn & Hs) Hcl. destruct s as [y v|y p|y v]; cbn.
    - intros [= <-]. eexists; split; [done|]. repeat split; cbn.
      + by rewrite Hm.
      + intros i. rewrite Hm. destruct (decide (i = count t)) as [->|Hne].
        * by rewrite put_eq.
        * by rewrite put_ne.
      + intros z q. destruct (decide (z = y)) as [->|Hne].
        * rewrite put_eq. by intros [= <-].
        * rewrite put_ne //. apply Ho.
      + intros z. unfold bind. destruct (decide (z = y)) as [->|Hne].
        * rewrite put_eq. cbn. by rewrite Hm.
        * rewrite put_ne // Hn. destruct (formula t z) as [q|] eqn:E; [|done]. cbn.
          apply run_same. by apply (Ho z).
      + intros z. unfold bind. destruct (decide (z = y)) as [->|Hne]; [by eexists|].
        rewrite put_ne //. apply Hs.
    - rewrite (run_in_inline _ (formula t)) //. destruct (inline (formula t) p) as [q|] eqn:E; [|done]. cbn.
      destruct (run (cells st) q) as [x|] eqn:Ex; [|done]. cbn. intros [= <-]. eexists; split; [done|].
      repeat split; cbn; try done.
      + intros z q'. destruct (decide (z = y)) as [->|Hne].
        * rewrite put_eq. intros [= <-]. by apply Hcl.
        * rewrite put_ne //. apply Ho.
      + intros z. unfold bind. destruct (decide (z = y)) as [->|Hne].
        * by rewrite put_eq.
        * by rewrite put_ne.
      + intros z. unfold bind. destruct (decide (z = y)) as [->|Hne]; [by eexists|].
        rewrite put_ne //. apply Hs.
    - rewrite Hn. destruct (formula t y) as [q|] eqn:E; [|done]. cbn.
      destruct (run (cells st) q) as [x|] eqn:Ex; [|done].
      rewrite (run_cell _ _ _ Ex (Ho _ _ E)). destruct x as [|[k| | |]]; try done. intros [= <-].
      eexists; split; [done|]. repeat split; cbn; try done.
      + intros i. destruct (decide (i = k)) as [->|Hne].
        * by rewrite put_eq.
        * by rewrite put_ne.
      + intros z. rewrite Hn. destruct (formula t z) as [q'|] eqn:E'; [|done]. cbn.
        apply run_same. by apply (Ho z).
  Qed.
  Lemma session_agree l st t st' : agree st t → clean t l → session st l = Some st' →
    ∃ t', sheet_run t l = Some t' ∧ agree st' t'.
  Proof.
    revert st t. induction l as [|s l IH]; intros st t Ha Hc; cbn.
    - intros [= <-]. by eexists.
    - destruct Hc as [H1 H2]. destruct (step st s) as [st1|] eqn:E; [|done]. cbn. intros H.
      destruct (step_agree _ _ _ _ Ha H1 E) as (t1 & E1 & A1). rewrite E1. cbn. by apply (IH st1); [|apply H2|].
  Qed.
  Lemma meaning_ext e e' p : (∀ i, e i = e' i) → meaning e p = meaning e' p.
  Proof. intros H. apply meaning_agree. auto. Qed.
  Lemma session_shown (v : arrays N) l (st : state N) : clean (blank v) l → session (fresh v) l = Some st →
    ∃ t : sheet N, sheet_run (blank v) l = Some t ∧ ∀ y, look st y = shown t y.
  Proof.
    intros Hc H. destruct (session_agree _ _ _ _ (agree_fresh v) Hc H) as (t & Ht & Hm & Hv & Ho & Hn & Hs).
    exists t. split; [done|]. intros y. unfold look, shown. specialize (Hs y). rewrite Hn. rewrite Hn in Hs.
    destruct (formula t y) as [q|] eqn:E; [|done]. cbn in *.
    destruct Hs as [x Hx]; [by eexists|]. rewrite Hx. cbn. rewrite (value_now _ _ _ Hx). by apply meaning_ext.
  Qed.
  Lemma step_fine st t s : agree st t → fine_stmt t s → is_Some (step st s).
  Proof.
    intros (Hm & Hc & Ho & Hn & Hs) Hf. destruct s as [y v|y p|y v]; cbn.
    - by eexists.
    - destruct Hf as (q & Hq & Hd & Hv). rewrite (run_in_inline _ (formula t)) // Hq. cbn.
      destruct (runs (cells st) q Hd) as [x Hx].
      { by rewrite (meaning_ext _ (value t)). }
      rewrite Hx. by eexists.
    - destruct Hf as (q & k & Hq & Hk). destruct (Hs y) as [x Hx]; [by eexists|].
      rewrite Hx. rewrite Hn Hq in Hx. cbn in Hx. rewrite (run_cell _ _ _ Hx (Ho _ _ Hq)) in Hk.
      by destruct x as [|[]].
  Qed.
  Lemma session_fine_from l st t : agree st t → clean t l → fine t l → is_Some (session st l).
  Proof.
    revert st t. induction l as [|s l IH]; intros st t Ha Hc Hf; cbn; [by eexists|].
    destruct Hc as [H1 H2], Hf as [F1 F2]. destruct (step_fine _ _ _ Ha F1) as [st' E]. rewrite E. cbn.
    destruct (step_agree _ _ _ _ Ha H1 E) as (t1 & E1 & A1). apply (IH st' t1); auto.
  Qed.
  Lemma session_fine (v : arrays N) l : clean (blank v) l → fine (blank v) l → is_Some (session (fresh v) l).
  Proof. apply session_fine_from, agree_fresh. Qed.

  Lemma freeze_open e p q : freeze e p = Some q → open q.
  Proof.
    revert q. induction p as [i|v|o p IHp q IHq|f p IHp|f p IHp q IHq|f p IHp|f p IHp q IHq|p IHp|p IHp]; intros z; cbn [freeze].
    - by intros [= <-].
    - by intros [= <-].
    - destruct (freeze e p) as [p'|]; [|done]. destruct (freeze e q) as [q'|]; [|done]. cbn. intros [= <-].
      split; auto.
    - destruct (freeze e p) as [p'|]; [|done]. cbn. intros [= <-]. cbn. auto.
    - destruct (freeze e p) as [p'|]; [|done]. destruct (freeze e q) as [q'|]; [|done]. cbn. intros [= <-].
      split; auto.
    - destruct (meaning e _); [|done]. by intros [= <-].
    - destruct (meaning e _); [|done]. by intros [= <-].
    - destruct (meaning e p); [|done]. by intros [= <-].
    - destruct (freeze e p) as [p'|]; [|done]. cbn. intros [= <-]. cbn. auto.
  Qed.
  Lemma run_plain e p x : run e p = Some x → ¬ is_object p → ∃ v, x = Plain v ∧ meaning e p = Some v.
  Proof.
    intros H Hn. destruct x as [v|a].
    - exists v. split; [done|]. by rewrite -(value_now e p _ H).
    - destruct Hn. apply (run_object e p _ H). by eexists.
  Qed.
  Lemma run_freeze e p x : run e p = Some x → ∃ q, freeze e p = Some q ∧ run e q = Some x.
  Proof.
    revert x. induction p as [i|v|o p IHp q IHq|f p IHp|f p IHp q IHq|f p IHp|f p IHp q IHq|p IHp|p IHp]; intros z H.
    - by eexists.
    - by eexists.
    - cbn in H. destruct (run e p) as [x|] eqn:Ex; [|done]. destruct (run e q) as [y|] eqn:Ey; [|done].
      destruct (IHp x eq_refl) as (p' & Hp & Hp'). destruct (IHq y eq_refl) as (q' & Hq & Hq').
      eexists. cbn. rewrite Hp Hq. split; [done|]. cbn. by rewrite Hp' Hq'.
    - cbn in H. destruct (run e p) as [x|] eqn:Ex; [|done].
      destruct (IHp x eq_refl) as (p' & Hp & Hp').
      eexists. cbn. rewrite Hp. split; [done|]. cbn. by rewrite Hp'.
    - cbn in H. destruct (run e p) as [x|] eqn:Ex; [|done]. destruct (run e q) as [y|] eqn:Ey; [|done].
      destruct (IHp x eq_refl) as (p' & Hp & Hp'). destruct (IHq y eq_refl) as (q' & Hq & Hq').
      eexists. cbn. rewrite Hp Hq. split; [done|]. cbn. by rewrite Hp' Hq'.
    - destruct (run_plain e _ z H) as (v & -> & Hv); [cbn; tauto|].
      exists (PArr v). cbn [freeze]. by rewrite Hv.
    - destruct (run_plain e _ z H) as (v & -> & Hv); [cbn; tauto|].
      exists (PArr v). cbn [freeze]. by rewrite Hv.
    - cbn in H. destruct (run e p) as [x|] eqn:Ex; [|done]. cbn in H.
      rewrite (value_now e p x Ex) in H. destruct (meaning e p) as [v|] eqn:Ev; [|done]. injection H as <-.
      exists (PArray (PArr v)). cbn. by rewrite Ev.
    - cbn in H. destruct (run e p) as [x|] eqn:Ex; [|done].
      destruct (IHp x eq_refl) as (p' & Hp & Hp').
      eexists. cbn. rewrite Hp. split; [done|]. cbn. by rewrite Hp'.
  Qed.
  Lemma freeze_ext e e' p : (∀ i, e i = e' i) → freeze e p = freeze e' p.
  Proof.
    intros H. induction p as [i|v|o p IHp q IHq|f p IHp|f p IHp q IHq|f p IHp|f p IHp q IHq|p IHp|p IHp];
      cbn [freeze]; rewrite ?IHp ?IHq ?(meaning_ext e e' _ H) //.
  Qed.
  Lemma frozen_agree st t s st' : agree st t → step st s = Some st' →
    ∃ t', frozen_step t s = Some t' ∧ agree st' t'.
  Proof.
    intros Ha. destruct s as [y v|y p|y v]; [by apply step_agree| |by apply step_agree].
    destruct Ha as (Hm & Hc & Ho & Hn & Hs). cbn.
    rewrite (run_in_inline _ (formula t)) //. destruct (inline (formula t) p) as [q|] eqn:E; [|done]. cbn.
    destruct (run (cells st) q) as [x|] eqn:Ex; [|done]. cbn. intros [= <-].
    destruct (run_freeze _ _ _ Ex) as (q' & Hq & Hr).
    rewrite -(freeze_ext _ _ q Hc) Hq. eexists; split; [done|].
    repeat split; cbn; try done.
    + intros z q2. destruct (decide (z = y)) as [->|Hne].
      * rewrite put_eq. intros [= <-]. by apply (freeze_open (cells st) q).
      * rewrite put_ne //. apply Ho.
    + intros z. unfold bind. destruct (decide (z = y)) as [->|Hne].
      * by rewrite put_eq.
      * by rewrite put_ne.
    + intros z. unfold bind. destruct (decide (z = y)) as [->|Hne]; [by eexists|].
      rewrite put_ne //. apply Hs.
  Qed.
  Lemma session_frozen l st t st' : agree st t → session st l = Some st' →
    ∃ t', frozen_run t l = Some t' ∧ agree st' t'.
  Proof.
    revert st t. induction l as [|s l IH]; intros st t Ha; cbn.
    - intros [= <-]. by eexists.
    - destruct (step st s) as [st1|] eqn:E; [|done]. cbn. intros H.
      destruct (frozen_agree _ _ _ _ Ha E) as (t1 & E1 & A1). rewrite E1. cbn. by apply (IH st1).
  Qed.
  Lemma agree_shown st t : agree st t → (∀ y, look st y = shown t y) ∧
    ∀ y q x, formula t y = Some q → names st y = Some x → depends_on x = named q.
  Proof.
    intros (Hm & Hv & Ho & Hn & Hs). split.
    - intros y. unfold look, shown. specialize (Hs y). rewrite Hn. rewrite Hn in Hs.
      destruct (formula t y) as [q|] eqn:E; [|done]. cbn in *.
      destruct Hs as [x Hx]; [by eexists|]. rewrite Hx. cbn. rewrite (value_now _ _ _ Hx). by apply meaning_ext.
    - intros y q x Hq Hx. rewrite Hn Hq in Hx. cbn in Hx. apply (open_depends (cells st)); [by apply (Ho y)|done].
  Qed.
  Lemma frozen_shown (v : arrays N) l (st : state N) : session (fresh v) l = Some st →
    ∃ t : sheet N, frozen_run (blank v) l = Some t ∧ (∀ y, look st y = shown t y) ∧
      ∀ y q x, formula t y = Some q → names st y = Some x → depends_on x = named q.
  Proof.
    intros H. destruct (session_frozen _ _ _ _ (agree_fresh v) H) as (t & Ht & Ha).
    exists t. split; [done|]. by apply agree_shown.
  Qed.
  Lemma session_depends (v : arrays N) l (st : state N) : clean (blank v) l → session (fresh v) l = Some st →
    ∃ t : sheet N, sheet_run (blank v) l = Some t ∧
      ∀ y q x, formula t y = Some q → names st y = Some x → depends_on x = named q.
  Proof.
    intros Hc H. destruct (session_agree _ _ _ _ (agree_fresh v) Hc H) as (t & Ht & Ha).
    exists t. split; [done|]. by apply agree_shown.
  Qed.
End thms.
