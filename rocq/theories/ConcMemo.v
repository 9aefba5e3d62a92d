(** Concatenation in graphs, and what a concatenation remembers. *)
From Coq Require Import Reals Lra.
From stdpp Require Import gmap strings pretty list list_numbers numbers.
From Verif Require Import EngineModel EngineSpec EngineEval GraphSpec ArrModel Curve ArrThms AdSpec ElemModel ElemSpec ElemThms ReorderModel ReorderSpec ReorderThms ReorderCache
  NpModel NpSpec NpThms ConcModel ConcSpec ConcThms ConcJac.

Lemma conc_names_nodup n : NoDup (conc_names n).
Proof.
  unfold conc_names. apply NoDup_fmap_2_strong; [|apply NoDup_seq]. intros i j _ _ E. simpl in E. injection E as E. by apply (inj pretty).
Qed.
Lemma agree_jac ax ps vs y q : concat ax vs = Some y → agree ps vs → q ∈ ps →
  ∃ J, conc_jac ax vs ((λ r, bool_decide (r = q)) <$> ps) = Some J.
Proof.
  intros Hy [Hl Hag] [t Hq]%elem_of_list_lookup. destruct (lookup_lt_is_Some_2 vs t) as [v Hv]; [rewrite Hl; by eapply lookup_lt_Some|].
  assert (Hsz : ∀ t' v', vs !! t' = Some v' → ((λ r, bool_decide (r = q)) <$> ps) !! t' = Some true → asize v' = asize v).
  { intros t' v' Hv' Hw. rewrite list_lookup_fmap in Hw. destruct (ps !! t') as [q'|] eqn:Eq; [|done]. simpl in Hw. injection Hw as Hw.
    apply bool_decide_eq_true in Hw as ->. by rewrite (Hag t t' q v v'). }
  destruct (conc_jac_is ax vs y ((λ r, bool_decide (r = q)) <$> ps) (asize v) Hy) as (J & HJ & _); [by rewrite fmap_length| |done|by exists J].
  apply (wrt_size_some vs _ t v); [done| |done]. rewrite list_lookup_fmap, Hq. simpl. by rewrite bool_decide_true.
Qed.
Lemma conc_op_right ax n tms ps vs y : concat ax vs = Some y → agree ps vs → op_right (op_conc ax n) tms ps vs.
Proof.
  intros Hy Hag. set (J := λ q, default (Spm 0 0 []) (conc_jac ax vs ((λ r, bool_decide (r = q)) <$> ps))).
  assert (HJ : ∀ q, q ∈ ps → conc_jac ax vs ((λ r, bool_decide (r = q)) <$> ps) = Some (J q)).
  { intros q Hq. destruct (agree_jac ax ps vs y q Hy Hag Hq) as (j & Hj). unfold J. by rewrite Hj. }
  exists (λ q, Some (J q)). split.
  - intros q Hq. cbn [np_jac op_conc]. by rewrite (HJ q Hq).
  - intros rho V Hvs Hm. destruct (conc_moves ax ps vs y J Hy HJ rho V Hvs Hm) as (yt & Hn & Hmv). exists yt. split; done.
Qed.
Lemma fine_conc (g : graph) x c ax n ps vs y : g !! x = Some c → c_cls nplib c = NOp (op_conc ax n) →
  c_dt nplib c = conc_names n → c_tm nplib c = [] →
  Forall2 (λ k q, c_attr nplib c !! k = Some (@ARef nplib q)) (conc_names n) ps →
  Forall2 (λ q v, denotes nplib g q QR v) ps vs → concat ax vs = Some y → fine_at g x.
Proof.
  intros Hc Hcls Hdt Htm Hps Hvs Hy. exists c. split; [done|]. rewrite Hcls. split_and!; [done..|].
  assert (Hag : agree ps vs).
  { split; [symmetry; by eapply Forall2_length|]. intros t t' q v v' H1 H2 H3 H4.
    pose proof (Forall2_lookup_lr _ _ _ _ _ _ Hvs H1 H3) as D1. pose proof (Forall2_lookup_lr _ _ _ _ _ _ Hvs H2 H4) as D2.
    exact (denotes_det nplib g q QR v v' D1 D2). }
  exists ps, vs. split_and!; [done|done|apply conc_names_nodup|by eapply conc_op_right|].
  intros q Hq E. exfalso. destruct (agree_jac ax ps vs y q Hy Hag Hq) as (j & Hj). cbn [np_jac op_conc] in E. rewrite Hj in E. done.
Qed.

(* ------------------------------------------------------------------ *)
(** Memory. *)
Definition kept (s : cstate) : Prop :=
  let '(env, o) := s in
  (co_our o = None → co_ev o = None ∧ co_dr o = []) ∧
  (∀ l, co_our o = Some l → l = co_attr o) ∧
  (∀ ev, co_ev o = Some ev → ∃ y, concat (co_ax o) (env <$> co_attr o) = Some y ∧ everything (co_ax o) (sh y) = Some ev) ∧
  Forall (λ e, e.1 ∈ co_attr o ∧ conc_jac (co_ax o) (env <$> co_attr o) ((λ p, bool_decide (p = e.1)) <$> co_attr o) = Some e.2) (co_dr o).
Lemma kept_our env o : kept (env, o) → our_terms o = co_attr o.
Proof. intros (_ & H & _). unfold our_terms. destruct (co_our o) as [l|]; [simpl; by apply H|done]. Qed.
Lemma kept_keep env o : kept (env, o) → kept (env, keep_our o).
Proof.
  intros H. pose proof (kept_our env o H) as E. destruct H as (H1 & H2 & H3 & H4). split_and!; [done| |done|done].
  intros l [= <-]. exact E.
Qed.
Lemma env_shapes (env env' : oid → arr R) (ps : list oid) : (∀ q, sh (env' q) = sh (env q)) → sh <$> (env <$> ps) = sh <$> (env' <$> ps : list (arr R)).
Proof. intros H. rewrite <- !list_fmap_compose. apply list_fmap_ext_ne. intros q _. unfold compose. by rewrite H. Qed.
Lemma kept_dr env w one o : kept (env, o) → kept (env, (conc_dr env w one o).2) ∧ co_ax (conc_dr env w one o).2 = co_ax o ∧ co_attr (conc_dr env w one o).2 = co_attr o ∧
  (conc_dr env w one o).1 =
  if decide (w ∈ co_attr o) then Some <$> conc_jac (co_ax o) (env <$> co_attr o) ((λ p, bool_decide (p = w)) <$> co_attr o) else Some None.
Proof.
  intros H. pose proof (kept_keep env o H) as Hkk. pose proof (kept_our env o H) as Eo. destruct H as (H1 & H2 & H3 & H4). unfold conc_dr.
  destruct (list_find _ (co_dr o)) as [[i [w' J]]|] eqn:Ef.
  - apply list_find_Some in Ef as (Hi & Hw & _). simpl in Hw. subst w'. cbn [fst snd]. split_and!; try done.
    rewrite list.Forall_forall in H4. destruct (H4 (w, J)) as [Hin HJ]; [by eapply elem_of_list_lookup_2|]. cbn [fst snd] in *.
    rewrite decide_True by done. by rewrite HJ.
  - rewrite Eo. destruct (decide (w ∈ co_attr o)) as [Hw|Hw]; [|cbn [fst snd]; by split_and!].
    unfold conc_jac. destruct (concat (co_ax o) (env <$> co_attr o)) as [y|] eqn:Ey; [|cbn [fst snd]; by split_and!].
    cbn [mbind option_bind].
    assert (Eev : match co_ev o with Some ev => Some ev | None => everything (co_ax o) (sh y) end = everything (co_ax o) (sh y)).
    { destruct (co_ev o) as [ev|]; [|done]. destruct (H3 ev eq_refl) as (y' & Hy' & Hev). assert (y' = y) as -> by congruence. done. }
    rewrite Eev. destruct (everything (co_ax o) (sh y)) as [ev|] eqn:Hev; [|cbn [fst snd]; by split_and!]. cbn [mbind option_bind].
    destruct (conc_jac_with ev (asize y) (co_ax o) (env <$> co_attr o) ((λ p, bool_decide (p = w)) <$> co_attr o)) as [J|] eqn:EJ; cbn [fst snd co_ax co_attr].
    + split_and!; try done. split_and!; cbn [co_our co_ev co_dr co_ax co_attr].
      * done.
      * by intros l [= <-].
      * intros e [= <-]. by exists y.
      * assert (Hj : w ∈ co_attr o ∧ conc_jac (co_ax o) (env <$> co_attr o) ((λ p, bool_decide (p = w)) <$> co_attr o) = Some J).
        { split; [done|]. unfold conc_jac. rewrite Ey. cbn [mbind option_bind]. rewrite Hev. done. }
        destruct one; [done|]. constructor; done.
    + split_and!; try done. split_and!; cbn [co_our co_ev co_dr co_ax co_attr]; try done.
      * by intros l [= <-].
      * intros e [= <-]. by exists y.
Qed.
Lemma kept_step e s : kept s → later_ok e s.1 → kept (conc_step e s).2 ∧ co_ax (conc_step e s).2.2 = co_ax s.2 ∧ co_attr (conc_step e s).2.2 = co_attr s.2.
Proof.
  destruct s as [env o]. intros H Hok. destruct e as [i q|q a| |w one]; [done| | |].
  - simpl in Hok. split_and!; try done. set (env' := λ p, if decide (p = q) then a else env p).
    assert (Hs : ∀ p, sh (env' p) = sh (env p)) by (intros p; unfold env'; destruct (decide (p = q)) as [->|]; done).
    pose proof (env_shapes env env' (co_attr o) Hs) as E. destruct H as (H1 & H2 & H3 & H4). split_and!; [done|done| |].
    + intros ev Hev. destruct (H3 ev Hev) as (y & Hy & Hey). destruct (concat_shapes _ _ _ _ E Hy) as (y' & Hy' & Hsy).
      exists y'. split; [done|]. by rewrite Hsy.
    + apply list.Forall_forall. intros e Hin. apply (proj1 (list.Forall_forall _ _)) with (x := e) in H4; [|done]. revert H4. intros [He HJ]. split; [done|]. by rewrite <- (conc_jac_shapes _ _ _ _ E).
  - split_and!; [|done|done]. by apply kept_keep.
  - cbn [conc_step]. destruct (kept_dr env w one o H) as (G1 & G2 & G3 & _). destruct (conc_dr env w one o) as [d o']. cbn [fst snd] in *. done.
Qed.
Lemma kept_run es s : kept s → quiet es s → kept (conc_run es s) ∧ co_ax (conc_run es s).2 = co_ax s.2 ∧ co_attr (conc_run es s).2 = co_attr s.2.
Proof.
  revert s. induction es as [|e es IH]; intros s H Hq; [done|]. cbn [conc_run quiet] in *. destruct Hq as [Hok Hq].
  destruct (kept_step e s H Hok) as (G1 & G2 & G3). destruct (IH _ G1 Hq) as (F1 & F2 & F3). split_and!; [done|congruence|congruence].
Qed.
Lemma before_run es env o : co_our o = None → co_ev o = None → co_dr o = [] → Forall before_ok es →
  let s := conc_run es (env, o) in co_our s.2 = None ∧ co_ev s.2 = None ∧ co_dr s.2 = [] ∧ co_ax s.2 = co_ax o.
Proof.
  revert env o. induction es as [|e es IH]; intros env o E1 E2 E3 Hb; [done|]. inversion Hb as [|? ? H1 H2]; subst. cbn [conc_run].
  destruct e as [i q|q a| |w one]; [|  |done|done].
  - cbn [conc_step snd]. destruct (IH env (CObj (co_ax o) (<[i := q]> (co_attr o)) (co_our o) (co_ev o) (co_dr o)) E1 E2 E3 H2) as (A & B & C & D). done.
  - cbn [conc_step snd]. by apply IH.
Qed.
Lemma memo_right ax ps env es1 es2 e : Forall before_ok es1 → let s1 := conc_run es1 (env, fresh_conc ax ps) in quiet es2 s1 →
  let s2 := conc_run es2 s1 in (conc_step e s2).1 = fresh_output e s2.1 ax (co_attr s1.2).
Proof.
  intros Hb s1 Hq s2. destruct (before_run es1 env (fresh_conc ax ps) eq_refl eq_refl eq_refl Hb) as (E1 & E2 & E3 & E4).
  fold s1 in E1, E2, E3, E4. assert (K1 : kept s1).
  { destruct s1 as [env1 o1]. cbn [snd] in *. unfold kept. rewrite E1, E2, E3. split_and!; [done|done|done|constructor]. }
  destruct (kept_run es2 s1 K1 Hq) as (K2 & A2 & B2). fold s2 in K2, A2, B2. simpl in E4. rewrite E4 in A2.
  rewrite <- A2, <- B2. clearbody s2. destruct s2 as [env2 o2]. cbn [fst snd]. destruct e as [i q|q a| |w one]; [done|done| |].
  - cbn [conc_step conc_r fst fresh_output]. by rewrite (kept_our _ _ K2).
  - cbn [conc_step fresh_output]. destruct (kept_dr env2 w one o2 K2) as (_ & _ & _ & G). destruct (conc_dr env2 w one o2) as [d o']. cbn [fst] in *. by rewrite G.
Qed.

(* ------------------------------------------------------------------ *)
(** Statements and counterexamples. *)
Lemma concat_defined ax vs : is_Some (concat ax vs) ↔ vs ≠ [] ∧ ∃ s k, axis_is (length s) ax k ∧ ∀ v, v ∈ vs → same_but k (sh v) s.
Proof.
  split.
  - intros [y Hy]. destruct (concat_inv ax vs y Hy) as (k & n & Hk & Hn & Hne & Hsb & _). split; [done|]. exists (sh y), k. by rewrite Hn.
  - intros (Hne & s & k & Hk & Hs). by eapply concat_some.
Qed.
Lemma conc_jacobian ax vs y (ps : list oid) q : concat ax vs = Some y → agree ps vs → q ∈ ps → ∃ k J, axis_is (length (sh y)) ax k ∧
  conc_jac ax vs ((λ r, bool_decide (r = q)) <$> ps) = Some J ∧
  (∀ t v, ps !! t = Some q → vs !! t = Some v → fits J (asize y) (asize v)) ∧
  ∀ t p v jx ix, ps !! t = Some p → vs !! t = Some v → inside (sh v) jx → inside (sh y) ix → stands k vs t jx ix →
    ∀ j, entry J (ravel (sh y) ix) j = if decide (p = q ∧ j = ravel (sh v) jx) then 1%R else 0%R.
Proof.
  intros Hy Hag Hq. destruct (concat_is ax vs y Hy) as (k & Hk & Hc). exists k.
  destruct Hag as [Hl Hag]. apply elem_of_list_lookup in Hq as [t0 Hq]. destruct (lookup_lt_is_Some_2 vs t0) as [v0 Hv0]; [rewrite Hl; by eapply lookup_lt_Some|].
  assert (Hfl : ∀ p t, ps !! t = Some p → ((λ r, bool_decide (r = q)) <$> ps) !! t = Some true ↔ p = q).
  { intros p t Hp. rewrite list_lookup_fmap, Hp. simpl. split; [by intros [= ?%bool_decide_eq_true]|intros ->; by rewrite bool_decide_true]. }
  assert (Hsz : ∀ t v, vs !! t = Some v → ((λ r, bool_decide (r = q)) <$> ps) !! t = Some true → asize v = asize v0).
  { intros t v Hv Hw. destruct (ps !! t) as [p|] eqn:Ep; [|by rewrite list_lookup_fmap, Ep in Hw]. apply (Hfl p t Ep) in Hw as ->.
    by rewrite (Hag t t0 q v v0). }
  destruct (conc_jac_is ax vs y ((λ r, bool_decide (r = q)) <$> ps) (asize v0) Hy) as (J & HJ & Hf & Ha); [by rewrite fmap_length| |done|].
  { apply (wrt_size_some vs _ t0 v0); [done|by apply (Hfl q)|done]. }
  exists J. split_and!; [done|done| |].
  - intros t v Hp Hv. by rewrite (Hsz t v Hv (proj2 (Hfl q t Hp) eq_refl)).
  - intros t p v jx ix Hp Hv Hjx Hix Hst j. rewrite <- mact_unit.
    rewrite (Ha k Hk (unit_ j) (ravel (sh y) ix) t v jx); [|by apply ravel_lt|done|done|by rewrite unravel_ravel].
    destruct (decide (((λ r, bool_decide (r = q)) <$> ps) !! t = Some true)) as [E|E].
    + apply (Hfl p t Hp) in E as ->. unfold unit_. destruct (decide (ravel (sh v) jx = j)) as [<-|Hne].
      * by rewrite decide_True.
      * rewrite decide_False; [done|]. intros [_ ->]. done.
    + rewrite decide_False; [done|]. intros [-> _]. apply E. by apply (Hfl q).
Qed.
Definition env0 : oid → arr R := λ q, of_list 0%R [1] [INR q].
Definition first_of (o : option coutput) : R := match o with Some (OutR (Some y)) => dat y 0 | _ => 0%R end.
Lemma reassign_wrong : ∃ ax ps env es e, let s := conc_run es (env, fresh_conc ax ps) in
  (conc_step e s).1 ≠ fresh_output e s.1 ax (co_attr s.2) ∧ e = AskR ∧ ∀ e', e' ∈ es → e' = AskR ∨ e' = Assign 0 3.
Proof.
  exists 0%Z, [1; 2], env0, [AskR; Assign 0 3], AskR. cbv zeta. split_and!; [|done|set_solver].
  intros E. apply (f_equal first_of) in E. vm_compute in E. lra.
Qed.
Definition cols_of (o : option coutput) : nat := match o with Some (OutDr (Some (Some J))) => ncol J | _ => 0 end.
Definition raises (o : option coutput) : bool := match o with Some (OutDr None) => true | _ => false end.
(** The remembered Jacobian, or the remembered indices. *)
Lemma reshape_wrong : ∃ ax ps env, (∃ es w, let s := conc_run es (env, fresh_conc ax ps) in
    cols_of (conc_step (AskDr w false) s).1 = 1 ∧ cols_of (fresh_output (AskDr w false) s.1 ax (co_attr s.2)) = 3 ∧
    ∀ e', e' ∈ es → ¬ ∃ i q, e' = Assign i q) ∧
  ∃ es w, let s := conc_run es (env, fresh_conc ax ps) in
    raises (conc_step (AskDr w true) s).1 = true ∧ cols_of (fresh_output (AskDr w true) s.1 ax (co_attr s.2)) = 1 ∧
    ∀ e', e' ∈ es → ¬ ∃ i q, e' = Assign i q.
Proof.
  exists 0%Z, [1; 2], env0. split.
  - exists [AskDr 1 false; Put 1 (of_list 0%R [3] [1; 2; 3]%R)], 1. split_and!; [by vm_compute..|].
    intros e' He (i & q & ->). set_solver.
  - exists [AskDr 1 true; Put 1 (of_list 0%R [3] [1; 2; 3]%R)], 2. split_and!; [by vm_compute..|].
    intros e' He (i & q & ->). set_solver.
Qed.
Lemma conc_value ax vs :
  (is_Some (concat ax vs) ↔ vs ≠ [] ∧ ∃ s k, axis_is (length s) ax k ∧ ∀ v, v ∈ vs → same_but k (sh v) s) ∧
  ∀ y, concat ax vs = Some y → ∃ k, axis_is (length (sh y)) ax k ∧ is_concat k vs y ∧
    (∀ ix, inside (sh y) ix → ∃ t v jx, vs !! t = Some v ∧ inside (sh v) jx ∧ stands k vs t jx ix) ∧
    ∀ z, is_concat k vs z → aeq y z.
Proof.
  split; [apply concat_defined|]. intros y Hy. destruct (concat_is ax vs y Hy) as (k & Hk & Hc). exists k. split_and!; [done|done| |].
  - intros ix Hix. by eapply is_concat_covers.
  - intros z Hz. destruct (concat_inv ax vs y Hy) as (_ & _ & _ & _ & Hne & _). by eapply is_concat_unique.
Qed.
Lemma concatenate_flat ax l vs y : cvals l = Some vs → concat ax vs = Some y →
  ∃ l' z, concatenate ax l = Some (Conc ax l') ∧ cval (Conc ax l') = Some z ∧ aeq y z ∧ Forall (no_conc ax) l'.
Proof.
  intros Hvs Hy. destruct (concatenate_value ax l vs y Hvs Hy) as (t & z & Ht & Hz & Hyz). unfold concatenate in *.
  apply fmap_Some in Ht as (l' & Hl & ->). exists l', z. rewrite Hl. split_and!; [done|done|done|]. eapply expand_flat; [done|constructor].
Qed.
