(** Differentiation with respect to a slice. *)
From stdpp Require Import gmap strings list relations.
From Verif Require Import EngineModel EngineSpec EngineEval EngineDemo EngineRead Check GraphModel GraphSpec GraphThms
  RevModel RevSpec RevThms RevDemo.

Section slice.
Context (L : lib).
Notation graph := (gmap oid (core L)).
Notation points := (points L).
Implicit Types (g : graph) (c : core L).
Context (HJ : jac_laws L) (HR : ∀ a b d : Jac L, jmul L (jadd L a b) d = jadd L (jmul L a d) (jmul L b d)).

Lemma foldl_distr a l : ∀ b, jmul L (foldl (jadd L) b l) a = foldl (jadd L) (jmul L b a) ((λ j, jmul L j a) <$> l).
Proof. induction l as [|c l IH]; intros b; [done|]. simpl. by rewrite IH, HR. Qed.
Lemma reduce_distr a l : reduce_jac L ((λ j, jmul L j a) <$> l) = (λ j, jmul L j a) <$> reduce_jac L l.
Proof. destruct l as [|b l]; [done|]. simpl. by rewrite foldl_distr. Qed.

Context (g : graph) (s p : oid) (cs : core L) (k : nat) (jw : Jac L).
Context (Hlocal : local_derivatives L) (Hac : acyclic (points g)).
Context (Hs : g !! s = Some cs) (Hperm : is_permute L (c_cls L cs) = true)
  (Hdt : "a"%string ∈ c_dt L cs) (Ha : c_attr L cs !! "a"%string = Some (ARef p))
  (Hp : not_view L g p) (Hjw : pdirect L k g s p = Some (Some jw)).
Notation T := (jT L jw).

Lemma pdirect_det n m o w d d' : pdirect L n g o w = Some d → pdirect L m g o w = Some d' → d = d'.
Proof.
  intros H H'. apply (pdirect_mono L n (n `max` m)) in H; [|lia]. apply (pdirect_mono L m (n `max` m)) in H'; [|lia].
  congruence.
Qed.
Lemma pdirect_slice n o d : o ≠ s → ¬ points g o s → pdirect L n g o s = Some d → d = None.
Proof.
  intros Hne Hn H. destruct d as [j|]; [|done].
  destruct (pdirect_phantom L n g o s j Hlocal H) as [?|[? _]]; done.
Qed.
Lemma psliced_slice n o d : o ≠ s → ¬ points g o s → psliced L n g o s = Some d →
  (o = p ∧ d = None) ∨ (o ≠ p ∧ ∃ d', pdirect L n g o p = Some d' ∧ d = (λ j, jmul L j T) <$> d').
Proof.
  intros Hne Hn H. unfold psliced in H. destruct (pdirect L n g o s) as [x|] eqn:Ex; [|done].
  rewrite (pdirect_slice n o x Hne Hn Ex) in H. clear Ex x.
  destruct n as [|n]; [done|]. cbn [pwalk] in H. rewrite Hs, Hperm, Ha in H.
  destruct (decide (p = o)) as [->|Hpo].
  { left. split; [done|]. by injection H as <-. }
  right. split; [done|]. destruct (pdirect L (S n) g o p) as [[j|]|] eqn:Ej; [| |done].
  - exists (Some j). split; [done|]. destruct (pdirect L (S n) g s p) as [[jw'|]|] eqn:Ew; try done.
    injection H as <-. pose proof (pdirect_det _ _ _ _ _ _ Ew Hjw) as [= ->]. done.
  - exists None. split; [done|]. destruct n as [|n]; [done|]. destruct Hp as (cp & Hcp & Hpv). cbn [pwalk] in H.
    rewrite Hcp, Hpv in H. by injection H as <-.
Qed.

(** Nothing at or below p has a derivative with respect to s. *)
Lemma drval_slice_reach n : ∀ o j, ¬ rtc (points g) o s → drval L n g o s = Some (Some j) → tc (points g) o p.
Proof.
  induction n as [|n IH]; intros o j Hr H; [done|]. simpl in H.
  destruct (g !! o) as [c|] eqn:Hc; [|done].
  destruct (psliced L n g o s) as [d|] eqn:Ed; [|done].
  destruct (pdr_loop L _ n g o s c (c_dt L c) (opt_list d)) as [l|] eqn:El; [|done].
  assert (Hos : o ≠ s) by (intros ->; by apply Hr).
  assert (Hops : ¬ points g o s) by (intros Ht; apply Hr; by apply rtc_once).
  apply pdr_loop_some in El as [->|(k' & q & j2 & Hk & Hq & Hne & Hj2)].
  - destruct d as [d|]; [|done].
    destruct (psliced_slice n o _ Hos Hops Ed) as [[_ ?]|(Hne & d' & Hd' & E)]; [done|].
    destruct d' as [d'|]; [|done].
    destruct (pdirect_phantom L n g o p d' Hlocal Hd') as [?|[? _]]; [by apply tc_once|done].
  - assert (Hoq : points g o q) by (by exists c, k').
    apply (tc_l _ o q p); [done|]. apply (IH q j2); [|done]. intros Ht. apply Hr. by eapply rtc_l.
Qed.

Lemma slice_columns n : ∀ m o x y, o ≠ p → ¬ rtc (points g) o s →
  drval L n g o s = Some x → drval L m g o p = Some y → x = (λ j, jmul L j T) <$> y.
Proof.
  induction n as [|n IH]; intros m o x y Hop Hr Hx Hy; [done|]. destruct m as [|m]; [done|].
  simpl in Hx, Hy. destruct (g !! o) as [c|] eqn:Hc; [|done].
  destruct (psliced L n g o s) as [d|] eqn:Ed; [|done].
  destruct (psliced L m g o p) as [e|] eqn:Ee; [|done].
  assert (Hos : o ≠ s) by (intros ->; by apply Hr).
  assert (Hops : ¬ points g o s) by (intros Ht; apply Hr; by apply rtc_once).
  destruct (psliced_slice n o _ Hos Hops Ed) as [[? _]|(_ & d' & Hd' & ->)]; [done|].
  assert (E : e = d').
  { rewrite psliced_not_view in Ee by done. destruct (pdirect L m g o p) as [e'|] eqn:Ee'; [|done].
    rewrite <- (pdirect_det _ _ _ _ _ _ Ee' Hd'). destruct e'; [congruence|]. by destruct m; simplify_eq. }
  subst e. clear Ed Ee.
  destruct (pdr_loop L _ n g o s c _ _) as [l|] eqn:El; [|done].
  destruct (pdr_loop L _ m g o p c _ _) as [l'|] eqn:El'; [|done].
  injection Hx as <-. injection Hy as <-. rewrite <- reduce_distr. f_equal.
  assert (Hks : ∀ k' q, k' ∈ c_dt L c → c_attr L c !! k' = Some (ARef q) → points g o q).
  { intros k' q ? ?. by exists c, k'. }
  replace (opt_list ((λ j, jmul L j T) <$> d')) with ((λ j, jmul L j T) <$> opt_list d') in El by (by destruct d').
  revert El El'. generalize (opt_list d'). revert Hks. generalize (c_dt L c) as ks.
  induction ks as [|k' ks IHk]; intros Hks acc; simpl; [by intros [= <-] [= <-]|].
  assert (Hks' : ∀ k' q, k' ∈ ks → c_attr L c !! k' = Some (ARef q) → points g o q).
  { intros k2 q ?. apply Hks. by right. }
  specialize (IHk Hks').
  destruct (c_attr L c !! k') as [[t|q]|] eqn:Ek; [apply IHk| |apply IHk].
  assert (Hoq : points g o q) by (apply (Hks k'); [by left|done]).
  assert (Hqs : ¬ rtc (points g) q s) by (intros Ht; apply Hr; by eapply rtc_l).
  rewrite decide_False by (intros ->; by apply Hqs).
  destruct (drval L n g q s) as [x|] eqn:Eqs; [|done].
  destruct (decide (q = p)) as [->|Hqp].
  { destruct x as [x|]; [|apply IHk]. destruct (Hac p). by apply (drval_slice_reach n p x). }
  destruct (drval L m g q p) as [y|] eqn:Eqp; [|done].
  rewrite (IH m q x y Hqp Hqs Eqs Eqp). destruct y as [y|]; simpl; [|apply IHk].
  destruct (psliced L n g o q) as [u|] eqn:Eu; [|done].
  destruct (psliced L m g o q) as [u'|] eqn:Eu'; [|done].
  rewrite <- (psliced_det L _ _ _ _ _ _ _ Eu Eu'). destruct u as [u|]; [|apply IHk].
  intros H1 H2. apply (IHk (acc ++ [jmul L u y])); [|done]. rewrite fmap_app. simpl.
  by rewrite <- (jl_assoc L HJ).
Qed.
End slice.

(** After a history. *)
Lemma hist_slice (L : lib) l : lib_ok L → valid L l → jac_laws L →
  (∀ a b c, jmul L (jadd L a b) c = jadd L (jmul L a c) (jmul L b c)) → local_derivatives L →
  acyclic (points L (gexec L l ∅)) → ∀ o s p cs jw x y,
  gexec L l ∅ !! s = Some cs → is_permute L (c_cls L cs) = true → "a"%string ∈ c_dt L cs →
  c_attr L cs !! "a"%string = Some (ARef p) → not_view L (gexec L l ∅) p →
  (∃ k, pdirect L k (gexec L l ∅) s p = Some (Some jw)) →
  o ≠ p → ¬ rtc (points L (gexec L l ∅)) o s →
  dr_denotes L (gexec L l ∅) o s x → dr_denotes L (gexec L l ∅) o p y → x = (λ j, jmul L j (jT L jw)) <$> y.
Proof.
  intros Hlib Hv HJ HR HL Hac o s p cs jw x y Hs Hperm Hdt Ha Hp [k Hjw] Hop Hr [n Hx] [m Hy].
  by apply (slice_columns L HJ HR _ s p cs k jw HL Hac Hs Hperm Ha Hp Hjw n m o).
Qed.

(** With matrices as functions: multiplying by the transpose of a selection picks
    columns. *)
Definition sel_mat (n : nat) (idxs : list nat) : fmat :=
  FMat (length idxs) n (λ r c, if decide (nth r idxs 0 = c) then 1%Z else 0%Z).
Lemma zsum_pick n f i : i < n → zsum n (λ k, f k * (if decide (i = k) then 1 else 0))%Z = f i.
Proof.
  induction n as [|n IH]; intros Hi; [lia|]. simpl. destruct (decide (i = n)) as [->|].
  - rewrite Z.mul_1_r. assert (H : ∀ m, m ≤ n → zsum m (λ k, f k * (if decide (n = k) then 1 else 0))%Z = 0%Z).
    { induction m as [|m IHm]; intros Hm; [done|]. simpl. rewrite IHm by lia. rewrite decide_False by lia. lia. }
    rewrite H; lia.
  - rewrite IH by lia. lia.
Qed.
Lemma sel_columns j idxs i k : Forall (λ q, q < fcols j) idxs → k < length idxs →
  fent (fmul j (fT (sel_mat (fcols j) idxs))) i k = fent j i (nth k idxs 0).
Proof.
  intros Hf Hk. simpl. apply (zsum_pick (fcols j) (λ q, fent j i q)).
  rewrite Forall_lookup in Hf. destruct (lookup_lt_is_Some_2 idxs k Hk) as [q Hq].
  erewrite nth_lookup, Hq. by apply (Hf k).
Qed.

(** A slice of a slice: u = x*x, a = x\[0,1\], s = a\[0\].  u has a derivative with
    respect to a, but asking for the one with respect to s raises, at any depth. *)
Definition nested : list (op fdemo) :=
  [fnew 1 KBase; OSet fdemo 1 "x" (fval [3; 4]%Z) 101;
   fnew 2 KMul; OSetKw fdemo 2 [("a"%string, fref 1, 103); ("b"%string, fref 1, 104)];
   fnew 3 KSel; OSetKw fdemo 3 [("a"%string, fref 1, 105); ("idxs"%string, fval [0; 1]%Z, 106)];
   fnew 4 KSel; OSetKw fdemo 4 [("a"%string, fref 3, 107); ("idxs"%string, fval [0]%Z, 108)]].
Lemma psliced_raises (L : lib) g o s i j : (∃ n, pdirect L n g o s = Some None) →
  (∃ n, pwalk L n n g o s = Some (Some (i, j))) → (∃ n, pdirect L n g s i = Some None) →
  ∀ n, psliced L n g o s = None.
Proof.
  intros [n1 H1] [n2 H2] [n3 H3] n. unfold psliced.
  destruct (pdirect L n g o s) as [d|] eqn:E1; [|done]. rewrite (pdirect_det L g n n1 o s d None E1 H1).
  destruct (pwalk L n n g o s) as [r|] eqn:E2; [|done].
  assert (E : r = Some (i, j)).
  { apply (pwalk_mono L n (n `max` n2) n (n `max` n2)) in E2; [|lia..].
    apply (pwalk_mono L n2 (n `max` n2) n2 (n `max` n2)) in H2; [|lia..]. congruence. }
  rewrite E. destruct (pdirect L n g s i) as [e|] eqn:E3; [|done].
  by rewrite (pdirect_det L g n n3 s i e None E3 H3).
Qed.
Lemma drval_raises (L : lib) g o s i j : (∃ n, pdirect L n g o s = Some None) →
  (∃ n, pwalk L n n g o s = Some (Some (i, j))) → (∃ n, pdirect L n g s i = Some None) →
  ∀ x, ¬ dr_denotes L g o s x.
Proof.
  intros H1 H2 H3 x [n Hn]. destruct n as [|n]; [done|]. simpl in Hn.
  rewrite (psliced_raises L g o s i j H1 H2 H3) in Hn. by destruct (g !! o).
Qed.
Definition sel_of (g : gmap oid (core fdemo)) (s : oid) : option oid :=
  match g !! s with
  | Some c => if is_permute fdemo (c_cls fdemo c) then
      match c_attr fdemo c !! "a"%string with Some (ARef p) => Some p | _ => None end else None
  | None => None
  end.
Lemma sel_of_ok g s p : sel_of g s = Some p →
  ∃ c, g !! s = Some c ∧ is_permute fdemo (c_cls fdemo c) = true ∧ c_attr fdemo c !! "a"%string = Some (ARef p).
Proof.
  unfold sel_of. destruct (g !! s) as [c|]; [|done]. destruct (is_permute fdemo (c_cls fdemo c)) eqn:E; [|done].
  intros H. exists c. split_and!; try done. destruct (c_attr fdemo c !! "a"%string) as [[t|q]|]; try done. by injection H as ->.
Qed.
Definition is_some_some {A} (x : option (option A)) : bool := match x with Some (Some _) => true | _ => false end.
Lemma is_some_some_ok {A} (x : option (option A)) : is_some_some x = true → ∃ a, x = Some (Some a).
Proof. destruct x as [[a|]|]; [eauto|done..]. Qed.

Lemma nested_raises : ∃ (L : lib) l o a s j, lib_ok L ∧ valid L l ∧ jac_laws L ∧ local_derivatives L ∧
  (∃ c, gexec L l ∅ !! s = Some c ∧ is_permute L (c_cls L c) = true ∧ c_attr L c !! "a"%string = Some (ARef a)) ∧
  dr_denotes L (gexec L l ∅) o a (Some j) ∧ (∀ x, ¬ dr_denotes L (gexec L l ∅) o s x).
Proof.
  destruct (is_some_some_ok (drval fdemo 9 (gexec fdemo nested ∅) 2 3)) as [j Hj]; [vm_compute; reflexivity|].
  exists fdemo, nested, 2, 3, 4, j.
  split; [apply fdemo_lib_ok|]. split; [apply fvalid_ok; vm_compute; reflexivity|].
  split; [apply fdemo_laws|]. split; [apply fdemo_local|]. split; [apply sel_of_ok; vm_compute; reflexivity|].
  split; [by exists 9|].
  assert (Hw : is_some_some (pwalk fdemo 9 9 (gexec fdemo nested ∅) 2 4) = true) by (vm_compute; reflexivity).
  apply is_some_some_ok in Hw as [[i j'] Hw].
  assert (Hi : (match pwalk fdemo 9 9 (gexec fdemo nested ∅) 2 4 with Some (Some (i, _)) => bool_decide (i = 1) | _ => false end) = true)
    by (vm_compute; reflexivity).
  rewrite Hw in Hi. apply bool_decide_eq_true in Hi. subst i.
  apply (drval_raises fdemo _ 2 4 1 j'); [exists 9; vm_compute; reflexivity|by exists 9|exists 9; vm_compute; reflexivity].
Qed.
