(** Redundancy removal does not change the expression any object stands for. *)
From stdpp Require Import gmap strings list relations sorting.
From Verif Require Import EngineModel EngineSpec EngineClear EngineEval EngineSet EngineInv EngineOps
  EngineRead EngineHist EngineThms GraphModel GraphSpec RevSpec RedunModel RedunSpec.

Section thms.
Context (L : lib) `{EqDecision (Cls L), EqDecision (Val L)}.
Notation graph := (gmap oid (core L)).
Notation heap := (gmap oid (node L)).
Notation cores := (cores L).
Notation st_h := (st_h L).
Notation expr_of := (expr_of L).
Implicit Types (g : graph) (c : core L) (h : heap) (m : memo L).

(* ------------------------------------------------------------------ *)
(** Rewiring. *)
Lemma cores_rewire h o k q : cores (rewire L h o k q) = alter (write L k (ARef q)) o (cores h).
Proof.
  apply map_eq. intros x. unfold rewire, EngineModel.cores. rewrite lookup_fmap.
  destruct (decide (x = o)) as [->|]; [rewrite !lookup_alter|rewrite !lookup_alter_ne by done];
    rewrite lookup_fmap; by destruct (h !! _).
Qed.

(** The children of an expression given by a semantic id. *)
Definition xsid (n : nat) g (s : sid_t L) : expr L :=
  XObj L s.1 (prod_map id (xattr L (expr_of n g)) <$> s.2).
Lemma expr_of_S n g o c : g !! o = Some c → expr_of (S n) g o = xsid n g (sid L c).
Proof. intros E. simpl. by rewrite E. Qed.

Lemma sid_write_exprs (f f' : oid → expr L) c k p q : c_attr L c !! k = Some (ARef p) → f' q = f p →
  (∀ x, f' x = f x) →
  prod_map (@id name) (xattr L f') <$> (sid L (write L k (ARef q) c)).2 =
  prod_map (@id name) (xattr L f) <$> (sid L c).2.
Proof.
  intros Hk Hq Hx. unfold sid, sid_names. simpl. induction (merge_sort _ _) as [|k' ks IH]; [done|]. simpl.
  destruct (decide (k' = k)) as [->|Hne].
  - rewrite lookup_insert, Hk. simpl. f_equal; [|exact IH]. unfold prod_map. simpl. by rewrite Hq.
  - rewrite lookup_insert_ne by done. destruct (c_attr L c !! k') as [a|]; simpl; [|exact IH].
    f_equal; [|exact IH]. unfold prod_map. simpl. f_equal. destruct a; simpl; [done|apply Hx].
Qed.

Lemma expr_rewire n g o k p q c : g !! o = Some c → c_attr L c !! k = Some (ARef p) →
  (∀ n, expr_of n g q = expr_of n g p) → ∀ x,
  expr_of n (alter (write L k (ARef q)) o g) x = expr_of n g x.
Proof.
  intros Hc Hk Hpq. induction n as [|n IH]; intros x; [done|]. simpl.
  destruct (decide (x = o)) as [->|].
  - rewrite lookup_alter, Hc. simpl. f_equal. apply (sid_write_exprs _ _ c k p q Hk).
    + rewrite IH. apply Hpq.
    + apply IH.
  - rewrite lookup_alter_ne by done. destruct (g !! x) as [cx|]; [|done]. f_equal.
    apply list_fmap_ext. intros _ [k' a] _. unfold prod_map. simpl. f_equal. destruct a; simpl; [done|apply IH].
Qed.

(* ------------------------------------------------------------------ *)
(** What every merge preserves. *)
(** An object before and after: only references change, into references. *)
Record retied c c' : Prop := {
  rt_cls : c_cls L c' = c_cls L c;
  rt_dt : c_dt L c' = c_dt L c;
  rt_tm : c_tm L c' = c_tm L c;
  rt_attr : ∀ k, c_attr L c' !! k = c_attr L c !! k ∨
    ∃ p q, c_attr L c !! k = Some (ARef p) ∧ c_attr L c' !! k = Some (ARef q)
}.
Lemma retied_refl c : retied c c.
Proof. split; auto. Qed.
Lemma retied_trans c1 c2 c3 : retied c1 c2 → retied c2 c3 → retied c1 c3.
Proof.
  intros [A1 A2 A3 A4] [B1 B2 B3 B4]. split; [congruence..|]. intros k.
  destruct (A4 k) as [E1|(p & q & E1 & E2)], (B4 k) as [E3|(p' & q' & E3 & E4)];
    [left; congruence|right; exists p', q'; split; congruence|right; exists p, q; split; congruence|right; exists p, q'; split; congruence].
Qed.
Lemma retied_write c k p q : c_attr L c !! k = Some (ARef p) → retied c (write L k (ARef q) c).
Proof.
  intros E. split; try done. intros k'. simpl. destruct (decide (k' = k)) as [->|].
  - right. exists p, q. by rewrite lookup_insert.
  - left. by rewrite lookup_insert_ne.
Qed.

Record merged h0 h m : Prop := {
  mg_node : ∀ x, option_Forall2 (λ n n', ∃ c, n' = map_core L (λ _, c) n ∧ retied (n_core L n) c) (h0 !! x) (h !! x);
  mg_expr : ∀ n x, expr_of n (cores h) x = expr_of n (cores h0) x;
  mg_memo : ∀ s q, (s, q) ∈ m → ∀ n, expr_of (S n) (cores h) q = xsid n (cores h) s
}.

Lemma known_in s m q : known L s m = Some q → (s, q) ∈ m.
Proof.
  induction m as [|[s' p] m IH]; simpl; [done|]. destruct (decide (s' = s)) as [->|].
  - intros [= ->]. left.
  - intros Hk. right. auto.
Qed.

Lemma map_core_id (n : node L) : map_core L (λ _, n_core L n) n = n.
Proof. by destruct n. Qed.
Lemma map_core_twice c c' (n : node L) : map_core L (λ _, c') (map_core L (λ _, c) n) = map_core L (λ _, c') n.
Proof. done. Qed.

Lemma merged_refl h : merged h h [].
Proof.
  split; [|done|by intros s q Hin%elem_of_nil]. intros x. destruct (h !! x) as [n|]; constructor.
  exists (n_core L n). by rewrite map_core_id; split; [|apply retied_refl].
Qed.

Lemma xsid_ext n g g' s : (∀ x, expr_of n g' x = expr_of n g x) → xsid n g' s = xsid n g s.
Proof.
  intros E. unfold xsid. f_equal. apply list_fmap_ext. intros _ [k a] _. unfold prod_map. simpl.
  f_equal. destruct a; simpl; [done|apply E].
Qed.

Lemma attr_of_core h o k a : attr_of L h o k = Some a →
  ∃ nd, h !! o = Some nd ∧ c_attr L (n_core L nd) !! k = Some a.
Proof. unfold attr_of. destruct (h !! o) as [nd|]; [eauto|done]. Qed.

(** The operand and its replacement are twins. *)
Lemma merge1_twins h0 h m p np q : merged h0 h m → h !! p = Some np →
  known L (sid L (n_core L np)) m = Some q → twins L (cores h) q p.
Proof.
  intros Hm Hp Hq [|n]; [done|].
  rewrite (mg_memo _ _ _ Hm _ _ (known_in _ _ _ Hq)). symmetry. apply expr_of_S. by apply cores_Some.
Qed.

Lemma merge1_merged h0 o k p np h m h1 m1 b : merged h0 h m → attr_of L h o k = Some (ARef p) →
  h !! p = Some np → merge1 L o k p np h m = (h1, m1, b) → merged h0 h1 m1.
Proof.
  intros Hm Ha Hp. unfold merge1. destruct (known L _ m) as [q|] eqn:Hk.
  - destruct (decide (p = q)) as [->|Hne]; intros [= <- <- <-]; [done|].
    destruct (attr_of_core _ _ _ _ Ha) as (nd & Ho & Hat).
    pose proof (merge1_twins h0 h m p np q Hm Hp Hk) as Htw.
    assert (HE : ∀ n x, expr_of n (cores (rewire L h o k q)) x = expr_of n (cores h) x).
    { intros n x. rewrite cores_rewire. apply (expr_rewire n (cores h) o k p q (n_core L nd)); [by apply cores_Some|done|].
      exact Htw. }
    split.
    + intros x. unfold rewire. pose proof (mg_node _ _ _ Hm x) as Hx.
      destruct (decide (x = o)) as [->|]; [|by rewrite lookup_alter_ne].
      rewrite lookup_alter, Ho. rewrite Ho in Hx. inversion Hx as [n0 n' (c & -> & Hr) E0 E1|]; subst.
      simpl. constructor. exists (write L k (ARef q) c). split; [done|].
      eapply retied_trans; [exact Hr|]. by apply (retied_write c k p q).
    + intros n x. rewrite HE. apply Hm.
    + intros s q' Hin n. rewrite HE, (mg_memo _ _ _ Hm _ _ Hin). symmetry. apply xsid_ext. apply HE.
  - intros [= <- <- <-]. split; [apply Hm|apply Hm|]. intros s q Hin n.
    apply elem_of_app in Hin as [Hin|[= -> ->]%elem_of_list_singleton]; [by apply Hm|].
    apply expr_of_S. by apply cores_Some.
Qed.

(** Anything each merge preserves is preserved by a sweep. *)
Section induct.
Context (P : heap → memo L → Prop).
Hypothesis HP : ∀ o k p np h m h1 m1 b, P h m → attr_of L h o k = Some (ARef p) → h !! p = Some np →
  merge1 L o k p np h m = (h1, m1, b) → P h1 m1.

Lemma loop_induct rec o ks : (∀ p h m, P h m → P (rec p h m).1.1 (rec p h m).1.2) → ∀ h m occ,
  P h m → P (merge_loop L rec o ks h m occ).1.1 (merge_loop L rec o ks h m occ).1.2.
Proof.
  intros Hrec. induction ks as [|k ks IH]; intros h m occ Hp; simpl; [done|].
  destruct (attr_of L h o k) as [[t|p]|] eqn:Ea; [by apply IH| |done].
  destruct (h !! p) as [np|] eqn:Ep; [|done].
  destruct (merge1 L o k p np h m) as [[h1 m1] b] eqn:E1.
  pose proof (HP _ _ _ _ _ _ _ _ _ Hp Ea Ep E1) as Hp1. specialize (Hrec p h1 m1 Hp1).
  destruct (rec p h1 m1) as [[h2 m2] [b'|]]; simpl in *; [by apply IH|done].
Qed.
Lemma sweep_induct n : ∀ o h m, P h m → P (sweep L n o h m).1.1 (sweep L n o h m).1.2.
Proof.
  induction n as [|n IH]; intros o h m Hp; simpl; [done|]. destruct (h !! o) as [nd|]; [|done].
  by apply loop_induct.
Qed.
Lemma sweeps_induct r n o : ∀ h m, P h m → ∃ m', P (sweeps L r n o h m).1 m'.
Proof.
  induction r as [|r IH]; intros h m Hp; simpl; [eauto|]. pose proof (sweep_induct n o h m Hp) as Hs.
  destruct (sweep L n o h m) as [[h' m'] [[]|]]; simpl in *; [by apply IH|eauto..].
Qed.
End induct.

Lemma sweeps_merged r n o h : ∃ m, merged h (sweeps L r n o h []).1 m.
Proof. apply (sweeps_induct (merged h)); [|apply merged_refl]. intros *. apply merge1_merged. Qed.

(* ------------------------------------------------------------------ *)
(** The value of an expression. *)
Definition framed g g' : Prop := ∀ x, option_Forall2 retied (g !! x) (g' !! x).

Lemma merged_framed h0 h m : merged h0 h m → framed (cores h0) (cores h).
Proof.
  intros Hm x. rewrite !cores_lookup. destruct (mg_node _ _ _ Hm x) as [n n' (c & -> & Hr)|]; by constructor.
Qed.

Lemma sid_names_in c k : k ∈ sid_names L c ↔ k ∈ tracked (c_dt L c) (c_tm L c).
Proof.
  unfold sid_names, tracked. rewrite (merge_sort_Permutation _ _). rewrite elem_of_app, elem_of_union, !elem_of_list_to_set.
  tauto.
Qed.
Lemma sid_in c k a : (k, a) ∈ (sid L c).2 ↔ k ∈ tracked (c_dt L c) (c_tm L c) ∧ c_attr L c !! k = Some a.
Proof.
  simpl. rewrite elem_of_list_omap. split.
  - intros (k' & Hk & (a' & Ha & [= -> ->])%fmap_Some). by rewrite <- sid_names_in.
  - intros [Hk Ha]. exists k. rewrite sid_names_in. split; [done|]. by rewrite Ha.
Qed.

(** Objects with the same expression hold the same, up to their identity. *)
Lemma expr_attr n g g' o o' c c' k a : g !! o = Some c → g' !! o' = Some c' →
  expr_of (S n) g o = expr_of (S n) g' o' →
  k ∈ tracked (c_dt L c) (c_tm L c) → c_attr L c !! k = Some a →
  k ∈ tracked (c_dt L c') (c_tm L c') ∧
  ∃ a', c_attr L c' !! k = Some a' ∧ xattr L (expr_of n g) a = xattr L (expr_of n g') a'.
Proof.
  intros Hc Hc' HE Hk Ha. rewrite (expr_of_S n g o c Hc), (expr_of_S n g' o' c' Hc') in HE.
  assert (HE2 : prod_map (@id name) (xattr L (expr_of n g)) <$> (sid L c).2 =
    prod_map (@id name) (xattr L (expr_of n g')) <$> (sid L c').2) by (unfold xsid in HE; congruence).
  clear HE. rename HE2 into HE.
  assert (Hin : (k, a) ∈ (sid L c).2) by (by apply sid_in).
  apply (elem_of_list_fmap_1 (prod_map id (xattr L (expr_of n g)))) in Hin.
  rewrite HE in Hin. apply elem_of_list_fmap in Hin as ([k' a'] & [= -> Ex] & Hin). apply sid_in in Hin as [? ?].
  split; [done|]. exists a'. done.
Qed.
Lemma expr_cls n g g' o o' c c' : g !! o = Some c → g' !! o' = Some c' →
  expr_of (S n) g o = expr_of (S n) g' o' → c_cls L c = c_cls L c'.
Proof. intros Hc Hc' HE. simpl in HE. rewrite Hc, Hc' in HE. by injection HE. Qed.

Definition uniform2 g g' : Prop :=
  ∀ o c o' c' k, g !! o = Some c → g' !! o' = Some c' → c_cls L c = c_cls L c' →
    k ∈ tracked (c_dt L c) (c_tm L c) → is_Some (c_attr L c' !! k) →
    k ∈ tracked (c_dt L c') (c_tm L c').
Lemma uniform_framed g g' : uniform L g → framed g g' → uniform2 g g' ∧ uniform2 g' g.
Proof.
  intros Hu Hf. split.
  - intros o c o' c' k Ho Ho' Hcl Hk Hs. pose proof (Hf o') as F. rewrite Ho' in F.
    inversion F as [c0 ? [R1 R2 R3 R4] E0|]; subst. rewrite R2, R3. apply (Hu o c o' c0); [done..|congruence|done|].
    destruct (R4 k) as [<-|(p & q & -> & _)]; eauto.
  - intros o c o' c' k Ho Ho' Hcl Hk Hs. pose proof (Hf o) as F. rewrite Ho in F.
    inversion F as [c0 ? [R1 R2 R3 R4] E0|]; subst. rewrite R2, R3 in Hk. apply (Hu o c0 o' c'); [done..|congruence|done|done].
Qed.

Definition alike g g' (o o' : oid) : Prop := ∀ i, expr_of i g o = expr_of i g' o'.

Lemma expr_attrs g g' o o' c c' k : uniform2 g g' → uniform2 g' g → alike g g' o o' →
  g !! o = Some c → g' !! o' = Some c' → k ∈ tracked (c_dt L c) (c_tm L c) →
  (c_attr L c !! k = None ∧ c_attr L c' !! k = None) ∨
  (∃ t, c_attr L c !! k = Some (AVal t) ∧ c_attr L c' !! k = Some (AVal t)) ∨
  (∃ p p', c_attr L c !! k = Some (ARef p) ∧ c_attr L c' !! k = Some (ARef p') ∧ alike g g' p p').
Proof.
  intros Hu Hu' HE Hc Hc' Hk. assert (Hcl : c_cls L c = c_cls L c') by (by apply (expr_cls 0 g g' o o')).
  destruct (c_attr L c !! k) as [a|] eqn:Ha.
  - right. destruct (expr_attr 0 g g' o o' c c' k a) as (Hk' & a' & Ha' & _); [done..|].
    assert (HX : ∀ i, xattr L (expr_of i g) a = xattr L (expr_of i g') a').
    { intros i. destruct (expr_attr i g g' o o' c c' k a) as (_ & a2 & Ha2 & E); [done..|].
      rewrite Ha' in Ha2. injection Ha2 as <-. done. }
    destruct a as [t|p], a' as [t'|p']; simpl in *.
    + left. exists t. specialize (HX 0). by injection HX as ->.
    + by specialize (HX 0).
    + by specialize (HX 0).
    + right. exists p, p'. done.
  - left. split; [done|]. destruct (c_attr L c' !! k) as [a'|] eqn:Ha'; [|done].
    assert (Hk' : k ∈ tracked (c_dt L c') (c_tm L c')) by (by apply (Hu o c o' c'); eauto).
    destruct (expr_attr 0 g' g o' o c' c k a') as (_ & a & ? & _); [done..|congruence].
Qed.
Lemma expr_plain g g' o o' c c' : uniform2 g g' → uniform2 g' g → alike g g' o o' →
  g !! o = Some c → g' !! o' = Some c' → agree L (tracked (c_dt L c) (c_tm L c)) (plain L c) (plain L c').
Proof.
  intros Hu Hu' HE Hc Hc' k Hk. unfold plain. rewrite !lookup_omap.
  destruct (expr_attrs g g' o o' c c' k) as [[-> ->]|[(t & -> & ->)|(p & p' & -> & -> & _)]]; done.
Qed.
Lemma expr_run g g' n o o' c c' : (∀ o o' w, alike g g' o o' → eval L n g o w = eval L n g' o' w) →
  uniform2 g g' → uniform2 g' g → alike g g' o o' → g !! o = Some c → g' !! o' = Some c' →
  ∀ (R : Type) (p : prog (Arr L) R), uses L (asks_tracked L (c_cls L c) (c_dt L c)) p →
    runp L (answer L (eval L n g) o c) p = runp L (answer L (eval L n g') o' c') p.
Proof.
  intros IH Hu Hu' HE Hc Hc'.
  assert (HR : ∀ q, asks_tracked L (c_cls L c) (c_dt L c) q →
    answer L (eval L n g) o c q = answer L (eval L n g') o' c' q).
  { intros [|k|k] Hq; simpl; [by apply IH| |by apply IH]. simpl in Hq.
    destruct (expr_attrs g g' o o' c c' k) as [[-> ->]|[(t & -> & ->)|(p & p' & -> & -> & Hp)]]; [done..| |done|done|by apply IH].
    unfold tracked. rewrite elem_of_union, elem_of_list_to_set. by left. }
  induction p as [r| |q f IHp]; simpl; [done..|]. intros [Hq Hf]. rewrite (HR q Hq).
  destruct (answer L (eval L n g') o' c' q); [|done]. apply IHp. apply Hf.
Qed.

Lemma expr_eval g g' : graph_ok L g → uniform2 g g' → uniform2 g' g → ∀ n o o' w,
  alike g g' o o' → eval L n g o w = eval L n g' o' w.
Proof.
  intros Hok Hu Hu'. induction n as [|n IH]; intros o o' w HE; [done|]. simpl.
  pose proof (HE 1) as H1. simpl in H1.
  destruct (g !! o) as [c|] eqn:Hc, (g' !! o') as [c'|] eqn:Hc'; try done. clear H1.
  assert (Hcl : c_cls L c' = c_cls L c) by (symmetry; by apply (expr_cls 0 g g' o o')).
  destruct (Hok o c Hc) as [Hco _].
  pose proof (expr_plain g g' o o' c c' Hu Hu' HE Hc Hc') as HP.
  pose proof (expr_run g g' n o o' c c' IH Hu Hu' HE Hc Hc') as HRun.
  destruct w as [|k]; rewrite Hcl.
  - rewrite <- (co_r_agree _ _ _ _ Hco _ _ HP). apply HRun. apply Hco.
  - destruct (prop_deps L (c_cls L c) !! k) as [ds|] eqn:Ed; [|done].
    rewrite <- (co_prop_agree _ _ _ _ Hco k ds _ _ Ed (λ k' Hk', HP k' (co_deps _ _ _ _ Hco k ds Ed k' Hk'))).
    apply HRun. pose proof (co_prop _ _ _ _ Hco k ds (plain L c) Ed) as Hu2. clear -Hu2.
    induction (compute_prop L (c_cls L c) k (plain L c)) as [r| |q f IHp]; simpl in *; [done..|].
    destruct Hu2 as [[? _] Hf]. split; [done|]. intros v. apply IHp, Hf.
Qed.

Lemma merged_eval h0 h m : graph_ok L (cores h0) → uniform L (cores h0) → merged h0 h m →
  ∀ n o w, eval L n (cores h) o w = eval L n (cores h0) o w.
Proof.
  intros Hok Hu Hm n o w. symmetry. destruct (uniform_framed _ _ Hu (merged_framed _ _ _ Hm)) as [U1 U2].
  apply expr_eval; [done..|]. intros i. symmetry. apply Hm.
Qed.
End thms.
