(** Histories with lambda objects keep the invariant. *)
From stdpp Require Import gmap strings list relations.
From Verif Require Import EngineModel EngineSpec EngineClear EngineEval EngineSet EngineInv EngineOps
  EngineRead EngineEffect GraphModel LamModel LamSpec LamGraph LamThms.

Section hist.
Context (L : lib) (is_lam is_handle : Cls L → bool).
Context (Hlib : lib_ok L) (Hll : lam_lib_ok L is_lam is_handle).
Notation graph := (gmap oid (core L)).
Notation heap := (gmap oid (node L)).
Notation cores := (cores L).
Notation state := (state L).
Notation st_h := (st_h L).
Notation gattr := (gattr L).
Notation hand := (hand L).
Notation current := (current L).
Notation behind := (behind L).
Notation exposed := (exposed L).
Notation safe := (safe L).
Notation stable := (stable L).
Notation substituted := (substituted L).
Notation reg_ok := (reg_ok L is_lam is_handle).
Notation entry_ok := (entry_ok L is_lam is_handle).
Notation lgood := (lgood L is_lam is_handle).
Implicit Types (g : graph) (reg : registry) (h : heap) (st : state).

Lemma hand_graph_ok reg S g : reg_ok reg g → graph_ok L g → graph_ok L (hand reg S g).
Proof.
  intros Hr Hok p c Hp. destruct (reg !! p) as [[f k]|] eqn:E.
  2:{ rewrite hand_free in Hp by done. by apply (Hok p). }
  destruct (Hr _ _ _ E) as [ch cf p' q Hhd Hh Hdt Hx Hf Hl Hk Ha Hq Hn].
  rewrite hand_lookup, Hhd in Hp. simpl in Hp. injection Hp as <-.
  destruct (Hok p ch Hhd) as [H1 H2]. destruct (ll_handle _ _ _ Hll _ Hh) as [Hb _].
  case_decide; [|done]. destruct (current g reg p) as [v|]; [|done]. split; simpl; [done|].
  intros Hb'. congruence.
Qed.

(** Away from [o] nothing changes. *)
Section frame.
Context (h : heap) (g' : graph) (reg : registry) (o : oid).
Notation g := (cores h).
Context (Hs : sinv L h) (Hr : reg_ok reg g) (Hr' : reg_ok reg g').
Context (Hfr : ∀ p, is_Some (h !! p) → p ≠ o → g' !! p = g !! p).
Context (Ho : reg !! o = None).

Lemma entry_dom hd f k : reg !! hd = Some (f, k) → is_Some (h !! hd) ∧ is_Some (h !! f).
Proof.
  intros E. destruct (Hr _ _ _ E) as [ch cf p q Hhd _ _ _ Hf _ _ _ _ _].
  rewrite cores_lookup in Hhd, Hf. destruct (h !! hd), (h !! f); done || eauto.
Qed.
Lemma handle_not hd f k : reg !! hd = Some (f, k) → hd ≠ o.
Proof. intros E ->. congruence. Qed.

Lemma behind_frame hd f k : reg !! hd = Some (f, k) → f ≠ o → behind reg g' hd ↔ behind reg g hd.
Proof.
  intros E Hf. destruct (entry_dom _ _ _ E) as [H1 H2]. pose proof (handle_not _ _ _ E) as Hne.
  unfold LamSpec.behind, LamSpec.gattr. rewrite (Hfr hd H1 Hne).
  split; intros (f' & k' & E' & H); rewrite E in E'; injection E' as <- <-; exists f, k;
    rewrite (Hfr f H2 Hf) in *; done.
Qed.

Lemma exposed_frame hd f k x : reg !! hd = Some (f, k) → f ≠ o → ¬ dep L g x o → is_Some (h !! x) →
  exposed reg g hd x → exposed reg g' hd x.
Proof.
  intros E Hf Hn Hx He. induction He as [Hb|x d y He Hd Hy IH].
  { constructor. by eapply behind_frame. }
  assert (x ≠ o) by (intros ->; apply Hn; constructor).
  eapply ex_step; [|done|].
  - destruct He as (c & Hc & ?). exists c. by rewrite Hfr.
  - apply IH; [|by eapply (si_closed _ _ Hs)]. intros Hyd. apply Hn. eapply rtc_l; [by exists d|done].
Qed.

Lemma reach_exposed hd k x : reg !! hd = Some (o, k) → behind reg g' hd → ¬ dep L g x o → is_Some (h !! x) →
  dep L g x hd → exposed reg g' hd x.
Proof.
  intros E Hb Hn Hx. induction 1 as [hd|x y hd [d He] Hd IH]; [by constructor|].
  assert (x ≠ o) by (intros ->; apply Hn; constructor).
  eapply (ex_step _ _ _ _ x d y).
  - destruct He as (c & Hc & ?). exists c. by rewrite Hfr.
  - intros k' E'. congruence.
  - apply IH; [done|done| |by eapply (si_closed _ _ Hs)].
    intros Hyd. apply Hn. eapply rtc_l; [by exists d|done].
Qed.

Lemma stable_frame x v : is_Some (h !! x) → ¬ dep L g x o → stable reg g x v → stable reg g' x v.
Proof.
  intros Hx Hn Hv S HS.
  set (S0 := filter (λ hd, fst <$> reg !! hd ≠ Some o) S).
  assert (HS0 : ∀ hd, hd ∈ S0 → ¬ exposed reg g hd x).
  { intros hd Hhd He. apply elem_of_filter in Hhd as [Ho' Hhd].
    destruct (exposed_behind _ _ _ _ _ He) as (f & k & E & _). apply (HS hd Hhd).
    eapply exposed_frame; [done| |done|done|done]. intros ->. by rewrite E in Ho'. }
  destruct (Hv S0 HS0) as [n Hn0]. exists n. rewrite <- Hn0. symmetry. apply eval_frame.
  2:{ intros p c _ Hc. refine (hand_graph_ok reg _ _ Hr _ p c Hc). apply Hs. }
  intros p Hp. apply (dep_hand L is_lam is_handle Hll) in Hp; [|done|done].
  assert (Hpo : p ≠ o) by (intros ->; done).
  destruct (dep_dom L h x p Hs Hx Hp) as [np Hnp].
  assert (Ep : g' !! p = g !! p) by (apply Hfr; eauto).
  assert (Heq : hand reg S0 g !! p = hand reg S g' !! p).
  { destruct (reg !! p) as [[f k]|] eqn:E.
    2:{ rewrite !hand_free by done. done. }
    destruct (decide (p ∈ S)) as [HpS|HpS].
    2:{ rewrite !hand_out; [done|done|]. intros Hin. apply elem_of_filter in Hin. naive_solver. }
    destruct (decide (f = o)) as [->|Hfo].
    - rewrite hand_out. 2:{ intros Hin. apply elem_of_filter in Hin as [Hin _]. by rewrite E in Hin. }
      rewrite (hand_same L is_lam is_handle); [done|done|]. intros Hb.
      apply (HS p HpS). by eapply reach_exposed.
    - assert (HpS0 : p ∈ S0). { apply elem_of_filter. split; [|done]. rewrite E. simpl. congruence. }
      rewrite !hand_lookup, Ep. destruct (g !! p); [|done]. simpl. f_equal.
      rewrite !decide_True by done. rewrite !(entry_current _ _ _ _ _ _ E).
      unfold LamSpec.gattr. destruct (entry_dom _ _ _ E) as [_ Hf]. by rewrite (Hfr f Hf Hfo). }
  unfold gsim. rewrite Heq. destruct (hand reg S g' !! p); constructor. apply core_sim_refl.
Qed.

(** The value with the current arguments, for an object safe before and after. *)
Lemma substituted_frame x v : is_Some (h !! x) → ¬ dep L g x o → safe reg g x → safe reg g' x →
  denotes L (substituted reg g) x QR v ↔ denotes L (substituted reg g') x QR v.
Proof.
  intros Hx Hn Hsf Hsf'. unfold LamSpec.substituted.
  assert (He : ∀ n, eval L n (hand reg (dom reg) g) x QR = eval L n (hand reg (dom reg) g') x QR).
  2:{ unfold denotes. by setoid_rewrite He. }
  intros n. apply eval_frame.
  2:{ intros p c _ Hc. refine (hand_graph_ok reg _ _ Hr _ p c Hc). apply Hs. }
  intros p Hp. apply (dep_hand L is_lam is_handle Hll) in Hp; [|done|intros; apply Hsf].
  assert (Hpo : p ≠ o) by (intros ->; done).
  destruct (dep_dom L h x p Hs Hx Hp) as [np Hnp].
  assert (Ep : g' !! p = g !! p) by (apply Hfr; eauto).
  assert (Heq : hand reg (dom reg) g !! p = hand reg (dom reg) g' !! p).
  { destruct (reg !! p) as [[f k]|] eqn:E.
    2:{ rewrite !hand_free by done. done. }
    destruct (decide (f = o)) as [->|Hfo].
    - rewrite !(hand_same L is_lam is_handle); [done|done| |done|].
      + intros Hb. apply (Hsf' p). by eapply reach_exposed.
      + intros Hb. destruct (reach_handle _ _ _ _ _ _ x E Hb Hp) as [He|Hf]; [by apply (Hsf p)|done].
    - rewrite !hand_lookup, Ep. destruct (g !! p); [|done]. simpl. f_equal.
      rewrite !(entry_current _ _ _ _ _ _ E).
      unfold LamSpec.gattr. destruct (entry_dom _ _ _ E) as [_ Hf]. by rewrite (Hfr f Hf Hfo). }
  unfold gsim. rewrite Heq. destruct (hand reg (dom reg) g' !! p); constructor. apply core_sim_refl.
Qed.
End frame.

(** What an assignment does to the attribute graph. *)
Lemma gassign_facts g o k v o' c : assign_ok L g o k v o' → g !! o = Some c →
  ∃ w, gassign L g (o, k, v, o') !! o = Some (write L k w c) ∧
    (∀ p, is_Some (g !! p) → p ≠ o → gassign L g (o, k, v, o') !! p = g !! p) ∧
    (is_base L (c_cls L c) = false → k ∈ c_dt L c →
       ∃ q, w = ARef q ∧ is_Some (gassign L g (o, k, v, o') !! q)).
Proof.
  intros (c0 & Hc0 & Hb & Hp & Hn) Hc. rewrite Hc in Hc0. injection Hc0 as <-.
  apply not_elem_of_dom in Hn.
  assert (Hoo : o ≠ o') by congruence.
  destruct v as [t|p]; simpl; rewrite Hc.
  - destruct (is_base L (c_cls L c)) eqn:Eb.
    { exists (AVal t). rewrite lookup_insert. split_and!; try done.
      intros p _ Hne. by rewrite lookup_insert_ne. }
    destruct (decide (k ∈ c_dt L c)) as [Hk|Hk].
    + exists (ARef o'). rewrite lookup_insert. split_and!; try done.
      * intros p [cp Hcp] Hne. rewrite !lookup_insert_ne by congruence. done.
      * intros _ _. exists o'. split; [done|]. rewrite lookup_insert_ne, lookup_insert by done. eauto.
    + exists (AVal t). rewrite lookup_insert. split_and!; try done.
      intros p _ Hne. by rewrite lookup_insert_ne.
  - exists (ARef p). rewrite lookup_insert. split_and!; try done.
    + intros x _ Hne. by rewrite lookup_insert_ne.
    + intros _ _. exists p. split; [done|]. specialize (Hp p eq_refl). apply elem_of_dom in Hp.
      destruct (decide (p = o)) as [->|]; [rewrite lookup_insert; eauto|by rewrite lookup_insert_ne].
Qed.

Lemma assign_reg_ok reg g o k v o' : reg_ok reg g → reg !! o = None → assign_ok L g o k v o' →
  reg_ok reg (gassign L g (o, k, v, o')).
Proof.
  intros Hr Ho Hok hd f k1 E. pose proof Hok as (c & Hc & _).
  destruct (gassign_facts _ _ _ _ _ _ Hok Hc) as (w & Hgo & Hfr & Hw).
  destruct (Hr _ _ _ E) as [ch cf p q Hhd Hh Hdt Hx Hf Hl Hk Ha Hq Hn].
  assert (hd ≠ o) by congruence.
  assert (Hdom : ∀ y, is_Some (g !! y) → is_Some (gassign L g (o, k, v, o') !! y)).
  { intros y Hy. destruct (decide (y = o)) as [->|]; [rewrite Hgo; eauto|by rewrite Hfr]. }
  assert (Hhd' : gassign L g (o, k, v, o') !! hd = Some ch) by (rewrite Hfr; eauto).
  destruct (decide (f = o)) as [->|Hne].
  - rewrite Hc in Hf. injection Hf as <-.
    destruct (ll_lam _ _ _ Hll _ Hl) as [Hb _].
    destruct (decide (k = k1)) as [->|Hkk].
    + destruct (Hw Hb Hk) as (q' & -> & Hq').
      apply (EntryOk _ _ _ _ _ _ _ ch (write L k1 (ARef q') c) p q'); try done.
      simpl. by rewrite lookup_insert.
    + apply (EntryOk _ _ _ _ _ _ _ ch (write L k w c) p q); try done; [|by apply Hdom].
      simpl. by rewrite lookup_insert_ne.
  - apply (EntryOk _ _ _ _ _ _ _ ch cf p q); try done; [|by apply Hdom]. rewrite Hfr; eauto.
Qed.

Lemma assign_lgood reg h o k v o' no : lgood reg h → assign_ok L (cores h) o k v o' → reg !! o = None →
  h !! o = Some no → is_tracked L (n_core L no) k → lgood reg (assign L None h o k v o').
Proof.
  intros [Hi Hr Hd Hc] Hok Ho Hno Htrk. set (h1 := assign L None h o k v o').
  assert (Ecs : cores h1 = gassign L (cores h) (o, k, v, o')).
  { apply assign_cores; [done|]. by eapply assign_ok_fresh. }
  destruct (assign_inv L h o k v o' Hlib Hi Hok) as [Hi1 _].
  pose proof (assign_facts_ok L None h o k v o' Hlib (proj1 Hi) Hok) as Hfa.
  destruct (assign_eff L None h o k v o' Hlib (proj1 Hi) Hok) as [Heff Hnew].
  assert (Htr : tracked_in L h o k) by (exists no; done).
  pose proof (af_clean _ _ _ _ _ _ Hfa (tag_none L h) Htr) as Hcl.
  pose proof (cores_Some _ _ _ _ Hno) as Hcno.
  destruct (gassign_facts _ _ _ _ _ _ Hok Hcno) as (w & Hgo & Hfr & Hw). rewrite <- Ecs in *.
  assert (Hr1 : reg_ok reg (cores h1)) by (rewrite Ecs; by apply assign_reg_ok).
  assert (Hfr' : ∀ p, is_Some (h !! p) → p ≠ o → cores h1 !! p = cores h !! p).
  { intros p Hp. apply Hfr. rewrite cores_lookup. by apply fmap_is_Some. }
  split; [done|done| |].
  - intros hd f k1 nf E Hb Hf.
    destruct (entry_dom h reg Hr _ _ _ E) as [_ [nf0 Hf0]].
    destruct (Heff f nf0 Hf0) as (n' & Hn' & He). fold h1 in Hn'. rewrite Hf in Hn'. injection Hn' as <-.
    destruct (decide (f = o)) as [->|Hne].
    + destruct (decide (k1 = k)) as [->|Hkk].
      * apply (ne_dirty_all _ _ _ _ _ _ _ _ _ He (tag_none L h) Htr). by left.
      * apply (ne_dirty _ _ _ _ _ _ _ _ _ He). apply (Hd hd o k1 nf0 E); [|done].
        destruct Hb as (f' & k' & E' & Hb). rewrite E in E'. injection E' as <- <-.
        exists o, k1. split; [done|]. unfold LamSpec.gattr in *. rewrite Hgo in Hb. rewrite Hcno.
        simpl in Hb. rewrite lookup_insert_ne in Hb by done.
        destruct (entry_dom h reg Hr _ _ _ E) as [Hhd _]. rewrite Hfr' in Hb; [done|done|congruence].
    + apply (ne_dirty _ _ _ _ _ _ _ _ _ He). apply (Hd hd f k1 nf0 E); [|done].
      by apply (behind_frame h (cores h1) reg o Hr Hfr' Ho hd f k1).
  - intros x nx u Hx Hu.
    assert (Hna : ¬ above L h1 o x).
    { intros Hab. destruct (ca_r _ _ _ Hcl x nx Hx Hab). congruence. }
    destruct (h !! x) as [n0|] eqn:Ex.
    2:{ pose proof (Hnew x nx Ex Hx) as Hnn. rewrite (nn_r _ _ Hnn) in Hu. done. }
    assert (Hna0 : ¬ above L h o x).
    { intros Hab. apply Hna. apply (af_above _ _ _ _ _ _ Hfa x); eauto. }
    destruct (Heff x n0 Ex) as (n' & Hn' & He). fold h1 in Hn'. rewrite Hx in Hn'. injection Hn' as <-.
    apply (stable_frame h (cores h1) reg o (proj1 Hi) Hr Hr1 Hfr' Ho x u (mk_is_Some _ _ Ex) Hna0).
    apply (Hc x n0 u Ex). rewrite <- Hu. symmetry. apply (ne_r _ _ _ _ _ _ _ _ _ He). naive_solver.
Qed.

Lemma new_lgood reg h o c dt tm : lgood reg h → h !! o = None → class_ok L c dt tm →
  lgood reg (<[o := fresh_node L c dt tm]> h).
Proof.
  intros [Hi Hr Hd Hc] Hn Hco. set (h1 := <[o := fresh_node L c dt tm]> h).
  assert (Hb : blank L (fresh_node L c dt tm)) by (by apply fresh_blank).
  assert (Hfr : ∀ p, is_Some (h !! p) → cores h1 !! p = cores h !! p).
  { intros p [n Hp]. unfold h1. rewrite cores_insert, lookup_insert_ne; [done|]. intros ->. congruence. }
  assert (Hfr' : ∀ p, is_Some (h !! p) → p ≠ o → cores h1 !! p = cores h !! p) by auto.
  assert (Ho : reg !! o = None).
  { destruct (reg !! o) as [[f k]|] eqn:E; [|done]. destruct (entry_dom h reg Hr _ _ _ E) as [[? ?] _]. congruence. }
  assert (Hown : ∀ hd f k, reg !! hd = Some (f, k) → f ≠ o).
  { intros hd f k E ->. destruct (entry_dom h reg Hr _ _ _ E) as [_ [? ?]]. congruence. }
  assert (Hr1 : reg_ok reg (cores h1)).
  { intros hd f k E. destruct (entry_dom h reg Hr _ _ _ E) as [H1 H2].
    destruct (Hr _ _ _ E) as [ch cf p q Hhd Hh Hdt Hx Hf Hl Hk Ha Hq Hne].
    apply (EntryOk _ _ _ _ _ _ _ ch cf p q); try done; [by rewrite Hfr..|].
    rewrite Hfr; [done|]. rewrite cores_lookup in Hq. by apply fmap_is_Some in Hq. }
  split; [|done| |].
  - destruct Hi as [Hs Hci]. split; [by apply ins_sinv|by apply ins_cinv].
  - intros hd f k nf E Hbh Hf. pose proof (Hown _ _ _ E) as Hfo.
    unfold h1 in Hf. rewrite lookup_insert_ne in Hf by done. apply (Hd hd f k nf E); [|done].
    by apply (behind_frame h (cores h1) reg o Hr Hfr' Ho hd f k).
  - intros x nx u Hx Hu. unfold h1 in Hx. destruct (decide (x = o)) as [->|Hne].
    { rewrite lookup_insert in Hx. injection Hx as <-. done. }
    rewrite lookup_insert_ne in Hx by done.
    apply (stable_frame h (cores h1) reg o (proj1 Hi) Hr Hr1 Hfr' Ho x u (mk_is_Some _ _ Hx));
      [|by apply (Hc x nx)].
    intros Hdep. destruct (dep_dom L h x o) as [? Hs']; [apply Hi|eauto|done|congruence].
Qed.

(** Names added to the terms of lambda objects. *)
Section leak.
Context (k : name).
Notation add := (add_term L is_lam k).

Lemma add_cls c : c_cls L (add c) = c_cls L c.
Proof. unfold add_term. by destruct (is_lam _). Qed.
Lemma add_dt c : c_dt L (add c) = c_dt L c.
Proof. unfold add_term. by destruct (is_lam _). Qed.
Lemma add_attr c : c_attr L (add c) = c_attr L c.
Proof. unfold add_term. by destruct (is_lam _). Qed.
Lemma add_plain c : plain L (add c) = plain L c.
Proof. unfold plain. by rewrite add_attr. Qed.
Lemma add_matches c w : matches L (add c) w = matches L c w.
Proof. unfold matches. by rewrite add_attr, add_dt. Qed.

Lemma runp_same {R} ask1 ask2 (p : prog (Arr L) R) : (∀ q, ask1 q = ask2 q) → runp L ask1 p = runp L ask2 p.
Proof.
  intros H. induction p as [r| |q f IH]; simpl; [done..|]. rewrite H. destruct (ask2 q); auto.
Qed.
Lemma answer_leak rd1 rd2 o c q : (∀ p w, rd1 p w = rd2 p w) → answer L rd1 o (add c) q = answer L rd2 o c q.
Proof.
  intros H. destruct q; simpl; [done| |done]. rewrite add_attr.
  destruct (c_attr L c !! k0) as [[]|]; done.
Qed.
Lemma eval_leak n g o w : eval L n (add <$> g) o w = eval L n g o w.
Proof.
  revert o w. induction n as [|n IH]; intros o w; [done|]. simpl. rewrite lookup_fmap.
  destruct (g !! o) as [c|]; [|done]. simpl. rewrite add_cls, add_plain.
  destruct w as [|k']; [|destruct (prop_deps _ _ !! k'); [|done]];
    apply runp_same; intros q; by apply answer_leak.
Qed.
Lemma denotes_leak g o w v : denotes L (add <$> g) o w v ↔ denotes L g o w v.
Proof. unfold denotes. by setoid_rewrite eval_leak. Qed.
Lemma pdirect_leak n g o w : pdirect L n (add <$> g) o w = pdirect L n g o w.
Proof.
  unfold pdirect. rewrite lookup_fmap. destruct (g !! o) as [c|]; [|done]. simpl.
  rewrite add_cls, add_plain, add_matches. apply runp_same. intros q. apply answer_leak.
  intros. apply eval_leak.
Qed.
Lemma pwalk_leak m n g o i : pwalk L m n (add <$> g) o i = pwalk L m n g o i.
Proof.
  revert i. induction m as [|m IH]; intros i; [done|]. simpl. rewrite lookup_fmap.
  destruct (g !! i) as [c|]; [|done]. simpl. rewrite add_cls, add_attr.
  destruct (is_permute L (c_cls L c)); [|done].
  destruct (c_attr L c !! "a"%string) as [[|p]|]; [done| |done]. case_decide; [done|].
  rewrite pdirect_leak. destruct (pdirect L n g o p) as [[]|]; done.
Qed.
Lemma psliced_leak n g o w : psliced L n (add <$> g) o w = psliced L n g o w.
Proof.
  unfold psliced. rewrite pdirect_leak, pwalk_leak.
  destruct (pdirect L n g o w) as [[]|]; [done| |done].
  destruct (pwalk L n n g o w) as [[[i j]|]|]; [|done|done]. by rewrite pdirect_leak.
Qed.
Lemma pdr_loop_leak rd1 rd2 n g o w c ks acc : (∀ p, rd1 p = rd2 p) →
  pdr_loop L rd1 n (add <$> g) o w (add c) ks acc = pdr_loop L rd2 n g o w c ks acc.
Proof.
  intros H. revert acc. induction ks as [|d ks IH]; intros acc; [done|]. simpl. rewrite add_attr.
  destruct (c_attr L c !! d) as [[|p]|]; [done| |done]. case_decide; [done|]. rewrite H.
  destruct (rd2 p) as [[j|]|]; [|done|done]. rewrite psliced_leak.
  destruct (psliced L n g o p) as [[]|]; done.
Qed.
Lemma drval_leak n g o w : drval L n (add <$> g) o w = drval L n g o w.
Proof.
  revert o. induction n as [|n IH]; intros o; [done|]. simpl. rewrite lookup_fmap.
  destruct (g !! o) as [c|]; [|done]. simpl. rewrite psliced_leak.
  destruct (psliced L n g o w) as [d|]; [|done].
  rewrite add_dt. by rewrite (pdr_loop_leak _ (λ p, drval L n g p w)).
Qed.
Lemma edge_leak g o d p : edge L (add <$> g) o d p ↔ edge L g o d p.
Proof.
  unfold edge. rewrite lookup_fmap. split.
  - intros (c & Hc & H1 & H2 & H3). destruct (g !! o) as [c0|]; [|done]. simpl in Hc. injection Hc as <-.
    exists c0. by rewrite add_cls, add_dt, add_attr in *.
  - intros (c & -> & H1 & H2 & H3). exists (add c). by rewrite add_cls, add_dt, add_attr.
Qed.
Lemma gattr_leak g o d : gattr (add <$> g) o d = gattr g o d.
Proof. unfold LamSpec.gattr. rewrite lookup_fmap. destruct (g !! o); [|done]. simpl. by rewrite add_attr. Qed.
Lemma hand_leak reg S g : hand reg S (add <$> g) = add <$> hand reg S g.
Proof.
  apply map_eq; intros o. rewrite lookup_fmap, !hand_lookup, lookup_fmap. destruct (g !! o) as [c|]; [|done].
  simpl. f_equal. case_decide; [|done].
  assert (E : current (add <$> g) reg o = current g reg o).
  { unfold LamSpec.current. destruct (reg !! o) as [[]|]; [|done]. apply gattr_leak. }
  rewrite E. destruct (current g reg o) as [v|]; [|done]. simpl. unfold write, add_term. simpl.
  by destruct (is_lam _).
Qed.
Lemma behind_leak reg g hd : behind reg (add <$> g) hd ↔ behind reg g hd.
Proof. unfold LamSpec.behind. by setoid_rewrite gattr_leak. Qed.
Lemma exposed_leak reg g hd x : exposed reg (add <$> g) hd x ↔ exposed reg g hd x.
Proof.
  split; (induction 1 as [Hb|x d y He Hd Hy IH]; [constructor; by apply behind_leak|]);
    (eapply ex_step; [by apply edge_leak|done|done]).
Qed.
Lemma class_ok_more c dt tm ks : is_base L c = false → class_ok L c dt tm → class_ok L c dt (tm ++ ks).
Proof.
  intros Hb [H1 H2 H3 H4 H5 H6 H7 H8 H9].
  assert (Hag : ∀ ts1 ts2, agree L (tracked dt (tm ++ ks)) ts1 ts2 → agree L (tracked dt tm) ts1 ts2).
  { intros ts1 ts2 H k' Hk'. apply H. apply elem_of_tracked. apply elem_of_tracked in Hk'.
    rewrite elem_of_app. naive_solver. }
  split; auto.
  - intros k' ds Hk'. etrans; [by eapply H5|]. intros d. rewrite !elem_of_tracked, elem_of_app. naive_solver.
  - intros Hb'. congruence.
Qed.
Lemma add_ok c : node_ok L c → node_ok L (add c).
Proof.
  intros [H1 H2]. unfold add_term. destruct (is_lam (c_cls L c)) eqn:E; [|done].
  destruct (ll_lam _ _ _ Hll _ E) as [Hb _]. split; simpl; [by apply class_ok_more|done].
Qed.

Lemma leak_cores h : cores (leak L is_lam k h) = add <$> cores h.
Proof.
  apply map_eq; intros x. unfold leak. rewrite lookup_fmap, !cores_lookup, lookup_fmap.
  by destruct (h !! x).
Qed.
Lemma leak_Some h x n' : leak L is_lam k h !! x = Some n' → ∃ n, h !! x = Some n ∧ n' = map_core L add n.
Proof. unfold leak. rewrite lookup_fmap. destruct (h !! x); [|done]. simpl. intros [= <-]. eauto. Qed.

Lemma leak_inv h : inv L h → inv L (leak L is_lam k h).
Proof.
  intros [Hs [H1 H2 H3 H4]]. split; split; rewrite ?leak_cores.
  - intros x c. rewrite lookup_fmap. destruct (cores h !! x) as [c0|] eqn:E; [|done].
    simpl. intros [= <-]. apply add_ok. by apply (si_ok _ _ Hs x).
  - intros x nx p d Hx. destruct (leak_Some _ _ _ Hx) as (n & Hn & ->). simpl. rewrite edge_leak.
    by apply (si_par _ _ Hs).
  - intros x nx Hx. destruct (leak_Some _ _ _ Hx) as (n & Hn & ->). simpl. by apply (si_ne _ _ Hs x).
  - intros p d x. rewrite edge_leak. intros He. destruct (si_closed _ _ Hs _ _ _ He) as [n Hn].
    unfold leak. rewrite lookup_fmap, Hn. eauto.
  - intros x nx w j Hx. destruct (leak_Some _ _ _ Hx) as (n & Hn & ->). simpl. intros Hj.
    destruct (si_dr _ _ Hs x n w j Hn Hj) as [nw Hw]. unfold leak. rewrite lookup_fmap, Hw. eauto.
  - intros x nx v Hx HE. destruct (leak_Some _ _ _ Hx) as (n & Hn & ->). simpl. intros Hv.
    apply denotes_leak. by apply (H1 x n v Hn HE).
  - intros x nx k' v Hx. destruct (leak_Some _ _ _ Hx) as (n & Hn & ->). simpl. intros Hv Hd.
    apply denotes_leak. apply (H2 x n k' v Hn Hv). intros d a _ _ HF. exact HF.
  - intros x nx k' v Hx. destruct (leak_Some _ _ _ Hx) as (n & Hn & ->). simpl. intros Hv.
    rewrite add_cls. by apply (H3 x n k' v).
  - intros x nx w j Hx HE. destruct (leak_Some _ _ _ Hx) as (n & Hn & ->). simpl. intros Hj (c & Hc & Hpm).
    unfold dr_denotes. setoid_rewrite drval_leak. apply (H4 x n w j Hn HE Hj).
    rewrite lookup_fmap in Hc. destruct (cores h !! w) as [c0|] eqn:E; [|done]. simpl in Hc.
    injection Hc as <-. exists c0. by rewrite add_cls in Hpm.
Qed.

Lemma leak_lgood reg h : lgood reg h → lgood reg (leak L is_lam k h).
Proof.
  intros [Hi Hr Hd Hc]. split; rewrite ?leak_cores.
  - by apply leak_inv.
  - intros hd f k1 E. destruct (Hr _ _ _ E) as [ch cf p q Hhd Hh Hdt Hx Hf Hl Hk Ha Hq Hn].
    apply (EntryOk _ _ _ _ _ _ _ (add ch) (add cf) p q); rewrite ?add_cls, ?add_dt, ?add_attr; try done.
    + by rewrite lookup_fmap, Hhd.
    + by rewrite lookup_fmap, Hf.
    + rewrite lookup_fmap. by apply fmap_is_Some.
  - intros hd f k1 nf E Hb Hf. destruct (leak_Some _ _ _ Hf) as (n & Hn & ->). simpl.
    apply (Hd hd f k1 n E); [|done]. by apply behind_leak.
  - intros x nx v Hx. destruct (leak_Some _ _ _ Hx) as (n & Hn & ->). simpl. intros Hv S HS.
    rewrite hand_leak. apply denotes_leak. apply (Hc x n v Hn Hv). intros hd Hhd He.
    apply (HS hd Hhd). by apply exposed_leak.
Qed.
End leak.

(** A handle that is up to date may be registered. *)
Lemma register_one reg h hd f k : lgood reg h → reg !! hd = None → entry_ok (cores h) hd f k →
  gattr (cores h) hd "x"%string = gattr (cores h) f k → lgood (<[hd := (f, k)]> reg) h.
Proof.
  intros [Hi Hr Hd Hc] Hn He Hsame. set (reg' := <[hd := (f, k)]> reg).
  assert (Hother : ∀ o, o ≠ hd → reg' !! o = reg !! o) by (intros o Ho; by apply lookup_insert_ne).
  assert (Hr' : reg_ok reg' (cores h)).
  { intros hd' f' k' E. unfold reg' in E. apply lookup_insert_Some in E as [[<- [= <- <-]]|[_ E]]; [done|].
    by apply Hr. }
  assert (Hb : ∀ hd', behind reg' (cores h) hd' → behind reg (cores h) hd' ∧ hd' ≠ hd).
  { intros hd' (f' & k' & E & Hne). unfold reg' in E.
    apply lookup_insert_Some in E as [[<- [= <- <-]]|[Hne' E]]; [done|]. split; [|congruence].
    by exists f', k'. }
  assert (Hhand : ∀ S, hand reg' S (cores h) = hand reg S (cores h)).
  { intros S. apply map_eq; intros o. destruct (decide (o = hd)) as [->|Hne].
    - rewrite (hand_free L reg) by done. apply (hand_same L is_lam is_handle); [done|].
      intros Hb'. by destruct (Hb _ Hb').
    - rewrite !hand_lookup.
      assert (E : current (cores h) reg' o = current (cores h) reg o).
      { unfold LamSpec.current. by rewrite (Hother o Hne). }
      by rewrite E. }
  assert (Hex : ∀ hd' x, exposed reg (cores h) hd' x → exposed reg' (cores h) hd' x).
  { intros hd' x Hx. pose proof (exposed_behind _ _ _ _ _ Hx) as (f' & k' & E & Hne).
    assert (hd' ≠ hd) by congruence. induction Hx as [Hb'|x d y Hed Hd' Hy IH].
    - constructor. exists f', k'. by rewrite Hother.
    - eapply ex_step; [done| |by apply IH]. intros k2 E2.
      rewrite Hother in E2 by done. by apply (Hd' k2). }
  split; [done|done| |].
  - intros hd' f' k' nf E Hbh Hf. destruct (Hb _ Hbh) as [Hb' Hne]. rewrite Hother in E by done.
    by apply (Hd hd' f').
  - intros x nx v Hx Hv S HS. rewrite Hhand. apply (Hc x nx v Hx Hv). intros hd' Hin He'.
    apply (HS hd' Hin). by apply Hex.
Qed.

End hist.
