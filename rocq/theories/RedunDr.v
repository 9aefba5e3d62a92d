(** Values and derivatives after redundancy removal. *)
From stdpp Require Import gmap strings list relations sorting.
From Verif Require Import EngineModel EngineSpec EngineClear EngineEval EngineSet EngineInv EngineOps
  EngineRead EngineHist EngineThms GraphModel GraphSpec GraphThms RevSpec RedunModel RedunSpec RedunThms RedunTerm.

Section dr.
Context (L : lib) `{EqDecision (Cls L), EqDecision (Val L)}.
Notation graph := (gmap oid (core L)).
Notation heap := (gmap oid (node L)).
Notation state := (state L).
Notation st_h := (st_h L).
Notation cores := (cores L).
Notation expr_of := (expr_of L).
Notation alike := (alike L).
Notation final l := (exec L l (init L)).
Implicit Types (g : graph) (c : core L) (h : heap) (m : memo L) (st : state).

Lemma returns_runp {R} (P : R → Prop) ask (p : prog (Arr L) R) r : returns L P p → runp L ask p = Some r → P r.
Proof.
  induction p as [r'| |q f IHp]; simpl; [naive_solver|done|]. intros Hr. destruct (ask q) as [v|]; [|done].
  apply IHp, Hr.
Qed.

Section two.
Context (g g' : graph) (w : oid) (N : nat).
Hypothesis Hok : graph_ok L g.
Hypothesis Hok' : graph_ok L g'.
Hypothesis Hu : uniform2 L g g'.
Hypothesis Hu' : uniform2 L g' g.
Hypothesis Hfr : framed L g g'.
Hypothesis Hexpr : ∀ n x, expr_of n g' x = expr_of n g x.
Hypothesis Hw : not_view L g w.
Hypothesis Hirr : ∀ q, twins L g q w → q = w.
Hypothesis Hst : same_terms L g.
Hypothesis Hnt : no_twin_operands L g.
Hypothesis Hans : answers_operands L g.
Hypothesis Hun : ∀ o, o ∈ dom g → uncut L (expr_of N g o).
Hypothesis Hcl : ∀ o c k p, g !! o = Some c → c_attr L c !! k = Some (ARef p) → p ∈ dom g.

Lemma alike_w o o' : alike g g' o o' → (o = w ↔ o' = w).
Proof.
  intros Ha. split.
  - intros ->. apply Hirr. intros n. by rewrite (Ha n), Hexpr.
  - intros ->. apply Hirr. intros n. by rewrite (Ha n), Hexpr.
Qed.
Lemma alike_twins o o' : alike g g' o o' → twins L g o o'.
Proof. intros Ha n. by rewrite (Ha n), Hexpr. Qed.
Lemma alike_dt o o' c c' : alike g g' o o' → g !! o = Some c → g' !! o' = Some c' → c_dt L c' = c_dt L c.
Proof.
  intros Ha Hc Hc'. pose proof (Hfr o') as F. rewrite Hc' in F. inversion F as [c0 ? [R1 R2 R3 R4] E0|]; subst.
  rewrite R2. symmetry. by apply (Hst o c o' c0); [..|apply alike_twins].
Qed.
Lemma alike_attr o o' c c' k : alike g g' o o' → g !! o = Some c → g' !! o' = Some c' → k ∈ c_dt L c →
  (∀ p, c_attr L c !! k ≠ Some (ARef p)) ∧ (∀ p, c_attr L c' !! k ≠ Some (ARef p)) ∨
  (∃ p p', c_attr L c !! k = Some (ARef p) ∧ c_attr L c' !! k = Some (ARef p') ∧ alike g g' p p').
Proof.
  intros Ha Hc Hc' Hk.
  destruct (expr_attrs L g g' o o' c c' k Hu Hu' Ha Hc Hc') as [[-> ->]|[(t & -> & ->)|?]].
  - unfold tracked. rewrite elem_of_union, elem_of_list_to_set. by left.
  - by left.
  - by left.
  - by right.
Qed.

Lemma pdirect_alike n o o' x x' c c' : alike g g' o o' → g !! o = Some c → g' !! o' = Some c' →
  (o = x ↔ o' = x') → matches L c x = matches L c' x' → pdirect L n g o x = pdirect L n g' o' x'.
Proof.
  intros Ha Hc Hc' Hx Hm. unfold pdirect. rewrite Hc, Hc'.
  destruct (Hok o c Hc) as [Hco _].
  assert (E : c_cls L c' = c_cls L c) by (symmetry; by apply (expr_cls L 0 g g' o o')).
  rewrite E, <- Hm, <- (co_dr_agree _ _ _ _ Hco _ _ _ _ (expr_plain L g g' o o' c c' Hu Hu' Ha Hc Hc')).
  rewrite <- (bool_decide_ext _ _ Hx).
  apply (expr_run L g g' n o o' c c'); try done; [|apply Hco].
  intros. by apply expr_eval.
Qed.

Lemma filter_ext_in (P Q : name → Prop) `{∀ x, Decision (P x), ∀ x, Decision (Q x)} (l : list name) :
  (∀ k, k ∈ l → P k ↔ Q k) → filter P l = filter Q l.
Proof.
  induction l as [|k l IH]; intros Hl; [done|]. rewrite !filter_cons.
  rewrite IH by (intros k' Hk'; apply Hl; by right). pose proof (Hl k ltac:(left)).
  destruct (decide (P k)), (decide (Q k)); naive_solver.
Qed.

Lemma is_ref_true x (a : option (aval L)) : is_ref L x a ↔ a = Some (ARef x).
Proof. destruct a as [[|p]|]; simpl; [done| |done]. rewrite bool_decide_spec. naive_solver. Qed.

Lemma sliced_w n o o' : alike g g' o o' → psliced L n g o w = psliced L n g' o' w.
Proof.
  intros Ha. pose proof (Ha 1) as H1. simpl in H1. unfold psliced.
  destruct (g !! o) as [c|] eqn:Hc, (g' !! o') as [c'|] eqn:Hc'; try done; clear H1.
  2:{ unfold pdirect. by rewrite Hc, Hc'. }
  rewrite (pdirect_alike n o o' w w c c' Ha Hc Hc' (alike_w o o' Ha)).
  2:{ unfold matches. rewrite (alike_dt o o' c c' Ha Hc Hc'). apply filter_ext_in. intros k Hk.
      rewrite !is_ref_true. destruct (alike_attr o o' c c' k Ha Hc Hc' Hk) as [[H1 H2]|(p & p' & -> & -> & Hp)].
      - split; intros E; [by destruct (H1 w)|by destruct (H2 w)].
      - pose proof (alike_w p p' Hp). naive_solver. }
  destruct (pdirect L n g' o' w) as [[j|]|]; [done| |done].
  destruct Hw as (cw & Hcw & Hp). pose proof (Hfr w) as F. rewrite Hcw in F. inversion F as [? cw' R E1 E0|]; subst.
  destruct R as [R1 _ _ _].
  destruct n as [|n]; [done|]. simpl. by rewrite Hcw, <- E0, R1, Hp.
Qed.

Lemma operand_depth o c k p : g !! o = Some c → k ∈ c_dt L c → c_attr L c !! k = Some (ARef p) → ¬ twins L g o p.
Proof.
  intros Hc Hk Hp Htw.
  assert (xdepth L (expr_of N g p) < xdepth L (expr_of N g o)).
  { apply (xdepth_child L N g o c k p); [done..| |]; apply Hun; [by apply elem_of_dom_2 in Hc|by apply (Hcl o c k)]. }
  rewrite (Htw N) in *. lia.
Qed.

Lemma sliced_operand n o o' c c' k p p' : alike g g' o o' → g !! o = Some c → g' !! o' = Some c' →
  k ∈ c_dt L c → c_attr L c !! k = Some (ARef p) → c_attr L c' !! k = Some (ARef p') → alike g g' p p' →
  psliced L n g o p = psliced L n g' o' p'.
Proof.
  intros Ha Hc Hc' Hk Ep Ep' Hp. unfold psliced.
  assert (Hm : ∀ k2, k2 ∈ c_dt L c → is_ref L p (c_attr L c !! k2) ↔ k2 = k).
  { intros k2 Hk2. rewrite is_ref_true. split; [|naive_solver]. intros E2. apply (Hnt o c k2 k p p Hc Hk2 Hk E2 Ep).
    intros i. done. }
  assert (Hm' : ∀ k2, k2 ∈ c_dt L c → is_ref L p' (c_attr L c' !! k2) ↔ k2 = k).
  { intros k2 Hk2. rewrite is_ref_true. split; [|naive_solver]. intros E2.
    destruct (alike_attr o o' c c' k2 Ha Hc Hc' Hk2) as [[_ H2]|(p2 & p2' & F1 & F2 & Hp2)]; [by destruct (H2 p')|].
    rewrite E2 in F2. injection F2 as <-. apply (Hnt o c k2 k p2 p Hc Hk2 Hk F1 Ep).
    intros i. by rewrite (Hp2 i), (Hp i). }
  assert (Hno : o ≠ p).
  { intros <-. by apply (operand_depth o c k o). }
  assert (Hno' : o' ≠ p').
  { intros <-. apply (operand_depth o c k p Hc Hk Ep). intros i. by rewrite (Ha i), (Hp i). }
  assert (E : matches L c p = matches L c' p').
  { unfold matches. rewrite (alike_dt o o' c c' Ha Hc Hc'). apply filter_ext_in. intros k2 Hk2.
    by rewrite Hm, Hm'. }
  rewrite <- (pdirect_alike n o o' p p' c c' Ha Hc Hc' ltac:(naive_solver) E).
  destruct (pdirect L n g o p) as [[j|]|] eqn:Ed; [done| |done]. exfalso.
  unfold pdirect in Ed. rewrite Hc in Ed. rewrite bool_decide_false in Ed by done.
  refine (returns_runp (λ j, j ≠ None) _ _ None (Hans o c _ _ Hc _ _ _) Ed eq_refl).
  - destruct (is_base L (c_cls L c)) eqn:Hb; [|done]. exfalso. destruct (Hok o c Hc) as [Hco Hb'].
    by apply (Hb' Hb k p).
  - unfold matches. intros E0. assert (Hin : k ∈ filter (λ k, is_ref L p (c_attr L c !! k)) (c_dt L c)).
    { apply elem_of_list_filter. split; [by apply Hm|done]. } rewrite E0 in Hin. by apply elem_of_nil in Hin.
  - intros k2 Hk2. by apply elem_of_list_filter in Hk2 as [_ ?].
Qed.

Lemma dr_alike n : ∀ o o', alike g g' o o' → drval L n g o w = drval L n g' o' w.
Proof.
  induction n as [|n IH]; intros o o' Ha; [done|]. simpl. pose proof (Ha 1) as H1. simpl in H1.
  destruct (g !! o) as [c|] eqn:Hc, (g' !! o') as [c'|] eqn:Hc'; try done; clear H1.
  rewrite <- (sliced_w n o o' Ha). destruct (psliced L n g o w) as [d|]; [|done].
  rewrite (alike_dt o o' c c' Ha Hc Hc').
  assert (Hloop : ∀ ks acc, (∀ k, k ∈ ks → k ∈ c_dt L c) →
    pdr_loop L (λ p, drval L n g p w) n g o w c ks acc = pdr_loop L (λ p, drval L n g' p w) n g' o' w c' ks acc).
  2:{ by rewrite Hloop. }
  induction ks as [|k ks IHk]; intros acc Hks; [done|]. simpl.
  assert (Hk : k ∈ c_dt L c) by (apply Hks; left).
  assert (Hks' : ∀ k, k ∈ ks → k ∈ c_dt L c) by (intros; apply Hks; by right).
  destruct (alike_attr o o' c c' k Ha Hc Hc' Hk) as [[H1 H2]|(p & p' & Ep & Ep' & Hp)].
  - destruct (c_attr L c !! k) as [[|p]|], (c_attr L c' !! k) as [[|p']|]; try (by apply IHk);
      try (by destruct (H1 p)); by destruct (H2 p').
  - rewrite Ep, Ep'. pose proof (alike_w p p' Hp) as Hpw.
    destruct (decide (p = w)), (decide (p' = w)); [by apply IHk|naive_solver..|].
    rewrite <- (IH p p' Hp). rewrite <- (sliced_operand n o o' c c' k p p'); try done.
    destruct (drval L n g p w) as [[j|]|]; [|by apply IHk|done].
    destruct (psliced L n g o p) as [[d'|]|]; [by apply IHk|by apply IHk|done].
Qed.
End two.

(* ------------------------------------------------------------------ *)
(** The state. *)
Lemma merged_graph_ok h0 h m : merged L h0 h m → graph_ok L (cores h0) → graph_ok L (cores h).
Proof.
  intros Hm Hok x c Hc. pose proof (merged_framed L h0 h m Hm x) as F. rewrite Hc in F.
  inversion F as [c0 ? [R1 R2 R3 R4] E0|]; subst. destruct (Hok x c0 (eq_sym E0)) as [Hco Hb]. unfold node_ok.
  rewrite R1, R2, R3. split; [done|]. intros Hbase k p Hk. destruct (R4 k) as [->|(p' & q & E1 & E2)]; [by apply Hb|].
  exfalso. by apply (Hb Hbase k p').
Qed.
Lemma merged_not_view h0 h m w : merged L h0 h m → not_view L (cores h0) w ↔ not_view L (cores h) w.
Proof.
  intros Hm. pose proof (merged_framed L h0 h m Hm w) as F. unfold not_view.
  inversion F as [c0 c [R1 R2 R3 R4] E0 E1|E0 E1].
  - split; intros (c2 & [= <-] & Hp); eexists; (split; [done|]); congruence.
  - split; intros (c2 & ? & Hp); done.
Qed.
Lemma merged_rinv (B : oid → Prop) h0 h m : uniform L (cores h0) → merged L h0 h m →
  (∀ w n x, B w → not_view L (cores h0) w → drval L n (cores h) x w = drval L n (cores h0) x w) →
  rinv L B h0 → rinv L B h.
Proof.
  intros Hu Hm Hdr [[Hok Hk] Hc].
  pose proof (merged_eval L h0 h m Hok Hu Hm) as He.
  assert (Hn : ∀ x nx, h !! x = Some nx → ∃ n0, h0 !! x = Some n0 ∧ n_r L nx = n_r L n0 ∧ n_pc L nx = n_pc L n0 ∧
    n_dr L nx = n_dr L n0 ∧ c_cls L (n_core L nx) = c_cls L (n_core L n0)).
  { intros x nx Hx. pose proof (mg_node _ _ _ _ Hm x) as F. rewrite Hx in F.
    inversion F as [n0 ? (c & -> & [R1 _ _ _]) E0|]; subst. by exists n0. }
  assert (Hden : ∀ x q v, denotes L (cores h0) x q v → denotes L (cores h) x q v).
  { intros x q v [n Hn']. exists n. by rewrite He. }
  split; [split|split].
  - by apply (merged_graph_ok h0 h m).
  - intros x nx w j Hx Hj. destruct (Hn x nx Hx) as (n0 & Hn0 & _ & _ & E & _). rewrite E in Hj.
    destruct (Hk x n0 w j Hn0 Hj) as [nw Hnw]. pose proof (mg_node _ _ _ _ Hm w) as F. rewrite Hnw in F.
    inversion F; subst. eauto.
  - intros x nx v Hx Hv. destruct (Hn x nx Hx) as (n0 & Hn0 & E & _). rewrite E in Hv. apply Hden.
    by apply (rc_r _ _ _ Hc x n0).
  - intros x nx k v Hx Hv. destruct (Hn x nx Hx) as (n0 & Hn0 & _ & E & _). rewrite E in Hv. apply Hden.
    by apply (rc_pc _ _ _ Hc x n0).
  - intros x nx k v Hx Hv. destruct (Hn x nx Hx) as (n0 & Hn0 & _ & E & _ & Ec). rewrite E in Hv. rewrite Ec.
    by apply (rc_pcd _ _ _ Hc x n0 k v).
  - intros x nx w j Hx Hj HB Hv. destruct (Hn x nx Hx) as (n0 & Hn0 & _ & _ & E & _). rewrite E in Hj.
    apply (merged_not_view h0 h m w Hm) in Hv. destruct (rc_dr _ _ _ Hc x n0 w j Hn0 Hj HB Hv) as [n Hn'].
    exists n. by rewrite Hdr.
Qed.

(** What remove_redundancy leaves behind. *)
Lemma removed (B : oid → Prop) r n o st : rinv L B (st_h st) → uniform L (cores (st_h st)) →
  ∃ h1 m, cores h1 = cores (st_h st) ∧ rinv L B h1 ∧ merged L h1 (st_h (remove_redundancy L r n o st).1) m.
Proof.
  intros Hi Hu. destruct (read_rgood L B (cores (st_h st)) n o QR st Hi eq_refl) as (Hi1 & Hk & _).
  unfold remove_redundancy. destruct (read L n o QR st) as [st1 [v|]]; simpl in *.
  - destruct (sweeps_merged L r n o (st_h st1)) as [m Hm]. exists (st_h st1), m.
    split; [by apply kept_cores|]. split; [done|].
    destruct (sweeps L r n o (st_h st1) []) as [h' res]. done.
  - exists (st_h st1), []. split; [by apply kept_cores|]. split; [done|]. apply merged_refl.
Qed.

Lemma removed_values l r n o : lib_ok L → valid L l → uniform L (gexec L l ∅) →
  ∀ x q v, reads L (remove_redundancy L r n o (final l)).1 x q v ↔ reads L (final l) x q v.
Proof.
  intros Hlib Hv Hu x q v. destruct (exec_ok L l Hlib Hv) as [[Hi _ _] Hc].
  assert (Hr : rinv L (λ _, False) (st_h (final l))) by (by apply inv_rinv).
  rewrite <- Hc in Hu. destruct (removed (λ _, False) r n o (final l) Hr Hu) as (h1 & m & E & Hi1 & Hm).
  rewrite <- E in Hu. assert (Hi2 : rinv L (λ _, False) (st_h (remove_redundancy L r n o (final l)).1)).
  { by apply (merged_rinv _ h1 _ m). }
  rewrite (rinv_reads L _ _ x q v Hi2), (rinv_reads L _ _ x q v Hr). unfold denotes. rewrite <- E.
  pose proof (merged_eval L h1 _ m (proj1 (proj1 Hi1)) Hu Hm) as He.
  split; intros [k Hk]; exists k; [by rewrite <- He|by rewrite He].
Qed.

Lemma removed_derivatives l r n o w : lib_ok L → valid L l → uniform L (gexec L l ∅) →
  acyclic (points L (gexec L l ∅)) → all_set L (gexec L l ∅) (dom (gexec L l ∅)) →
  same_terms L (gexec L l ∅) → no_twin_operands L (gexec L l ∅) → answers_operands L (gexec L l ∅) →
  not_view L (gexec L l ∅) w → (∀ q, twins L (gexec L l ∅) q w → q = w) →
  ∀ x j, reads_dr L (remove_redundancy L r n o (final l)).1 x w j ↔ reads_dr L (final l) x w j.
Proof.
  intros Hlib Hv Hu Hac Hset Hst Hnt Hans Hw Hirr x j.
  pose proof (valid_well_formed L l Hlib Hv) as Hwf.
  destruct (exec_ok L l Hlib Hv) as [[Hi _ _] Hc]. rewrite <- Hc in *.
  assert (Hr : rinv L (λ x, x = w) (st_h (final l))) by (by apply inv_rinv).
  destruct (removed (λ x, x = w) r n o (final l) Hr Hu) as (h1 & m & E & Hi1 & Hm).
  rewrite <- E in *. set (h' := st_h (remove_redundancy L r n o (final l)).1) in *.
  destruct (uniform_framed L _ _ Hu (merged_framed L _ _ _ Hm)) as [U1 U2].
  assert (Hdr : ∀ k x, drval L k (cores h') x w = drval L k (cores h1) x w).
  { intros k y. symmetry. apply (dr_alike (cores h1) (cores h') w (size (dom (cores h1)))); try done.
    - apply Hi1.
    - by apply (merged_framed L h1 h' m).
    - apply Hm.
    - intros z Hz. apply uncut_acyclic; try done. intros a b Ha (ca & ka & Hca & Hka & Hab).
      by apply (wf_closed _ _ Hwf a ca ka).
    - apply (wf_closed _ _ Hwf).
    - intros i. symmetry. apply Hm. }
  assert (Hi2 : rinv L (λ x, x = w) h').
  { apply (merged_rinv _ h1 _ m); [done..| |done]. intros ? k y -> _. apply Hdr. }
  assert (Hw2 : not_view L (cores h') w) by (by apply (merged_not_view h1 h' m)).
  unfold h' in *.
  rewrite (rinv_reads_dr L (λ x, x = w) _ x w j eq_refl Hi2 Hw2).
  rewrite (rinv_reads_dr L (λ x, x = w) _ x w j eq_refl Hr) by (by rewrite <- E).
  unfold dr_denotes. rewrite <- E.
  split; intros [k Hk]; exists k; [by rewrite <- Hdr|by rewrite Hdr].
Qed.

Lemma removed_total l D o v : lib_ok L → valid L l → acyclic (points L (gexec L l ∅)) →
  closed_under L (gexec L l ∅) D → all_set L (gexec L l ∅) D → o ∈ D → reads L (final l) o QR v →
  ∃ r n, (remove_redundancy L r n o (final l)).2 = Some tt.
Proof.
  intros Hlib Hv Hac Hcl Hset Ho Hr. destruct (exec_ok L l Hlib Hv) as [[Hi _ _] Hc].
  apply (inv_reads L _ _ _ _ Hi) in Hr as [k Hk].
  assert (Hk2 : eval L (k `max` size D) (cores (st_h (final l))) o QR = Some v) by (eapply eval_mono; [|done]; lia).
  assert (Hri : rinv L (λ _, False) (st_h (final l))) by (by apply inv_rinv).
  destruct (rinv_read L (λ _, False) (final l) (k `max` size D) o QR Hri) as [_ Hrd]. specialize (Hrd v Hk2).
  destruct (read_rgood L (λ _, False) (cores (st_h (final l))) (k `max` size D) o QR (final l) Hri eq_refl) as (_ & Hkept & _).
  unfold remove_redundancy. destruct (read L (k `max` size D) o QR (final l)) as [st1 res] eqn:Er. simpl in *. subst res.
  rewrite <- Hc, <- (kept_cores L _ _ Hkept) in *.
  destruct (sweeps_total L (st_h st1) D (k `max` size D) o) as [r Hr]; try done; [lia|].
  exists r, (k `max` size D). rewrite Er. destruct (sweeps L r _ o (st_h st1) []) as [h' res]. exact Hr.
Qed.

Lemma removed_shared l r n o : lib_ok L → valid L l → acyclic (points L (gexec L l ∅)) →
  all_set L (gexec L l ∅) (dom (gexec L l ∅)) → o ∈ dom (gexec L l ∅) →
  (remove_redundancy L r n o (final l)).2 = Some tt →
  shared_all L (cores (st_h (remove_redundancy L r n o (final l)).1)) o.
Proof.
  intros Hlib Hv Hac Hset Ho. pose proof (valid_well_formed L l Hlib Hv) as Hwf.
  destruct (exec_ok L l Hlib Hv) as [[Hi _ _] Hc]. rewrite <- Hc in *.
  assert (Hri : rinv L (λ _, False) (st_h (final l))) by (by apply inv_rinv).
  destruct (read_rgood L (λ _, False) (cores (st_h (final l))) n o QR (final l) Hri eq_refl) as (_ & Hkept & _).
  unfold remove_redundancy. destruct (read L n o QR (final l)) as [st1 [v|]]; simpl in *; [|done].
  apply kept_cores in Hkept. rewrite <- Hkept in *.
  pose proof (sweeps_shared L (st_h st1) n o r Hac) as Hs.
  destruct (sweeps L r n o (st_h st1) []) as [h' res]. simpl in *. intros ->. apply Hs; try done.
  - intros a b Ha (ca & ka & Hca & Hka & Hab). by apply (wf_closed _ _ Hwf a ca ka).
  - apply elem_of_dom in Ho as [c Hco]. apply cores_Some_inv in Hco as (no & Hno & _). eauto.
Qed.
End dr.
