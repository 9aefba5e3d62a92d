(** Properties of the cache-free evaluation: monotonicity in fuel, determinism,
    and locality (a value depends only on what can be reached). *)
From stdpp Require Import gmap strings list relations.
From Verif Require Import EngineModel EngineSpec.

Section eval.
Context (L : lib).
Notation graph := (gmap oid (core L)).
Notation not_view := (not_view L).
Implicit Types (g : graph) (c : core L).

Lemma runp_mono {R} ask1 ask2 (p : prog (Arr L) R) r :
  (∀ q v, ask1 q = Some v → ask2 q = Some v) →
  runp L ask1 p = Some r → runp L ask2 p = Some r.
Proof.
  intros Hask. induction p as [r'| |q f IH]; simpl; [done..|].
  destruct (ask1 q) as [v|] eqn:E; [|done]. rewrite (Hask _ _ E). apply IH.
Qed.

Lemma answer_mono rd1 rd2 o c :
  (∀ p w v, rd1 p w = Some v → rd2 p w = Some v) →
  ∀ q v, answer L rd1 o c q = Some v → answer L rd2 o c q = Some v.
Proof.
  intros H [|k|k] v; simpl; [auto| |auto].
  destruct (c_attr L c !! k) as [[?|p]|]; [done| |done]. auto.
Qed.

Lemma eval_mono n m g o w v : n ≤ m → eval L n g o w = Some v → eval L m g o w = Some v.
Proof.
  revert m o w v. induction n as [|n IH]; intros m o w v Hle; [done|].
  destruct m as [|m]; [lia|]. simpl.
  destruct (g !! o) as [c|]; [|done].
  assert (Hans : ∀ q v, answer L (eval L n g) o c q = Some v →
                        answer L (eval L m g) o c q = Some v).
  { apply answer_mono. intros. apply IH; [lia|done]. }
  destruct w as [|k]; [by apply runp_mono|].
  destruct (prop_deps _ _ !! k); [|done]. by apply runp_mono.
Qed.

Lemma denotes_det g o w v1 v2 : denotes L g o w v1 → denotes L g o w v2 → v1 = v2.
Proof.
  intros [n1 H1] [n2 H2].
  apply (eval_mono _ (n1 `max` n2)) in H1; [|lia].
  apply (eval_mono _ (n1 `max` n2)) in H2; [|lia]. congruence.
Qed.

Lemma pdirect_mono n m g o w j : n ≤ m → pdirect L n g o w = Some j → pdirect L m g o w = Some j.
Proof.
  intros Hle. unfold pdirect. destruct (g !! o) as [c|]; [|done].
  apply runp_mono. apply answer_mono. intros. by eapply eval_mono.
Qed.

Lemma pwalk_mono m1 m2 n1 n2 g o i r : m1 ≤ m2 → n1 ≤ n2 →
  pwalk L m1 n1 g o i = Some r → pwalk L m2 n2 g o i = Some r.
Proof.
  revert m2 i. induction m1 as [|m1 IH]; intros m2 i Hm Hn; [done|].
  destruct m2 as [|m2]; [lia|]. simpl. destruct (g !! i) as [c|]; [|done].
  destruct (is_permute _ _); [|done].
  destruct (c_attr L c !! "a"%string) as [[?|p]|]; [done| |done].
  case_decide; [done|].
  destruct (pdirect L n1 g o p) as [jo|] eqn:E; [|done].
  rewrite (pdirect_mono n1 n2 _ _ _ jo) by done.
  destruct jo; [done|]. apply IH; [lia|done].
Qed.

Lemma psliced_mono n m g o w j : n ≤ m → psliced L n g o w = Some j → psliced L m g o w = Some j.
Proof.
  intros Hle. unfold psliced.
  destruct (pdirect L n g o w) as [jo|] eqn:E; [|done].
  rewrite (pdirect_mono n m _ _ _ jo) by done. destruct jo; [done|].
  destruct (pwalk L n n g o w) as [r|] eqn:E2; [|done].
  rewrite (pwalk_mono n m n m _ _ _ r) by done.
  destruct r as [[i j']|]; [|done].
  destruct (pdirect L n g w i) as [jo|] eqn:E3; [|done].
  rewrite (pdirect_mono n m _ _ _ jo) by done. done.
Qed.

Lemma pdr_loop_mono rd1 rd2 n m g o w c ks acc r :
  (∀ p j, rd1 p = Some j → rd2 p = Some j) → n ≤ m →
  pdr_loop L rd1 n g o w c ks acc = Some r → pdr_loop L rd2 m g o w c ks acc = Some r.
Proof.
  intros Hrd Hle. revert acc. induction ks as [|k ks IH]; intros acc; simpl; [done|].
  destruct (c_attr L c !! k) as [[?|p]|]; [apply IH| |apply IH].
  case_decide; [apply IH|].
  destruct (rd1 p) as [jo|] eqn:E; [|done]. rewrite (Hrd _ _ E).
  destruct jo as [j2|]; [|apply IH].
  destruct (psliced L n g o p) as [d|] eqn:E2; [|done].
  rewrite (psliced_mono n m _ _ _ d) by done.
  destruct d; apply IH.
Qed.

Lemma drval_mono n m g o w j : n ≤ m → drval L n g o w = Some j → drval L m g o w = Some j.
Proof.
  revert m o j. induction n as [|n IH]; intros m o j Hle; [done|].
  destruct m as [|m]; [lia|]. simpl. destruct (g !! o) as [c|]; [|done].
  destruct (psliced L n g o w) as [d|] eqn:E; [|done].
  rewrite (psliced_mono n m _ _ _ d) by (done || lia).
  destruct (pdr_loop L _ n g o w c _ _) as [l|] eqn:E2; [|done].
  erewrite (pdr_loop_mono _ _ n m); [done| |lia|done].
  intros p j' Hp. simpl in *. apply IH; [lia|done].
Qed.

Lemma dr_denotes_det g o w j1 j2 : dr_denotes L g o w j1 → dr_denotes L g o w j2 → j1 = j2.
Proof.
  intros [n1 H1] [n2 H2].
  apply (drval_mono _ (n1 `max` n2)) in H1; [|lia].
  apply (drval_mono _ (n1 `max` n2)) in H2; [|lia]. congruence.
Qed.

(* ------------------------------------------------------------------ *)
(** Locality. *)
Lemma runp_ext {R} (P : req → Prop) ask1 ask2 (p : prog (Arr L) R) :
  uses L P p → (∀ q, P q → ask1 q = ask2 q) → runp L ask1 p = runp L ask2 p.
Proof.
  intros Hu Hask. induction p as [r'| |q f IH]; simpl; [done..|].
  destruct Hu as [Hq Hf]. rewrite (Hask q Hq). destruct (ask2 q); [by apply IH|done].
Qed.

(** Objects equal up to untracked attributes. *)
Record core_sim c1 c2 : Prop := {
  cs_cls : c_cls L c1 = c_cls L c2;
  cs_dt : c_dt L c1 = c_dt L c2;
  cs_tm : c_tm L c1 = c_tm L c2;
  cs_attr : ∀ k, k ∈ tracked (c_dt L c1) (c_tm L c1) → c_attr L c1 !! k = c_attr L c2 !! k
}.

Definition node_ok c : Prop :=
  class_ok L (c_cls L c) (c_dt L c) (c_tm L c) ∧
  (is_base L (c_cls L c) = true → ∀ k p, k ∈ c_dt L c → c_attr L c !! k ≠ Some (ARef p)).

Definition graph_ok g : Prop := ∀ o c, g !! o = Some c → node_ok c.

Lemma core_sim_refl c : core_sim c c.
Proof. by split. Qed.
Lemma core_sim_sym c1 c2 : core_sim c1 c2 → core_sim c2 c1.
Proof.
  intros [H1 H2 H3 H4]. split; try done. intros k Hk. symmetry. apply H4.
  by rewrite H2, H3.
Qed.
Lemma core_sim_trans c1 c2 c3 : core_sim c1 c2 → core_sim c2 c3 → core_sim c1 c3.
Proof.
  intros [H1 H2 H3 H4] [G1 G2 G3 G4]. split; try congruence. intros k Hk.
  rewrite H4 by done. apply G4. by rewrite <- H2, <- H3.
Qed.

Lemma elem_of_tracked k dt tm : k ∈ tracked dt tm ↔ k ∈ dt ∨ k ∈ tm.
Proof. unfold tracked. by rewrite elem_of_union, !elem_of_list_to_set. Qed.

Lemma plain_lookup c k t : plain L c !! k = Some t ↔ c_attr L c !! k = Some (AVal t).
Proof.
  unfold plain. rewrite lookup_omap. destruct (c_attr L c !! k) as [[t'|p]|]; simpl;
    split; intros H; try done; congruence.
Qed.

Lemma plain_agree (ks : gset name) c1 c2 :
  (∀ k, k ∈ ks → c_attr L c1 !! k = c_attr L c2 !! k) → agree L ks (plain L c1) (plain L c2).
Proof.
  intros H k Hk. apply option_eq; intros t. rewrite !plain_lookup. by rewrite H.
Qed.

Lemma matches_sim c1 c2 w : core_sim c1 c2 → matches L c1 w = matches L c2 w.
Proof.
  intros [H1 H2 H3 H4]. unfold matches. rewrite <- H2.
  assert (Hsub : ∀ k, k ∈ c_dt L c1 → c_attr L c1 !! k = c_attr L c2 !! k).
  { intros k Hk. apply H4, elem_of_tracked; auto. }
  clear H1 H2 H3 H4. induction (c_dt L c1) as [|k ks IH]; [done|].
  rewrite !filter_cons. rewrite (Hsub k) by (by left).
  rewrite IH; [done|]. intros; apply Hsub; by right.
Qed.

Definition gsim g1 g2 (o : oid) : Prop := option_Forall2 core_sim (g1 !! o) (g2 !! o).

Lemma gsim_Some g1 g2 o c1 : gsim g1 g2 o → g1 !! o = Some c1 →
  ∃ c2, g2 !! o = Some c2 ∧ core_sim c1 c2.
Proof. intros H E. unfold gsim in H. rewrite E in H. inversion H; subst; eauto. Qed.
Lemma gsim_None g1 g2 o : gsim g1 g2 o → g1 !! o = None → g2 !! o = None.
Proof. intros H E. unfold gsim in H. rewrite E in H. by inversion H. Qed.

Lemma answer_ext g1 g2 n o c1 c2 :
  g1 !! o = Some c1 →
  node_ok c1 → core_sim c1 c2 →
  (∀ w, eval L n g1 o w = eval L n g2 o w) →
  (∀ k p, edge L g1 o k p → eval L n g1 p QR = eval L n g2 p QR) →
  ∀ q, asks_tracked L (c_cls L c1) (c_dt L c1) q →
  answer L (eval L n g1) o c1 q = answer L (eval L n g2) o c2 q.
Proof.
  intros Hg [Hok Hb] Hs Hself Hch [|k|k] Hq; simpl; [apply Hself| |apply Hself].
  rewrite <- (cs_attr _ _ Hs k) by (apply elem_of_tracked; auto).
  destruct (c_attr L c1 !! k) as [[t|p]|] eqn:E; [done| |done].
  apply (Hch k p). exists c1. split_and!; try done.
  destruct (is_base L (c_cls L c1)) eqn:Eb; [|done].
  exfalso. by apply (Hb eq_refl k p).
Qed.

Lemma eval_frame n g1 g2 o w :
  (∀ p, dep L g1 o p → gsim g1 g2 p) →
  (∀ p c, dep L g1 o p → g1 !! p = Some c → node_ok c) →
  eval L n g1 o w = eval L n g2 o w.
Proof.
  revert o w. induction n as [|n IH]; intros o w Hsim Hok; [done|]. simpl.
  assert (Ho : gsim g1 g2 o) by (apply Hsim; constructor).
  destruct (g1 !! o) as [c1|] eqn:E1.
  2:{ by rewrite (gsim_None _ _ _ Ho E1). }
  destruct (gsim_Some _ _ _ _ Ho E1) as (c2 & E2 & Hs). rewrite E2.
  assert (Hok1 : node_ok c1) by (apply (Hok o c1); [constructor|done]).
  assert (Hans : ∀ q, asks_tracked L (c_cls L c1) (c_dt L c1) q →
     answer L (eval L n g1) o c1 q = answer L (eval L n g2) o c2 q).
  { apply answer_ext; try done.
    - intros w'. by apply IH.
    - intros k p He. apply IH.
      + intros p' Hp'. apply Hsim. econstructor; [|done]. by exists k.
      + intros p' c' Hp'. apply Hok. econstructor; [|done]. by exists k. }
  destruct Hok1 as [Hco _].
  assert (Hag : agree L (tracked (c_dt L c1) (c_tm L c1)) (plain L c1) (plain L c2))
    by (apply plain_agree; apply (cs_attr _ _ Hs)).
  destruct w as [|k].
  - rewrite <- (cs_cls _ _ Hs).
    rewrite <- (co_r_agree _ _ _ _ Hco _ _ Hag).
    eapply runp_ext; [apply (co_r _ _ _ _ Hco)|done].
  - rewrite <- (cs_cls _ _ Hs).
    destruct (prop_deps L (c_cls L c1) !! k) as [ds|] eqn:Ed; [|done].
    rewrite <- (co_prop_agree _ _ _ _ Hco k ds (plain L c1) (plain L c2) Ed)
      by (intros k' Hk'; apply Hag; by apply (co_deps _ _ _ _ Hco k ds Ed)).
    eapply runp_ext; [apply (co_prop _ _ _ _ Hco _ _ _ Ed)|].
    intros q [Hq _]. by apply Hans.
Qed.

(** A property depends only on its declared dependencies. *)
Lemma eval_prop_frame n g1 g2 o c1 c2 k ds :
  g1 !! o = Some c1 → g2 !! o = Some c2 → node_ok c1 →
  c_cls L c1 = c_cls L c2 →
  prop_deps L (c_cls L c1) !! k = Some ds →
  (∀ d, d ∈ ds → c_attr L c1 !! d = c_attr L c2 !! d) →
  (∀ d p, d ∈ ds → edge L g1 o d p → ∀ m, eval L m g1 p QR = eval L m g2 p QR) →
  eval L n g1 o (QProp k) = eval L n g2 o (QProp k).
Proof.
  intros E1 E2 Hok Hcls. revert k ds. induction n as [|n IH]; intros k ds Hd Hattr Hch; [done|].
  simpl. rewrite E1, E2, <- Hcls, Hd.
  destruct Hok as [Hco Hb].
  rewrite <- (co_prop_agree _ _ _ _ Hco k ds (plain L c1) (plain L c2) Hd)
    by (by apply plain_agree).
  eapply runp_ext; [apply (co_prop _ _ _ _ Hco _ _ _ Hd)|].
  intros [|k'|k'] [Hq1 Hq2]; simpl in *; [done| |].
  - rewrite <- (Hattr k' Hq2).
    destruct (c_attr L c1 !! k') as [[t|p]|] eqn:E; [done| |done].
    apply (Hch k' p Hq2). exists c1. split_and!; try done.
    destruct (is_base L (c_cls L c1)) eqn:Eb; [|done].
    exfalso. by apply (Hb eq_refl k' p).
  - destruct Hq2 as (ds' & Hd' & Hsub). apply (IH k' ds'); try done.
    + intros d Hd1. apply Hattr. set_solver.
    + intros d p Hd1. apply Hch. set_solver.
Qed.

(** Locality of derivatives. *)
Lemma dep_child g o k p q : edge L g o k p → dep L g p q → dep L g o q.
Proof. intros He Hd. econstructor; [|done]. by exists k. Qed.

Lemma pdirect_frame n g1 g2 o w :
  (∀ p, dep L g1 o p → gsim g1 g2 p) →
  (∀ p c, dep L g1 o p → g1 !! p = Some c → node_ok c) →
  pdirect L n g1 o w = pdirect L n g2 o w.
Proof.
  intros Hsim Hok. unfold pdirect.
  assert (Ho : gsim g1 g2 o) by (apply Hsim; constructor).
  destruct (g1 !! o) as [c1|] eqn:E1.
  2:{ by rewrite (gsim_None _ _ _ Ho E1). }
  destruct (gsim_Some _ _ _ _ Ho E1) as (c2 & E2 & Hs). rewrite E2.
  assert (Hok1 : node_ok c1) by (apply (Hok o c1); [constructor|done]).
  assert (Hag : agree L (tracked (c_dt L c1) (c_tm L c1)) (plain L c1) (plain L c2))
    by (apply plain_agree; apply (cs_attr _ _ Hs)).
  rewrite <- (cs_cls _ _ Hs), <- (matches_sim _ _ w Hs).
  rewrite <- (co_dr_agree _ _ _ _ (proj1 Hok1) _ _ _ _ Hag).
  eapply runp_ext; [apply (co_dr _ _ _ _ (proj1 Hok1))|].
  apply answer_ext; try done.
  - intros w'. by apply eval_frame.
  - intros k p He. apply eval_frame.
    + intros p' Hp'. apply Hsim. by eapply dep_child.
    + intros p' c' Hp'. apply Hok. by eapply dep_child.
Qed.

Lemma permute_edge g i c p :
  g !! i = Some c → node_ok c → is_permute L (c_cls L c) = true →
  c_attr L c !! "a"%string = Some (ARef p) → edge L g i "a" p.
Proof.
  intros Hg [Hco _] Hp Ha. destruct (co_permute _ _ _ _ Hco Hp). by exists c.
Qed.

Lemma pwalk_frame m n g1 g2 o i :
  (∀ p, dep L g1 o p → gsim g1 g2 p) →
  (∀ p c, dep L g1 o p → g1 !! p = Some c → node_ok c) →
  (∀ p, dep L g1 i p → gsim g1 g2 p) →
  (∀ p c, dep L g1 i p → g1 !! p = Some c → node_ok c) →
  pwalk L m n g1 o i = pwalk L m n g2 o i.
Proof.
  intros Hsim Hok. revert i. induction m as [|m IH]; intros i Hsi Hoi; [done|]. simpl.
  assert (Hi : gsim g1 g2 i) by (apply Hsi; constructor).
  destruct (g1 !! i) as [c1|] eqn:E1.
  2:{ by rewrite (gsim_None _ _ _ Hi E1). }
  destruct (gsim_Some _ _ _ _ Hi E1) as (c2 & E2 & Hs). rewrite E2.
  rewrite <- (cs_cls _ _ Hs). destruct (is_permute L (c_cls L c1)) eqn:Ep; [|done].
  assert (Hok1 : node_ok c1) by (apply (Hoi i c1); [constructor|done]).
  destruct (co_permute _ _ _ _ (proj1 Hok1) Ep) as [Hb Ha].
  rewrite <- (cs_attr _ _ Hs) by (apply elem_of_tracked; auto).
  destruct (c_attr L c1 !! "a"%string) as [[?|p]|] eqn:Ea; [done| |done].
  case_decide; [done|]. rewrite <- (pdirect_frame n g1 g2) by done.
  destruct (pdirect L n g1 o p) as [[j|]|]; try done.
  assert (He : edge L g1 i "a" p) by (eapply permute_edge; eauto).
  apply IH.
  - intros p' Hp'. apply Hsi. by eapply dep_child.
  - intros p' c' Hp'. apply Hoi. by eapply dep_child.
Qed.

Lemma psliced_frame n g1 g2 o w :
  (∀ p, dep L g1 o p → gsim g1 g2 p) →
  (∀ p c, dep L g1 o p → g1 !! p = Some c → node_ok c) →
  (∀ p, dep L g1 w p → gsim g1 g2 p) →
  (∀ p c, dep L g1 w p → g1 !! p = Some c → node_ok c) →
  psliced L n g1 o w = psliced L n g2 o w.
Proof.
  intros H1 H2 H3 H4. unfold psliced.
  rewrite <- (pdirect_frame n g1 g2 o w) by done.
  rewrite <- (pwalk_frame n n g1 g2 o w) by done.
  destruct (pdirect L n g1 o w) as [[j|]|]; try done.
  destruct (pwalk L n n g1 o w) as [[[i j]|]|]; try done.
  by rewrite <- (pdirect_frame n g1 g2 w i) by done.
Qed.

(** An object that is not a reordering view. *)
Lemma psliced_not_view n g o w : not_view g w →
  psliced L n g o w = match pdirect L n g o w with
                      | Some (Some j) => Some (Some j)
                      | Some None => match n with O => None | S _ => Some None end
                      | None => None
                      end.
Proof.
  intros (c & Hg & Hp). unfold psliced. destruct (pdirect L n g o w) as [[j|]|]; try done.
  destruct n; simpl; [done|]. by rewrite Hg, Hp.
Qed.

Lemma drval_frame n g1 g2 o w :
  (∀ p, dep L g1 o p → gsim g1 g2 p) →
  (∀ p c, dep L g1 o p → g1 !! p = Some c → node_ok c) →
  not_view g1 w → not_view g2 w →
  drval L n g1 o w = drval L n g2 o w.
Proof.
  intros Hsim Hok Hw1 Hw2. revert o Hsim Hok. induction n as [|n IH]; intros o Hsim Hok; [done|].
  simpl. assert (Ho : gsim g1 g2 o) by (apply Hsim; constructor).
  destruct (g1 !! o) as [c1|] eqn:E1.
  2:{ by rewrite (gsim_None _ _ _ Ho E1). }
  destruct (gsim_Some _ _ _ _ Ho E1) as (c2 & E2 & Hs). rewrite E2.
  rewrite !psliced_not_view by done. rewrite <- (pdirect_frame n g1 g2) by done.
  destruct (match pdirect L n g1 o w with Some (Some _) => _ | _ => _ end) as [d|]; [|done].
  assert (Hok1 : node_ok c1) by (apply (Hok o c1); [constructor|done]).
  rewrite <- (cs_dt _ _ Hs).
  assert (Hloop : ∀ ks acc, (∀ k, k ∈ ks → k ∈ c_dt L c1) →
    pdr_loop L (λ p, drval L n g1 p w) n g1 o w c1 ks acc =
    pdr_loop L (λ p, drval L n g2 p w) n g2 o w c2 ks acc).
  { intros ks. induction ks as [|k ks IHks]; intros acc Hks; [done|]. simpl.
    assert (Hk : k ∈ c_dt L c1) by (apply Hks; by left).
    assert (Hks' : ∀ k, k ∈ ks → k ∈ c_dt L c1) by (intros; apply Hks; by right).
    rewrite <- (cs_attr _ _ Hs k) by (apply elem_of_tracked; auto).
    destruct (c_attr L c1 !! k) as [[?|p]|] eqn:E; [by apply IHks| |by apply IHks].
    case_decide; [by apply IHks|].
    assert (He : edge L g1 o k p).
    { exists c1. split_and!; try done. destruct (is_base L (c_cls L c1)) eqn:Eb; [|done].
      exfalso. by apply (proj2 Hok1 Eb k p). }
    assert (Hdp : ∀ q, dep L g1 p q → dep L g1 o q) by (intros; by eapply dep_child).
    rewrite <- (IH p) by eauto.
    destruct (drval L n g1 p w) as [[j2|]|]; [|by apply IHks|done].
    rewrite <- (psliced_frame n g1 g2 o p) by eauto.
    destruct (psliced L n g1 o p) as [[d'|]|]; [by apply IHks|by apply IHks|done]. }
  by rewrite Hloop.
Qed.

End eval.
