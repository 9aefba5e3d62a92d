(** Proofs about the optimizer's flat vector. *)
From stdpp Require Import gmap strings list relations.
From Verif Require Import EngineModel EngineSpec EngineClear EngineEval EngineSet EngineInv EngineOps
  EngineRead EngineEffect EngineObs EngineHist EngineThms StackModel StackSpec.

Section thms.
Context (L : lib) (A : arrays L).
Notation graph := (gmap oid (core L)).
Notation heap := (gmap oid (node L)).
Notation node := (node L).
Notation cores := (cores L).
Notation state := (state L).
Notation st_h := (st_h L).
Notation flat := (flat L A).
Notation ravel := (ravel L A).
Implicit Types (g : graph) (h : heap) (st : state).

(* ------------------------------------------------------------------ *)
(** Reading touches only what the object read depends on. *)
Definition local g (o : oid) (st st' : state) : Prop :=
  cores (st_h st') = g ∧ ∀ x, ¬ dep L g o x → st_h st' !! x = st_h st !! x.

Lemma local_trans g o st1 st2 st3 : local g o st1 st2 → local g o st2 st3 → local g o st1 st3.
Proof. intros [_ H1] [H2 H3]. split; [done|]. intros x Hx. by rewrite H3, H1. Qed.
Lemma local_child g o p st st' : child L g o p → local g p st st' → local g o st st'.
Proof.
  intros Hc [H1 H2]. split; [done|]. intros x Hx. apply H2. intros Hp. apply Hx.
  by eapply rtc_l.
Qed.
Lemma local_alter g o st f : cores (st_h st) = g → (∀ n : node, n_core L (f n) = n_core L n) →
  local g o st (on_heap L (alter f o) st).
Proof.
  intros Hg Hf. split.
  - rewrite <- Hg. simpl. apply map_eq; intros x. rewrite !cores_lookup.
    destruct (decide (x = o)) as [->|Hx].
    + rewrite lookup_alter. destruct (st_h st !! o); simpl; [|done]. by rewrite Hf.
    + by rewrite lookup_alter_ne.
  - intros x Hx. simpl. rewrite lookup_alter_ne; [done|]. intros ->. apply Hx. constructor.
Qed.
Lemma local_fire g o st : cores (st_h st) = g → local g o st (fire L o st).
Proof.
  intros Hg. unfold fire. destruct (st_h st !! o); [|by split]. case_decide; [by split|].
  destruct (local_alter g o st (set_dirty L ∅) Hg (λ _, eq_refl)) as [H1 H2]. by split.
Qed.

Lemma run_local g o (Q : req → Prop) ask {R} (p : prog (Arr L) R) : ∀ st,
  (∀ q st, Q q → cores (st_h st) = g → local g o st (ask q st).1) →
  uses L Q p → cores (st_h st) = g → local g o st (run L ask st p).1.
Proof.
  induction p as [r| |q f IH]; intros st Hask Hu Hg; simpl; [by split..|].
  destruct Hu as [Hq Hu]. pose proof (Hask q st Hq Hg) as Hl. destruct (ask q st) as [st' [v|]]; [|done].
  eapply local_trans; [exact Hl|]. apply IH; auto. apply Hl.
Qed.

Lemma read_local g n : graph_ok L g → ∀ o w st, cores (st_h st) = g → local g o st (read L n o w st).1.
Proof.
  intros Hok. induction n as [|n IH]; intros o w st Hg; [by split|]. simpl.
  destruct (st_h st !! o) as [nd|] eqn:Ho; [|by split].
  assert (Hc : g !! o = Some (n_core L nd)) by (rewrite <- Hg; by apply cores_Some).
  destruct (Hok o _ Hc) as [Hcls Hbx].
  assert (Hask : ∀ q st, asks_tracked L (c_cls L (n_core L nd)) (c_dt L (n_core L nd)) q →
    cores (st_h st) = g → local g o st (resolve L (read L n) (raise L) o (n_core L nd) q st).1).
  { intros [|k|k] st' Hq Hg'; simpl; [by apply IH| |by apply IH].
    destruct (c_attr L (n_core L nd) !! k) as [[t|p]|] eqn:Ek; [by split| |by split].
    eapply local_child; [|by apply IH]. exists k, (n_core L nd). split_and!; try done.
    destruct (is_base L (c_cls L (n_core L nd))) eqn:Eb; [|done]. exfalso.
    destruct (co_base _ _ _ _ Hcls Eb) as (Hdt & _). simpl in Hq. rewrite Hdt in Hq.
    apply elem_of_list_singleton in Hq as ->. apply (Hbx eq_refl "x"%string p); [rewrite Hdt; by left|done]. }
  destruct w as [|k].
  - pose proof (local_fire g o st Hg) as Hf. destruct (n_r L nd); [done|].
    eapply local_trans; [exact Hf|].
    pose proof (run_local g o _ (resolve L (read L n) (raise L) o (n_core L nd))
      (compute_r L (c_cls L (n_core L nd)) (plain L (n_core L nd)))
      (emit L (EvCompute o) (fire L o st)) Hask (co_r _ _ _ _ Hcls _) (proj1 Hf)) as Hr.
    destruct (run _ _ _ _) as [st2 [v|]]; [|done].
    eapply local_trans; [exact Hr|]. apply local_alter; [apply Hr|done].
  - destruct (prop_deps L (c_cls L (n_core L nd)) !! k) as [ds|] eqn:Ed; [|by split].
    destruct (n_pc L nd !! k); [by split|].
    assert (Hu : uses L (asks_tracked L (c_cls L (n_core L nd)) (c_dt L (n_core L nd)))
      (compute_prop L (c_cls L (n_core L nd)) k (plain L (n_core L nd)))).
    { pose proof (co_prop _ _ _ _ Hcls k ds (plain L (n_core L nd)) Ed) as Hu. clear -Hu.
      induction (compute_prop _ _ _ _) as [| |q f IH]; [done..|]. destruct Hu as [[Hq _] Hu].
      split; [done|]. intros v. by apply IH. }
    pose proof (run_local g o _ (resolve L (read L n) (raise L) o (n_core L nd))
      _ (emit L (EvProp o k) st) Hask Hu Hg) as Hr.
    destruct (run _ _ _ _) as [st2 [v|]]; [|done].
    eapply local_trans; [exact Hr|]. apply local_alter; [apply Hr|done].
Qed.

(* ------------------------------------------------------------------ *)
(** Reading between two assignments with the tag [i] is harmless when nothing read
    carries that tag. *)
Lemma kept_tag i h h' : tag_inv L (Some i) h → kept L h h' →
  (∀ x (nx : node), h !! x = Some nx → n_itr L nx = Some i → h' !! x = Some nx) →
  tag_inv L (Some i) h'.
Proof.
  intros Ht Hk Hsame x nx' Hx' _ Hi.
  destruct (kept_Some_inv _ _ _ _ _ Hk Hx') as (nx & Hx & Hkn).
  rewrite (kn_itr _ _ _ Hkn) in Hi. rewrite (Hsame x nx Hx Hi) in Hx'. injection Hx' as <-.
  destruct (Ht x nx Hx ltac:(done) Hi) as (H1 & H2 & H3). split_and!; [done..|].
  intros p d np' He Hp'. rewrite (kept_cores _ _ _ Hk) in He.
  destruct (kept_Some_inv _ _ _ _ _ Hk Hp') as (np & Hp & Hkp).
  destruct (H3 p d np He Hp) as (H4 & H5 & H6).
  rewrite (Hsame p np Hp H4) in Hp'. by injection Hp' as <-.
Qed.

(** Objects with the tag are above the bases already written. *)
Definition tagged i (P : list oid) h : Prop :=
  ∀ x (nx : node), h !! x = Some nx → n_itr L nx = Some i → ∃ a, a ∈ P ∧ dep L (cores h) x a.

Record ready i (P : list oid) st : Prop := {
  rd_inv : inv L (st_h st);
  rd_tag : tag_inv L (Some i) (st_h st);
  rd_tagged : tagged i P (st_h st)
}.

Lemma ready_read i P st n o w : ready i P st →
  (∀ a, a ∈ P → ¬ dep L (cores (st_h st)) o a) →
  let st' := (read L n o w st).1 in
  ready i P st' ∧ kept L (st_h st) (st_h st').
Proof.
  intros [Hi Ht Hp] Hn st'.
  destruct (read_is_good L (cores (st_h st)) n o w st Hi eq_refl) as (Hi' & Hk & _).
  destruct (read_local (cores (st_h st)) n (si_ok _ _ (proj1 Hi)) o w st eq_refl) as [Hg Hl].
  fold st' in Hi', Hk, Hg, Hl. split; [|done]. split; [done| |].
  - apply (kept_tag i (st_h st)); [done..|]. intros x nx Hx Hix. rewrite Hl; [done|].
    intros Hd. destruct (Hp x nx Hx Hix) as (a & Ha & Hxa). apply (Hn a Ha). by eapply rtc_transitive.
  - intros x nx' Hx' Hix. destruct (kept_Some_inv _ _ _ _ _ Hk Hx') as (nx & Hx & Hkn).
    rewrite (kn_itr _ _ _ Hkn) in Hix. rewrite Hg. by apply (Hp x nx).
Qed.

(* ------------------------------------------------------------------ *)
(** Writing the x of a basic object. *)
Definition rewrite_x g (a : oid) c t := <[a := write L "x"%string (AVal t) c]> g.

Lemma rewrite_edge g a c t p d x : g !! a = Some c → is_base L (c_cls L c) = true →
  edge L (rewrite_x g a c t) p d x ↔ edge L g p d x.
Proof.
  intros Ha Hb. unfold edge, rewrite_x. destruct (decide (p = a)) as [->|Hne].
  - rewrite lookup_insert. split.
    + intros (c' & [= <-] & Hb' & _). simpl in Hb'. congruence.
    + intros (c' & Hc' & Hb' & _). rewrite Ha in Hc'. injection Hc' as <-. congruence.
  - by rewrite lookup_insert_ne.
Qed.
Lemma rewrite_dep g a c t x y : g !! a = Some c → is_base L (c_cls L c) = true →
  dep L (rewrite_x g a c t) x y ↔ dep L g x y.
Proof.
  intros Ha Hb. unfold dep. split; apply rtc_subrel; intros u v (d & He); exists d;
    by apply (rewrite_edge g a c t).
Qed.

Lemma write_x i P st a c t : lib_ok L → ready i P st → cores (st_h st) !! a = Some c →
  is_base L (c_cls L c) = true →
  let st' := on_heap L (λ h, set_attr L (Some i) h a "x"%string (AVal t)) st in
  ready i (a :: P) st' ∧ cores (st_h st') = rewrite_x (cores (st_h st)) a c t ∧
  (∀ used, i ∈ used → tags_in L used (st_h st) → tags_in L used (st_h st')).
Proof.
  intros Hlib [[Hs Hc] Ht Hp] Ha Hb st'.
  set (h := st_h st) in *. set (o' := fresh (dom (cores h))).
  assert (Hfr : o' ∉ dom (cores h)) by apply is_fresh.
  assert (Hok : assign_ok L (cores h) a "x"%string (AVal t) o').
  { exists c. split_and!; [done|by eauto|done|done]. }
  apply cores_Some_inv in Ha as (na & Hna & Hca). subst c.
  assert (E : assign L (Some i) h a "x"%string (AVal t) o' = st_h st').
  { unfold assign. rewrite Hna, Hb. done. }
  destruct (assign_inv_tag L (Some i) h a "x"%string (AVal t) o' nobody Hlib Hs Hc Ht Hok) as (H1 & H2 & H3 & _).
  destruct (assign_eff L (Some i) h a "x"%string (AVal t) o' Hlib Hs Hok) as [He Hnew].
  assert (Hcs : cores (st_h st') = rewrite_x (cores h) a (n_core L na) t).
  { simpl. rewrite set_attr_cores. unfold rewrite_x. fold h. apply map_eq; intros x.
    destruct (decide (x = a)) as [->|].
    - rewrite lookup_alter, lookup_insert. by rewrite (cores_Some _ _ _ _ Hna).
    - by rewrite lookup_alter_ne, lookup_insert_ne. }
  rewrite E in *. split_and!.
  - split; [by split|done|]. intros x nx' Hx' Hix. rewrite Hcs.
    destruct (h !! x) as [nx|] eqn:Hx.
    + destruct (He x nx Hx) as (n2 & Hn2 & Hne). rewrite Hx' in Hn2. injection Hn2 as <-.
      destruct (ne_itr _ _ _ _ _ _ _ _ _ Hne) as [E'|[_ E']].
      * rewrite E' in Hix. destruct (Hp x nx Hx Hix) as (b & Hbp & Hd). exists b.
        split; [by right|]. apply rewrite_dep; [by apply cores_Some|done|done].
      * exists a. split; [by left|]. apply rewrite_dep; [by apply cores_Some|done|done].
    + exfalso. pose proof (nn_itr _ _ (Hnew x nx' Hx Hx')). congruence.
  - done.
  - intros used Hu Htg. rewrite <- E. apply assign_tags; try done. by intros j [= <-].
Qed.

(* ------------------------------------------------------------------ *)
(** What a free variable shows. *)
Context (HA : arrays_ok L A).

Definition base_x g (a : oid) c t : Prop :=
  g !! a = Some c ∧ is_base L (c_cls L c) = true ∧ c_attr L c !! "x"%string = Some (AVal t).

Lemma shows_base_x g d f a ix : shows L A g d f a ix → ∃ c t, base_x g a c t.
Proof. induction 1 as [a c t|]; [exists c, t; done|done]. Qed.

Lemma shows_lt g d f a ix c t : shows L A g d f a ix → base_x g a c t →
  Forall (λ j, j < length (flat t)) ix.
Proof.
  intros Hsh Hb. induction Hsh as [a c' t' Hg _ Hx|d f a p c' s ix ix' _ _ _ _ _ _ IH Hall].
  - destruct Hb as (Hg' & _ & Hx'). rewrite Hg in Hg'. injection Hg' as <-. rewrite Hx in Hx'.
    injection Hx' as <-. apply list.Forall_forall. intros j Hj. apply elem_of_seq in Hj. lia.
  - specialize (IH Hb). rewrite list.Forall_forall in *. intros e He.
    apply elem_of_list_lookup in He as [q Hq].
    destruct (Forall2_lookup_r _ _ _ _ _ Hall Hq) as (j & _ & Hj).
    apply IH. by eapply elem_of_list_lookup_2.
Qed.

Lemma shows_eval g d f a ix c t : shows L A g d f a ix → base_x g a c t →
  ∀ n, d < n → ∃ v, eval L n g f QR = Some v ∧ Forall2 (λ j e, flat t !! j = Some e) ix (ravel v).
Proof.
  intros Hsh Hb. induction Hsh as [a c' t' Hg Hba Hx|d f a p c' s ix ix' Hg Hsel Hdt Ha Hidx _ IH Hall].
  - intros [|n] Hn; [lia|]. destruct Hb as (Hg' & _ & Hx'). rewrite Hg in Hg'. injection Hg' as <-.
    rewrite Hx in Hx'. injection Hx' as <-. simpl. rewrite Hg.
    destruct (ao_base _ _ HA (c_cls L c') (plain L c') t' Hba) as (v & Hv & Hr); [by apply plain_lookup|].
    exists v. split; [apply Hv|]. rewrite Hr. clear. apply Forall2_same_length_lookup_2.
    { by rewrite seq_length. }
    intros i x y Hi Hy. apply lookup_seq in Hi as [-> _]. done.
  - intros [|n] Hn; [lia|]. destruct (IH Hb n ltac:(lia)) as (u & Hu & Hfu). simpl. rewrite Hg.
    assert (Hlen : length (ravel u) = length ix) by (symmetry; by eapply Forall2_length).
    assert (Hlt : Forall (λ j, j < length (ravel u)) (idx L A s)).
    { apply list.Forall_forall. intros j Hj. apply elem_of_list_lookup in Hj as [q Hq].
      destruct (Forall2_lookup_l _ _ _ _ _ Hall Hq) as (e & _ & He).
      rewrite Hlen. by eapply lookup_lt_Some. }
    destruct (ao_sel_r _ _ HA (c_cls L c') (plain L c') s u
      (answer L (eval L n g) f c') Hsel) as (v & Hv & Hfv); [by apply plain_lookup| |done|].
    { simpl. by rewrite Ha. }
    exists v. split; [done|]. apply Forall2_same_length_lookup_2.
    { rewrite <- (Forall2_length _ _ _ Hall). by eapply Forall2_length. }
    intros q j e Hj He.
    destruct (Forall2_lookup_r _ _ _ _ _ Hall Hj) as (m & Hm & Hmj).
    destruct (Forall2_lookup_l _ _ _ _ _ Hfv Hm) as (e' & He' & Hue).
    rewrite He in He'. injection He' as <-.
    destruct (Forall2_lookup_l _ _ _ _ _ Hfu Hmj) as (e' & He' & Hte). congruence.
Qed.

Lemma shows_dep g d f a ix : shows L A g d f a ix → ∀ b c, dep L g f b → g !! b = Some c →
  is_base L (c_cls L c) = true → b = a.
Proof.
  induction 1 as [a c' t' Hg Hba Hx|d f a p c' s ix ix' Hg Hsel Hdt Ha Hidx Hs IH Hall]; intros b c Hd Hgb Hb.
  - unfold dep in Hd. inversion Hd as [|? y ? (k & c2 & Hc2 & Hb2 & _)]; subst; [done|].
    rewrite Hg in Hc2. injection Hc2 as <-. congruence.
  - unfold dep in Hd. inversion Hd as [|? y ? (k & c2 & Hc2 & Hb2 & Hk & Hky) Hr]; subst.
    + rewrite Hg in Hgb. injection Hgb as <-. rewrite (ao_sel _ _ HA _ Hsel) in Hb. done.
    + rewrite Hg in Hc2. injection Hc2 as <-. rewrite Hdt in Hk. apply elem_of_list_singleton in Hk as ->.
      rewrite Ha in Hky. injection Hky as ->. by apply (IH b c).
Qed.

Lemma shows_rewrite g d f b ix a c t t' : shows L A g d f b ix → base_x g a c t →
  length (flat t') = length (flat t) → shows L A (rewrite_x g a c t') d f b ix.
Proof.
  intros Hsh (Ha & Hb & Hx) Hlen. unfold rewrite_x.
  induction Hsh as [a' c' t2 Hg Hba Hx2|d f a' p c' s ix ix' Hg Hsel Hdt Hpa Hidx Hs IH Hall].
  - destruct (decide (a' = a)) as [->|Hne].
    + rewrite Ha in Hg. injection Hg as <-. rewrite Hx in Hx2. injection Hx2 as <-.
      rewrite <- Hlen. eapply shows_base; [apply lookup_insert|done|]. simpl. apply lookup_insert.
    + eapply shows_base; [by rewrite lookup_insert_ne|done|done].
  - eapply shows_sel; try done. rewrite lookup_insert_ne; [done|]. intros ->. rewrite Ha in Hg.
    injection Hg as <-. rewrite (ao_sel _ _ HA _ Hsel) in Hb. done.
Qed.

(* ------------------------------------------------------------------ *)
(** The chase through nested Selects finds what the specification says. *)
Lemma take_at_Forall2 {X} (l : list X) ix vs : take_at l ix = Some vs ↔
  Forall2 (λ j e, l !! j = Some e) ix vs.
Proof. unfold take_at. by rewrite mapM_Some. Qed.

Lemma seq_picks m js es : Forall2 (λ j e, seq 0 m !! j = Some e) js es → js = es.
Proof.
  induction 1 as [|j e js es Hj _ IH]; [done|]. apply lookup_seq in Hj as [-> _]. by rewrite IH.
Qed.

Lemma chase_ok h d f a ix : shows L A (cores h) d f a ix → ∀ n acc, d < n →
  ∃ sels, chase L A n h f acc = Some (sels ++ acc, a) ∧
    (d = 0 → sels = [] ∧ a = f) ∧ (d ≠ 0 → sels ≠ [] ∧ compose sels = Some ix).
Proof.
  induction 1 as [a c' t' Hg Hba Hx|d f a p c' s ix ix' Hg Hsel Hdt Ha Hidx Hs IH Hall];
    intros [|n] acc Hn; try lia; simpl; apply cores_Some_inv in Hg as (nd & -> & <-).
  - assert (is_sel L A (c_cls L (n_core L nd)) = false) as ->.
    { destruct (is_sel _ _ _) eqn:E; [|done]. rewrite (ao_sel _ _ HA _ E) in Hba. done. }
    exists []. done.
  - rewrite Hsel, Hidx, Ha. destruct (IH n (idx L A s :: acc) ltac:(lia)) as (sels & Hc & H0 & H1).
    exists (sels ++ [idx L A s]). rewrite <- app_assoc. split_and!; [done|done|]. intros _.
    split; [by destruct sels|]. destruct (decide (d = 0)) as [->|Hd].
    + destruct (H0 eq_refl) as [-> ->]. simpl. f_equal. clear -Hs Hall.
      inversion Hs as [? c t Hg Hb Hx|]; subst. by eapply seq_picks.
    + destruct (H1 Hd) as [Hne Hcm]. destruct sels as [|s0 sels]; [done|]. simpl in *.
      rewrite foldl_app. rewrite Hcm. simpl. by apply take_at_Forall2.
Qed.

(* ------------------------------------------------------------------ *)
(** Writing at distinct positions. *)
Lemma foldl_insert_length {X} (ps : list (nat * X)) : ∀ l,
  length (foldl (λ l' (p : nat * X), <[p.1 := p.2]> l') l ps) = length l.
Proof. induction ps as [|p ps IH]; intros l; simpl; [done|]. by rewrite IH, insert_length. Qed.

Lemma foldl_insert_other {X} (ps : list (nat * X)) (j : nat) : ∀ l : list X, j ∉ ps.*1 →
  foldl (λ l' (p : nat * X), <[p.1 := p.2]> l') l ps !! j = l !! j.
Proof.
  induction ps as [|p ps IH]; intros l Hj; simpl; [done|].
  rewrite fmap_cons, not_elem_of_cons in Hj. destruct Hj. rewrite IH by done.
  by rewrite list_lookup_insert_ne.
Qed.

Lemma foldl_insert_at {X} (ps : list (nat * X)) : ∀ (l : list X) q j e, NoDup ps.*1 → ps !! q = Some (j, e) →
  j < length l → foldl (λ l' (p : nat * X), <[p.1 := p.2]> l') l ps !! j = Some e.
Proof.
  induction ps as [|p ps IH]; intros l q j e Hnd Hq Hj; [done|]. rewrite fmap_cons in Hnd.
  apply NoDup_cons in Hnd as [Hn Hnd]. destruct q as [|q]; simpl in *.
  - injection Hq as ->. simpl in *. rewrite foldl_insert_other by done. by apply list_lookup_insert.
  - eapply IH; [done|done|]. by rewrite insert_length.
Qed.

Lemma put_at_ok {X} (l : list X) ix vs : length ix = length vs → Forall (λ j, j < length l) ix → NoDup ix →
  ∃ l', put_at l ix vs = Some l' ∧ length l' = length l ∧
    (∀ q j, ix !! q = Some j → l' !! j = vs !! q) ∧ (∀ j, j ∉ ix → l' !! j = l !! j).
Proof.
  intros Hlen Hall Hnd. unfold put_at. rewrite decide_True by done. eexists. split; [done|].
  assert (Hfst : (zip ix vs).*1 = ix) by (apply fst_zip; lia). split_and!.
  - apply foldl_insert_length.
  - intros q j Hq. destruct (lookup_lt_is_Some_2 vs q) as [e He].
    { rewrite <- Hlen. by eapply lookup_lt_Some. }
    rewrite He. eapply (foldl_insert_at _ _ q); [by rewrite Hfst| |].
    + rewrite lookup_zip_with, Hq, He. done.
    + rewrite list.Forall_forall in Hall. apply Hall. by eapply elem_of_list_lookup_2.
  - intros j Hj. apply foldl_insert_other. by rewrite Hfst.
Qed.

Lemma take_at_seq {X} (vec : list X) pos m : pos + m ≤ length vec →
  ∃ vs, take_at vec (seq pos m) = Some vs ∧ length vs = m ∧ (∀ q, q < m → vs !! q = vec !! (pos + q)).
Proof.
  intros Hle. exists (take m (drop pos vec)). split_and!.
  - apply take_at_Forall2. apply Forall2_same_length_lookup_2.
    { rewrite seq_length, take_length, drop_length. lia. }
    intros q j e Hj He. apply lookup_seq in Hj as [-> Hq]. rewrite lookup_take, lookup_drop in He by done. done.
  - rewrite take_length, drop_length. lia.
  - intros q Hq. by rewrite lookup_take, lookup_drop.
Qed.

(* ------------------------------------------------------------------ *)
(** One turn of the loop. *)
Lemma sync1_ok i P st n X it pos vec : lib_ok L → ready i P st →
  let g := cores (st_h st) in
  shows L A g (i_depth it) (i_var it) (i_base it) (i_ix it) → NoDup (i_ix it) →
  i_base it ∉ P → X ∉ P → (∀ a, a ∈ P → ∃ c t, base_x g a c t) →
  holds L A g X vec → pos + length (i_ix it) ≤ length vec → i_depth it < n →
  ∃ st' c t t', sync1 L A n i X (i_var it) pos st = (st', Some (pos + length (i_ix it))) ∧
    ready i (i_base it :: P) st' ∧
    (∀ used, i ∈ used → tags_in L used (st_h st) → tags_in L used (st_h st')) ∧
    cores (st_h st') = rewrite_x g (i_base it) c t' ∧ base_x g (i_base it) c t ∧
    length (flat t') = length (flat t) ∧
    (∀ q j, i_ix it !! q = Some j → flat t' !! j = vec !! (pos + q)) ∧
    (∀ j, j ∉ i_ix it → flat t' !! j = flat t !! j).
Proof.
  intros Hlib Hr g Hsh Hnd HaP HXP HP (cX & tX & HgX & HbX & HxX & HvX) Hle Hn.
  destruct it as [f d a ix]; simpl in *.
  destruct (shows_base_x g d f a ix Hsh) as (c & t & Hbx).
  destruct (shows_eval g d f a ix c t Hsh Hbx n Hn) as (v & Hv & Hfv).
  assert (Hlenv : length (ravel v) = length ix) by (symmetry; by eapply Forall2_length).
  unfold sync1.
  assert (Hnf : ∀ b, b ∈ P → ¬ dep L g f b).
  { intros b Hb Hd. destruct (HP b Hb) as (cb & tb & Hgb & Hbb & _).
    rewrite (shows_dep g d f a ix Hsh b cb Hd Hgb Hbb) in Hb. done. }
  destruct (ready_read i P st n f QR Hr Hnf) as [Hr1 Hk1].
  pose proof (proj2 (inv_read L st n f QR (rd_inv _ _ _ Hr)) v Hv) as Hrd.
  destruct (read L n f QR st) as [st1 ov]. simpl in *. subst ov. 
  pose proof (kept_cores _ _ _ Hk1) as Hg1. fold g in Hg1.
  assert (Hsh1 : shows L A (cores (st_h st1)) d f a ix) by (by rewrite Hg1).
  destruct (chase_ok (st_h st1) d f a ix Hsh1 n [] Hn) as (sels & Hch & H0 & H1).
  rewrite app_nil_r in Hch. rewrite Hch.
  destruct Hbx as (Hga & Hba & Hxa).
  assert (Hga1 : cores (st_h st1) !! a = Some c) by (by rewrite Hg1).
  pose proof Hga1 as Hga2. apply cores_Some_inv in Hga2 as (na & Hna & Hca). rewrite Hna. simpl. rewrite Hca, Hba, Hxa.
  assert (HevX : eval L n (cores (st_h st1)) X QR = Some (default v (eval L n g X QR)) ∧
     ∃ u, eval L n g X QR = Some u ∧ ravel u = vec).
  { destruct n as [|n]; [lia|]. simpl. rewrite Hg1, HgX.
    destruct (ao_base _ _ HA (c_cls L cX) (plain L cX) tX HbX) as (u & Hu & Hru); [by apply plain_lookup|].
    rewrite !Hu. split; [done|]. exists u. split; [done|]. by rewrite Hru. }
  destruct HevX as [HevX (u & Hu & Hru)]. rewrite Hu in HevX. simpl in HevX.
  assert (HnX : ∀ b, b ∈ P → ¬ dep L (cores (st_h st1)) X b).
  { intros b Hb Hd. unfold dep in Hd. inversion Hd as [|? y ? (k & c2 & Hc2 & Hb2 & _)]; subst; [done|].
    rewrite Hg1, HgX in Hc2. injection Hc2 as <-. congruence. }
  destruct (ready_read i P st1 n X QR Hr1 HnX) as [Hr2 Hk2].
  pose proof (proj2 (inv_read L st1 n X QR (rd_inv _ _ _ Hr1)) u HevX) as HrX.
  destruct (read L n X QR st1) as [st2 ou]. simpl in *. subst ou. rewrite Hru, Hlenv.
  pose proof (kept_cores _ _ _ Hk2) as Hg2. rewrite Hg1 in Hg2.
  destruct (take_at_seq vec pos (length ix) Hle) as (vs & -> & Hlvs & Hvs).
  assert (Hgo : ∀ l, length l = length (flat t) → 
     (∀ q j, ix !! q = Some j → l !! j = vs !! q) → (∀ j, j ∉ ix → l !! j = flat t !! j) →
     let st' := on_heap L (λ h, set_attr L (Some i) h a "x"%string (AVal (refill L A t l))) st2 in
     ready i (a :: P) st' ∧
     (∀ used, i ∈ used → tags_in L used (st_h st) → tags_in L used (st_h st')) ∧
     cores (st_h st') = rewrite_x g a c (refill L A t l) ∧
     length (flat (refill L A t l)) = length (flat t) ∧
     (∀ q j, ix !! q = Some j → flat (refill L A t l) !! j = vec !! (pos + q)) ∧
     (∀ j, j ∉ ix → flat (refill L A t l) !! j = flat t !! j)).
  { intros l Hl Hl1 Hl2 st'.
    destruct (write_x i P st2 a c (refill L A t l) Hlib Hr2) as (W1 & W2 & W3); [by rewrite Hg2|done|].
    rewrite Hg2 in W2. rewrite (ao_refill _ _ HA) by done. split_and!; try done.
    - intros used Hu' Htg. apply W3; [done|]. eapply kept_tags; [done|]. by eapply kept_tags.
    - intros q j Hq. rewrite (Hl1 q j Hq). apply Hvs. by eapply lookup_lt_Some. }
  destruct (decide (d = 0)) as [->|Hd].
  - destruct (H0 eq_refl) as [-> Eaf]. assert (Eix : ix = seq 0 (length (flat t))).
    { clear -Hsh Hga Hxa. inversion Hsh as [? c' t' Hg' _ Hx' E1 E2 E3|].
      assert (c' = c) as -> by congruence. assert (t' = t) as -> by congruence. done. }
    subst f ix.
    rewrite seq_length in *.
    destruct (Hgo vs) as (G1 & G2 & G3 & G4 & G5 & G6); [done| | |].
    + intros q j Hq. by apply lookup_seq in Hq as [-> _].
    + intros j Hj. rewrite !lookup_ge_None_2; [done|..]; [|rewrite Hlvs];
        (destruct (decide (j < length (flat t))); [|lia]); exfalso; apply Hj, elem_of_seq; lia.
    + eexists _, c, t, _. split_and!; [reflexivity|try done..].
  - destruct (H1 Hd) as [Hne Hcm].
    destruct (put_at_ok (flat t) ix vs) as (l & Hput & Hl & Hl1 & Hl2); [done| |done|].
    { eapply shows_lt; [done|]. by split. }
    destruct (Hgo l Hl Hl1 Hl2) as (G1 & G2 & G3 & G4 & G5 & G6).
    destruct sels as [|s0 sels]; [done|]. rewrite Hcm. simpl. rewrite Hput.
    eexists _, c, t, _. split_and!; [reflexivity|try done..].
Qed.

(* ------------------------------------------------------------------ *)
(** The whole loop. *)
Lemma total_cons it its : total (it :: its) = length (i_ix it) + total its.
Proof. done. Qed.

Lemma sync_ok i X vec n its : lib_ok L → ∀ P st pos, ready i P st →
  let g := cores (st_h st) in
  items_ok L A g X its → X ∉ P → (∀ a, a ∈ P → ∃ c t, base_x g a c t) →
  (∀ a, a ∈ P → a ∉ (i_base <$> its)) →
  holds L A g X vec → pos + total its ≤ length vec → Forall (λ it, i_depth it < n) its →
  ∃ st', sync L A n i X (i_var <$> its) pos st = (st', Some (pos + total its)) ∧
    inv L (st_h st') ∧
    (∀ used, i ∈ used → tags_in L used (st_h st) → tags_in L used (st_h st')) ∧
    spread_items L A g (cores (st_h st')) vec pos its ∧
    (∀ x, x ∉ (i_base <$> its) → cores (st_h st') !! x = g !! x) ∧
    (∀ d f b ix, shows L A g d f b ix → shows L A (cores (st_h st')) d f b ix).
Proof.
  intros Hlib. induction its as [|it its IH]; intros P st pos Hr g Hio HXP HP Hdis HX Hle Hn.
  { exists st. simpl. unfold total. simpl. rewrite Nat.add_0_r. split_and!; try done. apply Hr. }
  destruct Hio as [Hs Hnd Hb Hx]. apply Forall_cons in Hs as [Hsh Hs]. apply Forall_cons in Hnd as [Hnd1 Hnd].
  rewrite fmap_cons in Hb, Hx. apply NoDup_cons in Hb as [Hb1 Hb]. apply not_elem_of_cons in Hx as [Hx1 Hx].
  apply Forall_cons in Hn as [Hn1 Hn]. rewrite total_cons in Hle |- *.
  change (sync L A n i X (i_var <$> it :: its) pos st) with
    (match sync1 L A n i X (i_var it) pos st with
     | (st1, Some pos') => sync L A n i X (i_var <$> its) pos' st1
     | (st1, None) => (st1, None)
     end).
  assert (HaP : i_base it ∉ P).
  { intros Ha. apply (Hdis _ Ha). rewrite fmap_cons. by left. }
  destruct (sync1_ok i P st n X it pos vec Hlib Hr Hsh Hnd1 HaP HXP HP HX ltac:(lia) Hn1)
    as (st1 & c & t & t' & E & Hr1 & Htg1 & Hg1 & Hbx & Hlen & Hin & Hout).
  rewrite E. fold g in Hg1, Hbx. set (a := i_base it) in *.
  assert (Hne : ∀ x, x ≠ a → cores (st_h st1) !! x = g !! x).
  { intros x Hxa. rewrite Hg1. unfold rewrite_x. by rewrite lookup_insert_ne. }
  assert (Hrw : ∀ d f b ix, shows L A g d f b ix → shows L A (cores (st_h st1)) d f b ix).
  { intros d f b ix Hsh'. rewrite Hg1. by eapply shows_rewrite. }
  destruct (IH (a :: P) st1 (pos + length (i_ix it)) Hr1) as (st' & E' & Hi' & Htg' & Hsp & Hot & Hsh').
  - split; try done. eapply Forall_impl; [exact Hs|]. intros it' Hit'. by apply Hrw.
  - by apply not_elem_of_cons.
  - intros b Hb'. apply elem_of_cons in Hb' as [->|Hb'].
    + exists (write L "x"%string (AVal t') c), t'. rewrite Hg1. unfold base_x, rewrite_x. rewrite lookup_insert.
      split; [done|]. destruct Hbx as (_ & ? & _). split; [done|]. simpl. apply lookup_insert.
    + destruct (HP b Hb') as (cb & tb & Hcb). exists cb, tb. unfold base_x. rewrite Hne; [done|]. intros ->. done.
  - intros b Hb'. apply elem_of_cons in Hb' as [->|Hb']; [done|]. intros Hin'. apply (Hdis b Hb').
    rewrite fmap_cons. by right.
  - destruct HX as (cX & tX & HX). exists cX, tX. by rewrite Hne.
  - lia.
  - done.
  - exists st'. split_and!.
    + rewrite E'. do 2 f_equal. lia.
    + done.
    + auto.
    + simpl. split.
      * exists c, t, t'. fold a. destruct Hbx as (Hga & Hba & Hxa). split_and!; try done.
        rewrite Hot by done. rewrite Hg1. apply lookup_insert.
      * assert (Hall : ∀ its' pos', (∀ it', it' ∈ its' → i_base it' ≠ a) →
          spread_items L A (cores (st_h st1)) (cores (st_h st')) vec pos' its' →
          spread_items L A g (cores (st_h st')) vec pos' its').
        { induction its' as [|it' its' IH']; intros pos' Hd; [done|]. simpl. intros [Hs1 Hs2]. split.
          - destruct Hs1 as (c' & t2 & t2' & Hc' & Hrest). exists c', t2, t2'. split; [|done].
            rewrite <- Hc'. symmetry. apply Hne. apply Hd. by left.
          - apply IH'; [|done]. intros it2 Hit2. apply Hd. by right. }
        apply Hall; [|done]. intros it' Hit' Heq. apply Hb1. rewrite <- Heq. by apply elem_of_list_fmap_1.
    + intros x Hxn. rewrite fmap_cons in Hxn. apply not_elem_of_cons in Hxn as [Hxa Hxn].
      rewrite Hot by done. by apply Hne.
    + auto.
Qed.

(** Spread elements are shown by the variables. *)
Lemma spread_segments g g' vec n its : ∀ pos, spread_items L A g g' vec pos its →
  pos + total its ≤ length vec → 
  Forall (λ it, shows L A g' (i_depth it) (i_var it) (i_base it) (i_ix it)) its →
  Forall (λ it, is_base L (c_cls L (default n (g !! i_base it))) = true) its →
  segments L A (λ o v, denotes L g' o QR v) vec pos its.
Proof.
  induction its as [|it its IH]; intros pos Hsp Hle Hsh Hbs; [done|]. simpl in *.
  destruct Hsp as [(c & t & t' & Hc & Ht & Hc' & Hlen & Hin & _) Hsp].
  apply Forall_cons in Hsh as [Hsh Hshs]. apply Forall_cons in Hbs as [Hb Hbs].
  rewrite total_cons in Hle.
  split; [|apply IH; [done|lia|done|done]].
  rewrite Hc in Hb. simpl in Hb.
  destruct (shows_eval g' _ _ _ _ (write L "x"%string (AVal t') c) t' Hsh) with (n := S (i_depth it)) as (v & Hv & Hf).
  { split; [done|]. split; [done|]. simpl. apply lookup_insert. }
  { lia. }
  exists v. split; [by exists (S (i_depth it))|].
  apply list_eq. intros q. destruct (decide (q < length (i_ix it))) as [Hq|Hq].
  - rewrite lookup_take, lookup_drop by done. destruct (lookup_lt_is_Some_2 _ _ Hq) as [j Hj].
    destruct (Forall2_lookup_l _ _ _ _ _ Hf Hj) as (e & He & Hte). rewrite He, <- Hte. by apply Hin.
  - rewrite !lookup_ge_None_2; [done| |].
    + rewrite take_length, drop_length. lia.
    + rewrite <- (Forall2_length _ _ _ Hf). lia.
Qed.

Lemma segments_iff (R1 R2 : oid → Arr L → Prop) vec its : (∀ o v, R1 o v ↔ R2 o v) → ∀ pos,
  segments L A R1 vec pos its → segments L A R2 vec pos its.
Proof.
  intros HR. induction its as [|it its IH]; intros pos; [done|]. simpl. intros [(v & Hv & E) H].
  split; [|by apply IH]. exists v. split; [by apply HR|done].
Qed.

Notation final l := (exec L l (init L)).

(** C41 *)
Lemma stacked_step used st n i s X its vec which : lib_ok L → ok_state L used st →
  sync_ready L A used (cores (st_h st)) n i X its vec which →
  ∃ st', stacked_changed L A n i s X (i_var <$> its) which st = (st', Some (total its)) ∧
    ok_state L ({[i]} ∪ used) st' ∧
    spread L A (cores (st_h st)) (cores (st_h st')) vec its ∧
    segments L A (λ o v, reads L st' o QR v) vec 0 its.
Proof.
  intros Hlib [Hinv Htags H9'] [Hi H9 Hio HX Hle Hn Hw].
  unfold stacked_changed. rewrite decide_True by done.
  assert (Hr : ready i [] st).
  { split; [done|by eapply tags_tag_inv|]. intros x nx Hx Hix.
    by destruct (tags_fresh _ _ _ _ Htags Hi x nx Hx). }
  destruct (sync_ok i X vec n its Hlib [] st 0 Hr Hio) as (st1 & E & Hi1 & Htg & Hsp & Hot & Hsh); try done.
  { by apply not_elem_of_nil. }
  { intros a Ha. by apply elem_of_nil in Ha. }
  { intros a Ha. by apply elem_of_nil in Ha. }
  rewrite E. simpl. set (g' := cores (st_h st1)) in *. exists (fire L s st1).
  assert (Hos : ok_state L ({[i]} ∪ used) (fire L s st1)).
  { split; [by apply fire_inv| |set_solver]. eapply kept_tags; [apply fire_kept|].
    apply Htg; [set_solver|]. eapply tags_in_mono; [|exact Htags]. set_solver. }
  assert (Hg' : cores (st_h (fire L s st1)) = g') by (apply kept_cores, fire_kept).
  rewrite Hg'. split_and!; [done|done|by split|].
  eapply segments_iff; [intros o v; symmetry; apply inv_reads, Hos|]. rewrite Hg'.
  destruct HX as (cX & _ & HgX & _).
  apply (spread_segments (cores (st_h st)) g' vec cX its 0 Hsp Hle).
  - eapply Forall_impl; [apply (io_shows _ _ _ _ _ Hio)|]. intros it Hit. by apply Hsh.
  - eapply Forall_impl; [apply (io_shows _ _ _ _ _ Hio)|]. intros it Hit.
    destruct (shows_base_x _ _ _ _ _ Hit) as (c & t & Hga & Hba & _). by rewrite Hga.
Qed.

Lemma reached_ok used st : lib_ok L → reached L A used st → ok_state L used st.
Proof.
  intros Hlib. induction 1 as [|used st a Hr IH Ha|used st n i s X its vec which st' p Hr IH Hs E].
  - apply ok_init.
  - by apply step_cores.
  - destruct (stacked_step used st n i s X its vec which Hlib IH Hs) as (st2 & E2 & Hos & _).
    rewrite E in E2. by injection E2 as -> _.
Qed.

Lemma stacked_sync used st n i s X its vec which : lib_ok L → reached L A used st →
  sync_ready L A used (cores (st_h st)) n i X its vec which →
  ∃ st', stacked_changed L A n i s X (i_var <$> its) which st = (st', Some (total its)) ∧
    spread L A (cores (st_h st)) (cores (st_h st')) vec its ∧
    segments L A (λ o v, reads L st' o QR v) vec 0 its.
Proof.
  intros Hlib Hr Hs. apply (reached_ok _ _ Hlib) in Hr.
  destruct (stacked_step used st n i s X its vec which Hlib Hr Hs) as (st' & ? & _ & ? & ?). eauto.
Qed.

Lemma reached_reads used st : lib_ok L → reached L A used st →
  (∀ o w v, reads L st o w v ↔ denotes L (cores (st_h st)) o w v) ∧
  (∀ o w j, not_view L (cores (st_h st)) w → reads_dr L st o w j ↔ dr_denotes L (cores (st_h st)) o w j).
Proof.
  intros Hlib Hr. apply (reached_ok _ _ Hlib) in Hr as [Hi _ _].
  split; intros; [by apply inv_reads|by apply inv_reads_dr].
Qed.

Lemma exec_reached l : lib_ok L → valid L l → reached L A (tags_of L l ∅) (final l).
Proof.
  intros Hlib. unfold valid.
  assert (H : ∀ l used st, reached L A used st → valid_from L used l (cores (st_h st)) →
    reached L A (tags_of L l used) (exec L l st)).
  { clear l. induction l as [|a l IH]; intros used st Hr Hv; [done|]. simpl in *.
    destruct Hv as [Ha Hv]. apply IH; [by apply reached_op|].
    by rewrite (proj2 (step_cores L used a st Hlib (reached_ok _ _ Hlib Hr) Ha)). }
  intros Hv. apply H; [constructor|]. assert (cores (st_h (init L)) = ∅) as -> by apply fmap_empty. done.
Qed.

(** Duplicates. *)
Lemma remove_dups_length (fs : list oid) : length (remove_dups fs) ≤ length fs ∧
  (length (remove_dups fs) = length fs ↔ NoDup fs).
Proof.
  induction fs as [|f fs [IH1 IH2]]; [split; [done|]; split; [constructor|done]|]. simpl.
  rewrite NoDup_cons. destruct (decide_rel _ f fs) as [Hin|Hin]; simpl.
  - split; [lia|]. split; [lia|]. intros [? _]. done.
  - split; [lia|]. split; [intros [= ?]; split; [done|by apply IH2]|intros [_ ?]; f_equal; by apply IH2].
Qed.

Lemma ravel_all_ok n fs : ∀ st, inv L (st_h st) →
  kept L (st_h st) (st_h (ravel_all L A n fs st).1) ∧ inv L (st_h (ravel_all L A n fs st).1) ∧
  ∀ vec, (ravel_all L A n fs st).2 = Some vec → 
    ∃ vs, Forall2 (λ f v, denotes L (cores (st_h st)) f QR v) fs vs ∧ vec = concat (ravel <$> vs).
Proof.
  induction fs as [|f fs IH]; intros st Hi; simpl.
  { split_and!; [apply kept_refl|done|]. intros vec [= <-]. exists []. by split. }
  destruct (read_is_good L (cores (st_h st)) n f QR st Hi eq_refl) as (Hi1 & Hk1 & HV).
  destruct (read L n f QR st) as [st1 [v|]]; simpl in *; [|by split_and!].
  destruct (IH st1 Hi1) as (Hk2 & Hi2 & H). destruct (ravel_all L A n fs st1) as [st2 [vs|]]; simpl in *.
  - split_and!; [by eapply kept_trans|done|]. intros vec [= <-]. destruct (H vs eq_refl) as (ws & Hws & ->).
    exists (v :: ws). split; [|done]. constructor.
    + by apply (HV I).
    + by rewrite (kept_cores _ _ _ Hk1) in Hws.
  - split_and!; [by eapply kept_trans|done|done].
Qed.

Lemma start_ok l n fs : lib_ok L → valid L l →
  (¬ NoDup fs → (start_vector L A n fs (final l)).2 = None) ∧
  (∀ vec, (start_vector L A n fs (final l)).2 = Some vec → NoDup fs ∧ 
     ∃ vs, Forall2 (λ f v, denotes L (gexec L l ∅) f QR v) fs vs ∧ vec = concat (ravel <$> vs)).
Proof.
  intros Hlib Hv. destruct (exec_ok L l Hlib Hv) as [[Hinv _ _] Hc]. rewrite <- Hc. unfold start_vector.
  destruct (remove_dups_length fs) as [_ Hd]. case_decide as H.
  - split; [intros Hn; by apply Hd in H|]. intros vec Hvec. split; [by apply Hd|].
    destruct fs as [|f fs]; [done|]. by apply (ravel_all_ok n (f :: fs) (final l) Hinv).
  - done.
Qed.

End thms.
