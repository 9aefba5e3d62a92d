(** The theorems about histories, assembled. *)
From stdpp Require Import gmap strings list relations.
From Verif Require Import EngineModel EngineSpec EngineClear EngineEval EngineSet EngineInv EngineOps
  EngineRead EngineEffect EngineObs EngineHist.

Section thms.
Context (L : lib).
Notation graph := (gmap oid (core L)).
Notation heap := (gmap oid (node L)).
Notation node := (node L).
Notation cores := (cores L).
Notation state := (state L).
Notation st_h := (st_h L).
Notation st_log := (st_log L).
Implicit Types (g : graph) (c : core L) (h : heap) (n : node) (st : state) (l : list (op L)).

Notation final l := (exec L l (init L)).

(* ------------------------------------------------------------------ *)
(** C01, C02, C10: reads agree with recomputation. *)
Lemma rinv_read B st m o w : rinv L B (st_h st) →
  (∀ v, (read L m o w st).2 = Some v → denotes L (cores (st_h st)) o w v) ∧
  (∀ v, eval L m (cores (st_h st)) o w = Some v → (read L m o w st).2 = Some v).
Proof.
  intros Hi. destruct (read_rgood L B (cores (st_h st)) m o w st Hi eq_refl) as (_ & _ & HV).
  destruct (HV I) as [H1 H2]. split; [|done]. intros v Hv. destruct (H1 v Hv) as [m' Hm']. by exists m'.
Qed.
Lemma rinv_read_dr (B : oid → Prop) st m o w : B w → rinv L B (st_h st) → not_view L (cores (st_h st)) w →
  (∀ j, (read_dr L m o w st).2 = Some j → dr_denotes L (cores (st_h st)) o w j) ∧
  (∀ j, drval L m (cores (st_h st)) o w = Some j → (read_dr L m o w st).2 = Some j).
Proof.
  intros HB Hi Hw. destruct (read_dr_rgood L B (cores (st_h st)) m w o st Hi eq_refl) as (_ & _ & HV).
  { destruct Hw as (c & Hc & _). eauto. }
  destruct (HV (conj HB Hw)) as [H1 H2]. split; [|done]. intros v Hv. destruct (H1 v Hv) as [m' Hm']. by exists m'.
Qed.

Lemma rinv_reads B st o w v : rinv L B (st_h st) → reads L st o w v ↔ denotes L (cores (st_h st)) o w v.
Proof.
  intros Hi. split.
  - intros [m Hm]. by eapply (rinv_read B st m o w Hi).
  - intros [m Hm]. exists m. by apply (rinv_read B st m o w Hi).
Qed.
Lemma rinv_reads_dr (B : oid → Prop) st o w v : B w → rinv L B (st_h st) → not_view L (cores (st_h st)) w →
  reads_dr L st o w v ↔ dr_denotes L (cores (st_h st)) o w v.
Proof.
  intros HB Hi Hw. split.
  - intros [m Hm]. by eapply (rinv_read_dr B st m o w HB Hi Hw).
  - intros [m Hm]. exists m. by apply (rinv_read_dr B st m o w HB Hi Hw).
Qed.
Lemma inv_read st m o w : inv L (st_h st) →
  (∀ v, (read L m o w st).2 = Some v → denotes L (cores (st_h st)) o w v) ∧
  (∀ v, eval L m (cores (st_h st)) o w = Some v → (read L m o w st).2 = Some v).
Proof. intros Hi. by apply (rinv_read all), inv_rinv. Qed.
Lemma inv_read_dr st m o w : inv L (st_h st) → not_view L (cores (st_h st)) w →
  (∀ j, (read_dr L m o w st).2 = Some j → dr_denotes L (cores (st_h st)) o w j) ∧
  (∀ j, drval L m (cores (st_h st)) o w = Some j → (read_dr L m o w st).2 = Some j).
Proof. intros Hi. by apply (rinv_read_dr all), inv_rinv. Qed.
Lemma inv_reads st o w v : inv L (st_h st) → reads L st o w v ↔ denotes L (cores (st_h st)) o w v.
Proof. intros Hi. by apply (rinv_reads all), inv_rinv. Qed.
Lemma inv_reads_dr st o w v : inv L (st_h st) → not_view L (cores (st_h st)) w →
  reads_dr L st o w v ↔ dr_denotes L (cores (st_h st)) o w v.
Proof. intros Hi. by apply (rinv_reads_dr all), inv_rinv. Qed.

Lemma hist_read l : lib_ok L → valid L l → ∀ m o w,
  (∀ v, (read L m o w (final l)).2 = Some v → denotes L (gexec L l ∅) o w v) ∧
  (∀ v, eval L m (gexec L l ∅) o w = Some v → (read L m o w (final l)).2 = Some v).
Proof.
  intros Hlib Hv m o w. destruct (exec_ok L l Hlib Hv) as [[Hi _ _] Hc].
  rewrite <- Hc. by apply inv_read.
Qed.
Lemma hist_read_dr l : lib_ok L → valid L l → ∀ m o w, not_view L (gexec L l ∅) w →
  (∀ j, (read_dr L m o w (final l)).2 = Some j → dr_denotes L (gexec L l ∅) o w j) ∧
  (∀ j, drval L m (gexec L l ∅) o w = Some j → (read_dr L m o w (final l)).2 = Some j).
Proof.
  intros Hlib Hv m o w Hw. destruct (exec_ok L l Hlib Hv) as [[Hi _ _] Hc].
  rewrite <- Hc in *. by apply inv_read_dr.
Qed.

Lemma hist_reads l o w v : lib_ok L → valid L l →
  reads L (final l) o w v ↔ denotes L (gexec L l ∅) o w v.
Proof.
  intros Hlib Hv. destruct (exec_ok L l Hlib Hv) as [[Hi _ _] Hc]. rewrite <- Hc. by apply inv_reads.
Qed.
Lemma hist_reads_dr l o w v : lib_ok L → valid L l → not_view L (gexec L l ∅) w →
  reads_dr L (final l) o w v ↔ dr_denotes L (gexec L l ∅) o w v.
Proof.
  intros Hlib Hv Hw. destruct (exec_ok L l Hlib Hv) as [[Hi _ _] Hc]. rewrite <- Hc in *.
  by apply inv_reads_dr.
Qed.

(** Two histories with the same attributes give the same results. *)
Lemma hist_same l1 l2 : lib_ok L → valid L l1 → valid L l2 → gexec L l1 ∅ = gexec L l2 ∅ →
  (∀ o w v, reads L (final l1) o w v ↔ reads L (final l2) o w v) ∧
  (∀ o w j, not_view L (gexec L l1 ∅) w → reads_dr L (final l1) o w j ↔ reads_dr L (final l2) o w j).
Proof.
  intros Hlib H1 H2 E. split.
  - intros o w v. rewrite !hist_reads by done. by rewrite E.
  - intros o w j Hw. rewrite !hist_reads_dr by (done || by rewrite <- E). by rewrite E.
Qed.

(* ------------------------------------------------------------------ *)
(** C03 *)
Lemma gstep_read a g : is_read L a → gstep L a g = g.
Proof. by destruct a. Qed.
Lemma tags_read a used : is_read L a → op_tags L a ∪ used = used.
Proof. destruct a; simpl; intros H; try done; apply (left_id_L ∅ (∪)). Qed.

Lemma read_between l1 a l2 : is_read L a → valid L (l1 ++ a :: l2) →
  valid L (l1 ++ l2) ∧ gexec L (l1 ++ a :: l2) ∅ = gexec L (l1 ++ l2) ∅.
Proof.
  intros Ha Hv. unfold valid in *. rewrite valid_app in Hv. destruct Hv as [Hv1 [Hv2 Hv3]].
  rewrite gstep_read in Hv3 by done. rewrite tags_read in Hv3 by done. split.
  - apply valid_app. done.
  - rewrite !gexec_app. simpl. by rewrite gstep_read.
Qed.

Lemma reads_pure l1 a l2 : lib_ok L → is_read L a → valid L (l1 ++ a :: l2) →
  (∀ o w v, reads L (final (l1 ++ a :: l2)) o w v ↔ reads L (final (l1 ++ l2)) o w v) ∧
  (∀ o w j, not_view L (gexec L (l1 ++ l2) ∅) w →
     reads_dr L (final (l1 ++ a :: l2)) o w j ↔ reads_dr L (final (l1 ++ l2)) o w j).
Proof.
  intros Hlib Ha Hv. destruct (read_between l1 a l2 Ha Hv) as [Hv' E].
  destruct (hist_same _ _ Hlib Hv Hv' E) as [H1 H2]. split; [done|]. intros o w j Hw.
  apply H2. by rewrite E.
Qed.

Lemma read_frame l a : lib_ok L → is_read L a → valid L (l ++ [a]) →
  ∀ x, option_Forall2 (λ n n', n_core L n' = n_core L n ∧ n_par L n' = n_par L n)
         (st_h (final l) !! x) (st_h (final (l ++ [a])) !! x).
Proof.
  intros Hlib Ha Hv x. unfold valid in Hv. rewrite valid_app in Hv. destruct Hv as [Hv [Hv2 _]].
  rewrite exec_app. simpl. destruct (exec_ok L l Hlib Hv) as [[Hi _ _] Hc].
  rewrite <- Hc in Hv2.
  assert (Hk : kept L (st_h (final l)) (st_h (step L a (final l)))).
  { destruct a as [| | | | |m o w|m o w|]; try done; simpl in *.
    - by apply (read_is_good L _ m o w _ Hi eq_refl).
    - apply elem_of_dom in Hv2. by apply (read_dr_good L _ m w o _ Hi eq_refl Hv2). }
  specialize (Hk x). destruct Hk as [n n' Hkn|]; constructor.
  split; [apply (kn_core _ _ _ Hkn)|apply (kn_par _ _ _ Hkn)].
Qed.

(* ------------------------------------------------------------------ *)
(** C04 *)
Lemma assign_frame_graph h o k v o' : lib_ok L → inv L h → assign_ok L (cores h) o k v o' →
  ∀ x, is_Some (h !! x) → ¬ dep L (cores h) x o → ∀ p, dep L (cores h) x p → 
    cores (assign L None h o k v o') !! p = cores h !! p.
Proof.
  intros Hlib [Hs _] Hok x Hx Hd p Hp.
  rewrite assign_cores by (done || by eapply assign_ok_fresh).
  assert (Hpo : p ≠ o) by (intros ->; done).
  assert (Hpo' : p ≠ o').
  { intros ->. pose proof (dep_dom L h x o' Hs Hx Hp) as [? Ho']. apply assign_ok_fresh in Hok. congruence. }
  unfold gassign. destruct (cores h !! o) as [c|] eqn:Hc; [|done].
  destruct v as [t|q]; [|by rewrite lookup_insert_ne].
  destruct (is_base _ _); [by rewrite lookup_insert_ne|].
  destruct (decide _); by rewrite !lookup_insert_ne.
Qed.

Lemma hist_untouched l o k v o' : lib_ok L → valid L (l ++ [OSet L o k v o']) →
  ∀ x n, st_h (final l) !! x = Some n → ¬ dep L (gexec L l ∅) x o →
  (∃ n', st_h (final (l ++ [OSet L o k v o'])) !! x = Some n' ∧
     n_r L n' = n_r L n ∧ n_dr L n' = n_dr L n ∧ n_pc L n' = n_pc L n ∧ n_dirty L n' = n_dirty L n) ∧
  (∀ w u, denotes L (gexec L (l ++ [OSet L o k v o']) ∅) x w u ↔ denotes L (gexec L l ∅) x w u) ∧
  (∀ w j, not_view L (gexec L l ∅) w →
     dr_denotes L (gexec L (l ++ [OSet L o k v o']) ∅) x w j ↔ dr_denotes L (gexec L l ∅) x w j).
Proof.
  intros Hlib Hv x n Hx Hd. unfold valid in Hv. rewrite valid_app in Hv. destruct Hv as [Hv [Hok _]].
  destruct (exec_ok L l Hlib Hv) as [[Hi _ _] Hc]. pose proof Hi as [Hs Hci].
  rewrite exec_app, gexec_app.
  change (exec L [OSet L o k v o'] (final l)) with (on_heap L (λ h, assign L None h o k v o') (final l)).
  change (gexec L [OSet L o k v o'] (gexec L l ∅)) with (gassign L (gexec L l ∅) (o, k, v, o')).
  change (assign_ok L (gexec L l ∅) o k v o') in Hok. rewrite <- Hc in *.
  change (st_h (on_heap L (λ h, assign L None h o k v o') (final l)))
    with (assign L None (st_h (final l)) o k v o').
  set (h := st_h (final l)) in *.
  assert (Hxs : is_Some (h !! x)) by eauto.
  pose proof (assign_frame_graph h o k v o' Hlib Hi Hok x Hxs Hd) as Hfr.
  rewrite assign_cores in Hfr by (done || by eapply assign_ok_fresh).
  assert (Hsim : ∀ p, dep L (cores h) x p → gsim L (cores h) (gassign L (cores h) (o, k, v, o')) p).
  { intros p Hp. unfold gsim. rewrite Hfr by done. destruct (cores h !! p); constructor. by apply core_sim_refl. }
  assert (Hgok : ∀ p c, dep L (cores h) x p → cores h !! p = Some c → node_ok L c).
  { intros p c _ Hp. by apply (si_ok _ _ Hs p). }
  split; [|split].
  - destruct (assign_eff L None h o k v o' Hlib Hs Hok) as [He _].
    destruct (He x n Hx) as (n' & Hn' & Hne). exists n'. split; [done|].
    destruct (ne_r _ _ _ _ _ _ _ _ _ Hne) as (R1 & R2 & _); [by intros [_ ?]|].
    pose proof (assign_facts_ok L None h o k v o' Hlib Hs Hok) as Hf.
    assert (Hno : ∀ d, ¬ announced L (cores (assign L None h o k v o')) o k x d).
    { intros d [[-> _]|(a & He' & Hda)].
      - apply Hd. constructor.
      - apply Hd. apply (af_above _ _ _ _ _ _ Hf x); [done|].
        eapply rtc_l; [by exists d|done]. }
    split_and!; [done|done| |].
    + apply map_eq; intros k'. apply option_eq; intros u. split.
      * apply (ne_pc_back _ _ _ _ _ _ _ _ _ Hne).
      * intros Hu. apply (ne_pc _ _ _ _ _ _ _ _ _ Hne); [done|].
        intros d _ _. apply Hno.
    + apply set_eq; intros d. split.
      * intros Hd'. destruct (ne_dirty_back _ _ _ _ _ _ _ _ _ Hne d Hd') as [?|[_ Ha]]; [done|].
        by destruct (Hno d).
      * apply (ne_dirty _ _ _ _ _ _ _ _ _ Hne).
  - intros w u. split; intros [m Hm]; exists m;
      pose proof (eval_frame L m _ (gassign L (cores h) (o, k, v, o')) x w Hsim Hgok); congruence.
  - intros w j Hw.
    assert (Hw' : not_view L (gassign L (cores h) (o, k, v, o')) w).
    { destruct Hw as (c & Hc' & Hp). pose proof (assign_facts_ok L None h o k v o' Hlib Hs Hok) as Hf.
      apply cores_Some_inv in Hc' as (nw & Hnw & <-).
      destruct (af_ext _ _ _ _ _ _ Hf w nw Hnw) as (nw' & Hnw' & E & _).
      exists (n_core L nw'). rewrite <- (assign_cores L None) by (done || by eapply assign_ok_fresh).
      split; [by apply cores_Some|]. by rewrite E. }
    split; intros [m Hm]; exists m;
      pose proof (drval_frame L m _ (gassign L (cores h) (o, k, v, o')) x w Hsim Hgok Hw Hw'); congruence.
Qed.

(* ------------------------------------------------------------------ *)
(** C05, C10: what is cached stays cached. *)
Lemma new_events_trans st1 st2 st3 e1 e2 :
  st_log st2 = e1 ++ st_log st1 → st_log st3 = e2 ++ st_log st2 → new_events L st1 st3 = e2 ++ e1.
Proof. intros H1 H2. apply new_events_app. by rewrite H2, H1, app_assoc. Qed.

Lemma step_log a st : ∃ evs, st_log (step L a st) = evs ++ st_log st.
Proof.
  destruct a as [| | | | |m o w|m o w|]; simpl; try (by exists []).
  - destruct (read_obs L m o w st) as [evs H]. exists evs. apply H.
  - destruct (read_dr_obs L m w o st) as [evs H]. exists evs. apply H.
Qed.
Lemma exec_log l : ∀ st, ∃ evs, st_log (exec L l st) = evs ++ st_log st.
Proof.
  induction l as [|a l IH]; intros st; [by exists []|]. simpl.
  destruct (step_log a st) as [e1 H1]. destruct (IH (step L a st)) as [e2 H2].
  exists (e2 ++ e1). by rewrite H2, H1, app_assoc.
Qed.
Lemma new_events_cons a l st :
  new_events L st (exec L (a :: l) st) =
  new_events L (step L a st) (exec L l (step L a st)) ++ new_events L st (step L a st).
Proof.
  destruct (step_log a st) as [e1 H1]. destruct (exec_log l (step L a st)) as [e2 H2].
  simpl. rewrite (new_events_trans _ _ _ _ _ H1 H2).
  by rewrite (new_events_app _ _ _ _ H1), (new_events_app _ _ _ _ H2).
Qed.

Lemma exec_caches l : ∀ used st o v, lib_ok L → ok_state L used st →
  valid_from L used l (cores (st_h st)) → leaves_alone L o l (cores (st_h st)) →
  caches L (st_h st) o v →
  caches L (st_h (exec L l st)) o v ∧ EvCompute o ∉ new_events L st (exec L l st).
Proof.
  induction l as [|a l IH]; intros used st o v Hlib Hos Hv Hq Hc.
  - split; [done|]. simpl. rewrite (new_events_app _ _ _ []) by done. apply not_elem_of_nil.
  - destruct Hv as [Ha Hv]. destruct Hq as [Hqa Hq].
    destruct (step_cores L used a st Hlib Hos Ha) as [Hos' Hcs]. rewrite <- Hcs in Hv, Hq.
    destruct (step_caches L used a st o v Hlib Hos Ha Hqa Hc) as [Hc' He].
    destruct (IH _ _ o v Hlib Hos' Hv Hq Hc') as [Hc2 He2].
    split; [done|]. rewrite new_events_cons, elem_of_app. tauto.
Qed.

Lemma step_core_deps used a st o c k ds : lib_ok L → ok_state L used st → op_ok L used a (cores (st_h st)) →
  (∀ X, a = OCollect L X → o ∉ X) →
  cores (st_h st) !! o = Some c → prop_deps L (c_cls L c) !! k = Some ds →
  ∃ c', cores (st_h (step L a st)) !! o = Some c' ∧ prop_deps L (c_cls L c') !! k = Some ds.
Proof.
  intros Hlib Hos Ha HX Hc Hds. destruct (step_cores L used a st Hlib Hos Ha) as [_ ->].
  assert (Hg : ∀ s g c, g !! o = Some c → prop_deps L (c_cls L c) !! k = Some ds →
     assign_ok L g s.1.1.1 s.1.1.2 s.1.2 s.2 →
     ∃ c', gassign L g s !! o = Some c' ∧ prop_deps L (c_cls L c') !! k = Some ds).
  { intros [[[p j] v] p'] g c0 Hc0 Hd0 Hok. destruct Hok as (cp & Hcp & _ & _ & Hp'). simpl in *.
    assert (o ≠ p') by (intros ->; apply Hp', elem_of_dom; eauto).
    assert (p ≠ p') by (intros ->; apply Hp', elem_of_dom; eauto).
    rewrite Hcp.
    assert (Hgen : ∀ u g', g' !! o = Some c0 → ∃ c', <[p := write L j u cp]> g' !! o = Some c' ∧
       prop_deps L (c_cls L c') !! k = Some ds).
    { intros u g' Hg'. destruct (decide (o = p)) as [->|].
      - rewrite lookup_insert. exists (write L j u cp). split; [done|]. simpl. congruence.
      - rewrite lookup_insert_ne by done. eauto. }
    destruct v as [t|q]; [|by apply Hgen].
    destruct (is_base _ _); [by apply Hgen|].
    destruct (decide _); [|by apply Hgen]. apply Hgen. by rewrite lookup_insert_ne. }
  assert (Hgs : ∀ sets g c, g !! o = Some c → prop_deps L (c_cls L c) !! k = Some ds →
     assigns_ok L g sets →
     ∃ c', foldl (gassign L) g sets !! o = Some c' ∧ prop_deps L (c_cls L c') !! k = Some ds).
  { induction sets as [|s sets IH]; intros g c0 Hc0 Hd0 Hok; [eauto|].
    assert (Hok' : assign_ok L g s.1.1.1 s.1.1.2 s.1.2 s.2 ∧ assigns_ok L (gassign L g s) sets).
    { destruct s as [[[p j] v] p']. exact Hok. }
    destruct Hok' as [Hok1 Hok2]. destruct (Hg s g c0 Hc0 Hd0 Hok1) as (c1 & Hc1 & Hd1).
    by apply (IH _ c1). }
  destruct a as [p c1 dt tm|p j v p'|p kws|i sets|p|m p w|m p w|X]; simpl in *; eauto.
  - destruct Ha as [Hn _]. rewrite lookup_insert_ne; [eauto|]. intros ->. apply Hn, elem_of_dom. eauto.
  - by apply (Hg (p, j, v, p') _ c).
  - by apply (Hgs _ _ c); [| |apply Ha].
  - by apply (Hgs _ _ c); [| |apply Ha].
  - exists c. split; [|done]. apply map_filter_lookup_Some. split; [done|]. by apply HX.
Qed.

Lemma exec_caches_prop l : ∀ used st o k ds v c, lib_ok L → ok_state L used st →
  valid_from L used l (cores (st_h st)) → leaves_inputs_alone L o ds l (cores (st_h st)) →
  cores (st_h st) !! o = Some c → prop_deps L (c_cls L c) !! k = Some ds →
  caches_prop L (st_h st) o k v →
  caches_prop L (st_h (exec L l st)) o k v ∧ EvProp o k ∉ new_events L st (exec L l st).
Proof.
  induction l as [|a l IH]; intros used st o k ds v c Hlib Hos Hv Hq Hco Hds Hc.
  - split; [done|]. simpl. rewrite (new_events_app _ _ _ []) by done. apply not_elem_of_nil.
  - destruct Hv as [Ha Hv]. destruct Hq as [Hqa Hq].
    destruct (step_cores L used a st Hlib Hos Ha) as [Hos' Hcs].
    destruct (step_caches_prop L used a st o k ds v c Hlib Hos Ha Hco Hds Hqa Hc) as [Hc' He].
    destruct (step_core_deps used a st o c k ds Hlib Hos Ha) as (c' & Hco' & Hds'); [|done|done|].
    { intros X ->. done. }
    rewrite <- Hcs in Hv, Hq.
    destruct (IH _ _ o k ds v c' Hlib Hos' Hv Hq Hco' Hds' Hc') as [Hc2 He2].
    split; [done|]. rewrite new_events_cons, elem_of_app. tauto.
Qed.

Lemma run_read_dom {R} m o c (p : prog (Arr L) R) st :
  dom (st_h (run L (resolve L (read L m) (raise L) o c) st p).1) = dom (st_h st).
Proof.
  destruct (run_obs L (resolve L (read L m) (raise L) o c) p) with (st := st) as [evs H].
  { intros q st'. apply resolve_obs. intros. apply read_obs. }
  apply H.
Qed.

Lemma read_caches m o st v : (read L m o QR st).2 = Some v → caches L (st_h (read L m o QR st).1) o v.
Proof.
  destruct m as [|m]; [done|]. simpl. destruct (st_h st !! o) as [n|] eqn:Ho; [|done].
  destruct (n_r L n) as [u|] eqn:Hr; simpl.
  - intros [= ->]. unfold fire. rewrite Ho. destruct (decide _); simpl; [by exists n|].
    exists (set_dirty L ∅ n). rewrite lookup_alter, Ho. done.
  - pose proof (run_read_dom m o (n_core L n) (compute_r L (c_cls L (n_core L n)) (plain L (n_core L n)))
      (emit L (EvCompute o) (fire L o st))) as Hd.
    destruct (run _ _ _ _) as [st2 [u|]] eqn:E; [|done]. simpl in *. intros [= ->].
    assert (Hd' : o ∈ dom (st_h st2)).
    { rewrite Hd. destruct (obs_fire L o st) as [evs Hf]. rewrite (ob_dom _ _ _ _ Hf). apply elem_of_dom. eauto. }
    apply elem_of_dom in Hd' as [n2 Hn2]. exists (set_r L (Some v) n2). by rewrite lookup_alter, Hn2.
Qed.
Lemma read_caches_prop m o k st v : (read L m o (QProp k) st).2 = Some v →
  caches_prop L (st_h (read L m o (QProp k) st).1) o k v ∧
  ∃ c ds, cores (st_h st) !! o = Some c ∧ prop_deps L (c_cls L c) !! k = Some ds.
Proof.
  destruct m as [|m]; [done|]. simpl. destruct (st_h st !! o) as [n|] eqn:Ho; [|done].
  destruct (prop_deps L (c_cls L (n_core L n)) !! k) as [ds|] eqn:Eds; [|done].
  intros Hres. split; [|exists (n_core L n), ds; by split; [apply cores_Some|]]. revert Hres.
  destruct (n_pc L n !! k) as [u|] eqn:Hr; simpl.
  - intros [= ->]. by exists n.
  - pose proof (run_read_dom m o (n_core L n) (compute_prop L (c_cls L (n_core L n)) k (plain L (n_core L n)))
      (emit L (EvProp o k) st)) as Hd.
    destruct (run _ _ _ _) as [st2 [u|]] eqn:E; [|done]. simpl in *. intros [= ->].
    assert (Hd' : o ∈ dom (st_h st2)) by (rewrite Hd; apply elem_of_dom; eauto).
    apply elem_of_dom in Hd' as [n2 Hn2]. eexists. rewrite lookup_alter, Hn2. split; [done|].
    simpl. by rewrite lookup_insert.
Qed.

Lemma caches_read m o st v : caches L (st_h st) o v →
  (read L (S m) o QR st).2 = Some v ∧ ∀ x, EvCompute x ∉ new_events L st (read L (S m) o QR st).1.
Proof.
  intros (n & Hn & Hr). simpl. rewrite Hn, Hr. split; [done|]. intros x. simpl.
  unfold fire. rewrite Hn. destruct (decide _).
  - rewrite (new_events_app _ _ _ []) by done. apply not_elem_of_nil.
  - rewrite (new_events_app _ _ _ [EvChanged o (n_dirty L n)]) by done.
    by intros ?%elem_of_list_singleton.
Qed.
Lemma caches_prop_read m o k st v c ds : caches_prop L (st_h st) o k v →
  cores (st_h st) !! o = Some c → prop_deps L (c_cls L c) !! k = Some ds →
  read L (S m) o (QProp k) st = (st, Some v).
Proof.
  intros (n & Hn & Hr) Hc Hds. simpl. rewrite Hn. rewrite (cores_Some _ _ _ _ Hn) in Hc.
  injection Hc as <-. by rewrite Hds, Hr.
Qed.

Lemma hist_no_recompute l1 l2 m o v : lib_ok L → valid L (l1 ++ ORead L m o QR :: l2) →
  (read L m o QR (final l1)).2 = Some v →
  leaves_alone L o l2 (gexec L l1 ∅) →
  let st1 := final (l1 ++ [ORead L m o QR]) in
  let st2 := final (l1 ++ ORead L m o QR :: l2) in
  EvCompute o ∉ new_events L st1 st2 ∧
  ∀ m', (read L (S m') o QR st2).2 = Some v ∧ ∀ x, EvCompute x ∉ new_events L st2 (read L (S m') o QR st2).1.
Proof.
  intros Hlib Hv Hr Hq st1 st2. unfold valid in Hv. rewrite valid_app in Hv.
  destruct Hv as [Hv1 [Hop Hv2]].
  destruct (exec_ok L l1 Hlib Hv1) as [Hos Hc]. rewrite <- Hc in Hop.
  destruct (step_cores L _ (ORead L m o QR) _ Hlib Hos Hop) as [Hos' Hcs].
  assert (E1 : st1 = step L (ORead L m o QR) (final l1)) by (unfold st1; by rewrite exec_app).
  assert (E2 : st2 = exec L l2 st1) by (unfold st2; rewrite E1, exec_app; done).
  rewrite Hc in Hcs. rewrite <- Hcs in Hv2. rewrite E2, E1.
  change (gstep L (ORead L m o QR) (gexec L l1 ∅)) with (gexec L l1 ∅) in Hcs. rewrite <- Hcs in Hq.
  destruct (exec_caches l2 _ _ o v Hlib Hos' Hv2 Hq) as [H1 H2]; [by apply read_caches|].
  split; [done|]. intros m'. by apply caches_read.
Qed.

Lemma hist_no_recompute_prop l1 l2 m o k v c ds : lib_ok L → valid L (l1 ++ ORead L m o (QProp k) :: l2) →
  (read L m o (QProp k) (final l1)).2 = Some v →
  gexec L l1 ∅ !! o = Some c → prop_deps L (c_cls L c) !! k = Some ds →
  leaves_inputs_alone L o ds l2 (gexec L l1 ∅) →
  let st1 := final (l1 ++ [ORead L m o (QProp k)]) in
  let st2 := final (l1 ++ ORead L m o (QProp k) :: l2) in
  EvProp o k ∉ new_events L st1 st2 ∧
  ∀ m', read L (S m') o (QProp k) st2 = (st2, Some v).
Proof.
  intros Hlib Hv Hr Hco Hds Hq st1 st2. unfold valid in Hv. rewrite valid_app in Hv.
  destruct Hv as [Hv1 [Hop Hv2]].
  destruct (exec_ok L l1 Hlib Hv1) as [Hos Hc]. rewrite <- Hc in Hop.
  destruct (step_cores L _ (ORead L m o (QProp k)) _ Hlib Hos Hop) as [Hos' Hcs].
  assert (E1 : st1 = step L (ORead L m o (QProp k)) (final l1)) by (unfold st1; by rewrite exec_app).
  assert (E2 : st2 = exec L l2 st1) by (unfold st2; rewrite E1, exec_app; done).
  rewrite Hc in Hcs. rewrite <- Hcs in Hv2. rewrite E2, E1.
  change (gstep L (ORead L m o (QProp k)) (gexec L l1 ∅)) with (gexec L l1 ∅) in Hcs.
  rewrite <- Hcs in Hq, Hco.
  destruct (read_caches_prop m o k _ v Hr) as [Hcp _].
  destruct (exec_caches_prop l2 _ _ o k ds v c Hlib Hos' Hv2 Hq Hco Hds) as [H1 H2]; [done|].
  split; [done|]. intros m'.
  assert (Hdeps : ∀ l used st c, ok_state L used st → valid_from L used l (cores (st_h st)) →
     leaves_inputs_alone L o ds l (cores (st_h st)) →
     cores (st_h st) !! o = Some c → prop_deps L (c_cls L c) !! k = Some ds →
     ∃ c', cores (st_h (exec L l st)) !! o = Some c' ∧ prop_deps L (c_cls L c') !! k = Some ds).
  { clear -Hlib. induction l as [|a l IH]; intros used st c Hos Hv Hq Hc Hds; [eauto|].
    destruct Hv as [Ha Hv]. destruct Hq as [Hqa Hq].
    destruct (step_cores L used a st Hlib Hos Ha) as [Hos' Hcs].
    destruct (step_core_deps used a st o c k ds Hlib Hos Ha) as (c' & Hco' & Hds'); [|done|done|].
    { intros X ->. done. }
    rewrite <- Hcs in Hv, Hq. simpl. by eapply IH. }
  destruct (Hdeps l2 _ _ c Hos' Hv2 Hq Hco Hds) as (c' & Hc' & Hd').
  by eapply caches_prop_read.
Qed.

(* ------------------------------------------------------------------ *)
(** Every method body runs at most once per successful read. *)
Definition has h (x : oid) (w : what) : Prop :=
  match w with QR => has_r L h x | QProp k => has_prop L h x k end.

Record once (P : oid → what → Prop) st st' : Prop := {
  on_log : st_log st' = new_events L st st' ++ st_log st;
  on_once : ∀ x w e1 e2, new_events L st st' = e2 ++ body x w :: e1 → body x w ∉ e1;
  on_has : ∀ x w, body x w ∈ new_events L st st' → P x w ∧ ¬ has (st_h st) x w ∧ has (st_h st') x w;
  on_keep : ∀ x w, has (st_h st) x w → has (st_h st') x w
}.

Lemma once_refl P st : once P st st.
Proof.
  assert (E : new_events L st st = []) by (by apply new_events_app).
  split; rewrite ?E; try done.
  - intros x w e1 [|] ?; done.
  - intros x w Hx. by apply elem_of_nil in Hx.
Qed.

Lemma once_trans P st1 st2 st3 : once P st1 st2 → once P st2 st3 → once P st1 st3.
Proof.
  intros [A1 A2 A3 A4] [B1 B2 B3 B4].
  pose proof (new_events_trans _ _ _ _ _ A1 B1) as E.
  split; rewrite ?E.
  - by rewrite B1, A1 at 1; rewrite app_assoc.
  - intros x w e1 e2 [(m & E1 & ->)|(m & E1 & ->)]%app_split.
    + intros [Hx|Hx]%elem_of_app; [by eapply B2|].
      assert (Hin : body x w ∈ new_events L st2 st3) by (rewrite E1; apply elem_of_app; right; by left).
      apply A3 in Hx as (_ & _ & Hx). by apply B3 in Hin as (_ & Hin & _).
    + by eapply A2.
  - intros x w [Hx|Hx]%elem_of_app.
    + apply B3 in Hx as (? & Hn & ?). split_and!; [done| |done]. intros Hh. apply Hn. by apply A4.
    + apply A3 in Hx as (? & ? & ?). split_and!; auto.
  - auto.
Qed.

Lemma once_mono (P Q : oid → what → Prop) st st' : (∀ x w, P x w → Q x w) → once P st st' → once Q st st'.
Proof. intros H [A1 A2 A3 A4]. split; try done. intros x w Hx. apply A3 in Hx as (? & ? & ?). auto. Qed.

Lemma run_once {R} g m o c (p : prog (Arr L) R) : ∀ st st' r,
  (∀ o w st st' v, read L m o w st = (st', Some v) → inv L (st_h st) → cores (st_h st) = g →
     once (λ x u, dep L g o x ∧ ∀ n : nat, is_Some (eval L n g o w) → is_Some (eval L n g x u)) st st') →
  run L (resolve L (read L m) (raise L) o c) st p = (st', Some r) →
  inv L (st_h st) → cores (st_h st) = g → g !! o = Some c →
  uses L (asks_tracked L (c_cls L c) (c_dt L c)) p →
  once (λ x u, dep L g o x ∧
     ∀ n : nat, is_Some (runp L (answer L (eval L n g) o c) p) → is_Some (eval L n g x u)) st st'.
Proof.
  induction p as [r0| |q f IH]; intros st st' r Hrd Hrun Hi Hg Ho Hu; simpl in *.
  - injection Hrun as <- <-. apply once_refl.
  - done.
  - destruct (resolve _ _ _ _ _ _ _) as [st1 [v|]] eqn:E; [|done].
    destruct Hu as [Hq Hf].
    assert (Hask : ∃ p w, read L m p w st = (st1, Some v) ∧ dep L g o p ∧
       ∀ n : nat, answer L (eval L n g) o c q = eval L n g p w).
    { destruct q as [|k|k]; simpl in *.
      - exists o, QR. split_and!; [done|constructor|done].
      - destruct (c_attr L c !! k) as [[t|p]|] eqn:Ek; [done| |done].
        exists p, QR. split_and!; [done| |done]. apply rtc_once. exists k, c. split_and!; try done.
        destruct Hi as [Hs _]. assert (Hno : node_ok L c) by (apply (si_ok _ _ Hs o); by rewrite Hg).
        destruct (is_base L (c_cls L c)) eqn:Eb; [|done]. exfalso. by apply (proj2 Hno Eb k p).
      - exists o, (QProp k). split_and!; [done|constructor|done]. }
    destruct Hask as (p & w & Hr & Hd & Hans).
    pose proof (Hrd p w st st1 v Hr Hi Hg) as Hon.
    destruct (read_is_good L g m p w st Hi Hg) as (Hi1 & Hk1 & HV).
    destruct (HV I) as [Hsound _]. rewrite Hr in Hi1, Hk1, Hsound. simpl in *.
    assert (Hg1 : cores (st_h st1) = g) by (rewrite <- Hg; by apply kept_cores).
    destruct (Hsound v eq_refl) as [m' Hm'].
    pose proof (IH v st1 st' r Hrd Hrun Hi1 Hg1 Ho (Hf v)) as Hon2.
    eapply once_trans; (eapply once_mono; [|eassumption]); simpl.
    + intros x u [Hdx Hx]. split; [by etrans|]. intros n. rewrite Hans.
      destruct (eval L n g p w) as [v'|] eqn:E'; [|by intros [? ?]]. intros _. apply Hx. eauto.
    + intros x u [Hdx Hx]. split; [done|]. intros n. rewrite Hans.
      destruct (eval L n g p w) as [v'|] eqn:E'; [|by intros [? ?]].
      assert (v' = v) as -> by (eapply (denotes_det L g p w); [by exists n|by exists m']).
      apply Hx.
Qed.

Lemma least_some {A} (P : nat → option A) (m : nat) : is_Some (P m) → ∃ n : nat, is_Some (P n) ∧ ∀ k : nat, k < n → P k = None.
Proof.
  induction (lt_wf m) as [m _ IH]. intros Hm.
  destruct (decide (Exists (λ k, is_Some (P k)) (seq 0 m))) as [He|He].
  - apply Exists_exists in He as (k & Hk%elem_of_seq & Hs). apply (IH k); [lia|done].
  - exists m. split; [done|]. intros k Hk. destruct (P k) eqn:E; [|done]. exfalso. apply He.
    apply Exists_exists. exists k. split; [apply elem_of_seq; lia|]. eauto.
Qed.

Lemma once_fire P o st : once P st (fire L o st).
Proof.
  assert (Hhas : ∀ x w, has (st_h (fire L o st)) x w ↔ has (st_h st) x w).
  { intros x w. unfold fire. destruct (st_h st !! o) as [n|] eqn:Ho; [|done].
    destruct (decide _); [done|]. simpl. destruct w; simpl; unfold has_r, has_prop.
    - destruct (decide (x = o)) as [->|]; [|by rewrite lookup_alter_ne].
      rewrite lookup_alter, Ho. simpl. naive_solver.
    - destruct (decide (x = o)) as [->|]; [|by rewrite lookup_alter_ne].
      rewrite lookup_alter, Ho. simpl. naive_solver. }
  assert (Hev : ∃ evs, st_log (fire L o st) = evs ++ st_log st ∧ ∀ x w, body x w ∉ evs).
  { unfold fire. destruct (st_h st !! o) as [n|]; [|by exists []; split; [|intros; apply not_elem_of_nil]].
    destruct (decide _); [by exists []; split; [|intros; apply not_elem_of_nil]|].
    exists [EvChanged o (n_dirty L n)]. split; [done|]. intros x [|k] ?%elem_of_list_singleton; done. }
  destruct Hev as (evs & Hl & Hno). pose proof (new_events_app _ _ _ _ Hl) as E.
  split; rewrite ?E; [done| | |].
  - intros x w e1 e2 Hx. exfalso. apply (Hno x w). rewrite Hx. apply elem_of_app. right. by left.
  - intros x w Hx. by destruct (Hno x w).
  - intros x w. by rewrite Hhas.
Qed.

Lemma once_body P o w st st2 st3 :
  ¬ has (st_h st) o w →
  once P (emit L (body o w) st) st2 →
  (∀ u v, P u v → ¬ (u = o ∧ v = w)) →
  (∀ x u, has (st_h st3) x u ↔ has (st_h st2) x u ∨ (x = o ∧ u = w)) → st_log st3 = st_log st2 →
  once (λ x u, P x u ∨ (x = o ∧ u = w)) st st3.
Proof.
  intros Hno [A1 A2 A3 A4] HP Hh Hl.
  assert (Hinj : ∀ x u y v, body x u = body y v → x = y ∧ u = v).
  { intros x [|k] y [|k'] H; inversion H; by subst. }
  assert (E : new_events L st st3 = new_events L (emit L (body o w) st) st2 ++ [body o w]).
  { apply new_events_app. by rewrite Hl, A1 at 1; rewrite <- app_assoc. }
  split; rewrite ?E.
  - by rewrite Hl, A1 at 1; rewrite <- app_assoc.
  - intros x u e1 e2 [(m & E1 & ->)|(m & E1 & ->)]%app_split.
    + intros [Hx|Hx]%elem_of_app; [by eapply A2|].
      apply elem_of_list_singleton, Hinj in Hx as [-> ->].
      destruct (A3 o w) as (Hp & _); [rewrite E1; apply elem_of_app; right; by left|].
      by apply (HP o w).
    + destruct m as [|? [|]]; simplify_eq/=. apply not_elem_of_nil.
  - intros x u [Hx|Hx]%elem_of_app.
    + apply A3 in Hx as (? & ? & ?). split_and!; [by left|done|]. apply Hh. by left.
    + apply elem_of_list_singleton, Hinj in Hx as [-> ->]. split_and!; [by right|done|]. apply Hh. by right.
  - intros x u Hx. apply Hh. left. by apply A4.
Qed.

Lemma read_once g m : ∀ o w st st' v, read L m o w st = (st', Some v) → inv L (st_h st) → cores (st_h st) = g →
  once (λ x u, dep L g o x ∧ ∀ n : nat, is_Some (eval L n g o w) → is_Some (eval L n g x u)) st st'.
Proof.
  induction m as [|m IH]; intros o w st st' v Hr Hi Hg; [done|].
  pose proof (inv_read st (S m) o w Hi) as [Hsound _]. rewrite Hr, Hg in Hsound.
  destruct (Hsound v eq_refl) as [m0 Hm0].
  destruct (least_some (λ n : nat, eval L n g o w) m0) as (n0 & Hn0 & Hmin); [eauto|].
  simpl in Hr. destruct (st_h st !! o) as [n|] eqn:Ho; [|done].
  assert (Hgo : g !! o = Some (n_core L n)) by (rewrite <- Hg; by apply cores_Some).
  assert (Hok : node_ok L (n_core L n)) by (destruct Hi as [Hs _]; apply (si_ok _ _ Hs o); by rewrite Hg).
  destruct Hok as [Hok _].
  destruct w as [|k].
  - destruct (n_r L n) as [u|] eqn:Er; [injection Hr as <- <-; apply once_fire|].
    destruct (run _ _ _ _) as [st2 [u|]] eqn:Erun; [|done]. injection Hr as <- <-.
    eapply once_trans; [apply once_fire|].
    set (p := compute_r L (c_cls L (n_core L n)) (plain L (n_core L n))) in *.
    assert (Hi1 : inv L (st_h (emit L (EvCompute o) (fire L o st)))) by (by apply fire_inv).
    assert (Hg1 : cores (st_h (emit L (EvCompute o) (fire L o st))) = g).
    { rewrite <- Hg. apply kept_cores. apply fire_kept. }
    pose proof (run_once g m o (n_core L n) p _ _ _ IH Erun Hi1 Hg1 Hgo (co_r _ _ _ _ Hok _)) as Hon.
    assert (Hd2 : is_Some (st_h st2 !! o)).
    { pose proof (run_read_dom m o (n_core L n) p (emit L (EvCompute o) (fire L o st))) as Hd.
      rewrite Erun in Hd. apply elem_of_dom. simpl in Hd. rewrite Hd.
      destruct (obs_fire L o st) as [evs Hf]. rewrite (ob_dom _ _ _ _ Hf). apply elem_of_dom. eauto. }
    destruct Hd2 as [n2 Hn2].
    eapply once_mono; [|eapply (once_body _ o QR); [|exact Hon|..]].
    + intros x u' [[Hd Hx]|[-> ->]].
      * split; [done|]. intros j Hj. destruct j as [|j]; [by destruct Hj|]. simpl in Hj. rewrite Hgo in Hj.
        destruct (Hx j Hj) as [y Hy]. exists y. by eapply (eval_mono L j (S j)); [lia|].
      * split; [constructor|done].
    + simpl. rewrite fire_r. intros (n' & Hn' & Hs). rewrite Ho in Hn'. injection Hn' as <-.
      rewrite Er in Hs. by destruct Hs.
    + intros x u' [_ Hx] [-> ->]. destruct n0 as [|n0]; [by destruct Hn0|].
      simpl in Hn0. rewrite Hgo in Hn0. destruct (Hx n0 Hn0) as [y Hy]. rewrite Hmin in Hy by lia. done.
    + intros x u'. simpl. destruct (decide (x = o)) as [->|].
      * destruct u' as [|k']; simpl; unfold has_r, has_prop; rewrite lookup_alter, Hn2; simpl.
        -- split; [by right|]. intros _. eexists; split; [done|]. simpl. eauto.
        -- split; [|intros [H|[_ ?]]; [|done]].
           ++ intros (? & [= <-] & H). left. eauto.
           ++ destruct H as (n3 & [= <-] & H). eauto.
      * destruct u' as [|k']; simpl; unfold has_r, has_prop; rewrite lookup_alter_ne by done; naive_solver.
    + done.
  - destruct (prop_deps L (c_cls L (n_core L n)) !! k) as [ds|] eqn:Eds; [|done].
    destruct (n_pc L n !! k) as [u|] eqn:Er; [injection Hr as <- <-; apply once_refl|].
    destruct (run _ _ _ _) as [st2 [u|]] eqn:Erun; [|done]. injection Hr as <- <-.
    set (p := compute_prop L (c_cls L (n_core L n)) k (plain L (n_core L n))) in *.
    assert (Hup : uses L (asks_tracked L (c_cls L (n_core L n)) (c_dt L (n_core L n))) p).
    { pose proof (co_prop _ _ _ _ Hok k ds (plain L (n_core L n)) Eds) as Hu. fold p in Hu. revert Hu. clear.
      induction p as [| |q f IHp]; simpl; [done..|]. intros [[Hq1 _] Hf1]. split; [done|]. intros v0. by apply IHp. }
    pose proof (run_once g m o (n_core L n) p _ _ _ IH Erun Hi Hg Hgo Hup) as Hon.
    assert (Hd2 : is_Some (st_h st2 !! o)).
    { pose proof (run_read_dom m o (n_core L n) p (emit L (EvProp o k) st)) as Hd.
      rewrite Erun in Hd. apply elem_of_dom. simpl in Hd. rewrite Hd. apply elem_of_dom. eauto. }
    destruct Hd2 as [n2 Hn2].
    eapply once_mono; [|eapply (once_body _ o (QProp k)); [|exact Hon|..]].
    + intros x u' [[Hd Hx]|[-> ->]].
      * split; [done|]. intros j Hj. destruct j as [|j]; [by destruct Hj|]. simpl in Hj. rewrite Hgo, Eds in Hj.
        destruct (Hx j Hj) as [y Hy]. exists y. by eapply (eval_mono L j (S j)); [lia|].
      * split; [constructor|done].
    + simpl. intros (n' & Hn' & Hs). rewrite Ho in Hn'. injection Hn' as <-.
      rewrite Er in Hs. by destruct Hs.
    + intros x u' [_ Hx] [-> ->]. destruct n0 as [|n0]; [by destruct Hn0|].
      simpl in Hn0. rewrite Hgo, Eds in Hn0. destruct (Hx n0 Hn0) as [y Hy]. rewrite Hmin in Hy by lia. done.
    + intros x u'. simpl. destruct (decide (x = o)) as [->|].
      * destruct u' as [|k']; simpl; unfold has_r, has_prop; rewrite lookup_alter, Hn2; simpl.
        -- split; [|intros [H|[_ ?]]; [|done]].
           ++ intros (? & [= <-] & H). left. eauto.
           ++ destruct H as (n3 & [= <-] & H). eauto.
        -- split.
           ++ intros (? & [= <-] & H). simpl in H. destruct (decide (k' = k)) as [->|]; [by right|].
              rewrite lookup_insert_ne in H by done. left. eauto.
           ++ intros H. eexists; split; [done|]. simpl. destruct (decide (k' = k)) as [->|].
              ** rewrite lookup_insert. eauto.
              ** rewrite lookup_insert_ne by done. destruct H as [(n3 & [= <-] & H)|[_ [= ?]]]; [|done]. done.
      * destruct u' as [|k']; simpl; unfold has_r, has_prop; rewrite lookup_alter_ne by done; naive_solver.
    + done.
Qed.

Lemma hist_once l m o w v : lib_ok L → valid L l → (read L m o w (final l)).2 = Some v →
  let evs := new_events L (final l) (read L m o w (final l)).1 in
  (∀ x u, body x u ∈ evs → dep L (gexec L l ∅) o x) ∧
  (∀ x u e1 e2, evs = e2 ++ body x u :: e1 → body x u ∉ e1).
Proof.
  intros Hlib Hv Hr evs. destruct (exec_ok L l Hlib Hv) as [[Hi _ _] Hc].
  destruct (read L m o w (final l)) as [st' r] eqn:E. simpl in Hr. subst r.
  pose proof (read_once (gexec L l ∅) m o w _ _ _ E Hi Hc) as [A1 A2 A3 A4]. split.
  - intros x u Hx. by apply A3 in Hx as [[? _] _].
  - exact A2.
Qed.

(* ------------------------------------------------------------------ *)
(** C06 *)
Lemma clear_total itr h o : ∃ h' cnt, clear_run L itr h o = Some (h', cnt) ∧ cnt ≤ 1 + n_links L h.
Proof.
  destruct (clear_run_spec L itr h o) as (h' & D & Hr & Hc). exists h', (1 + wsum L h D).
  split; [done|]. assert (Hd : D ⊆ dom h) by (intros x Hx; by apply Hc).
  pose proof (wsum_le L h D Hd). lia.
Qed.

Lemma hist_clear l o : lib_ok L → valid L l → o ∈ dom (gexec L l ∅) →
  let h := st_h (final l) in
  ∃ (D : gset oid) h', clear_run L None h o = Some (h', 1 + sum_list_with (n_parents L h) (elements D)) ∧
    (∀ x, x ∈ D ↔ dep L (gexec L l ∅) x o) ∧
    (∀ x n, h !! x = Some n → ∃ n', h' !! x = Some n' ∧
       n_core L n' = n_core L n ∧ n_par L n' = n_par L n ∧
       (x ∈ D → n_r L n' = None ∧ n_dr L n' = ∅) ∧
       (x ∉ D → n_r L n' = n_r L n ∧ n_dr L n' = n_dr L n)).
Proof.
  intros Hlib Hv Ho h. destruct (exec_ok L l Hlib Hv) as [[[Hs Hci] _ _] Hc]. fold h in Hs, Hc.
  destruct (clear_run_spec L None h o) as (h' & D & Hr & Hcl). exists D, h'. split; [done|].
  assert (Hos : is_Some (h !! o)).
  { rewrite <- Hc in Ho. apply elem_of_dom in Ho as [c Hco]. apply cores_Some_inv in Hco as (n & ? & _). eauto. }
  assert (HD : ∀ x, x ∈ D ↔ dep L (gexec L l ∅) x o).
  { intros x. rewrite <- Hc. by eapply clear_none_D. }
  split; [done|]. intros x n Hx.
  assert (E : h' = clear_cache L None h o) by (unfold clear_cache; by rewrite Hr).
  destruct (clear_facts_ok L h o Hs x n Hx) as (n' & Hn' & Hcf). rewrite <- E in Hn'.
  exists n'. split; [done|]. split; [apply Hcf|]. split; [apply Hcf|].
  rewrite HD. unfold above in Hcf. rewrite <- Hc. split; apply Hcf.
Qed.

(* ------------------------------------------------------------------ *)
(** C07, C08 *)
Lemma gexec_sets (sets : list (oid * name * aval L * oid)) g :
  gexec L ((λ s, OSet L s.1.1.1 s.1.1.2 s.1.2 s.2) <$> sets) g = foldl (gassign L) g sets.
Proof.
  revert g. induction sets as [|[[[o k] v] o'] sets IH]; intros g; [done|].
  change (gexec L ((λ s, OSet L s.1.1.1 s.1.1.2 s.1.2 s.2) <$> sets) (gassign L g (o, k, v, o')) =
    foldl (gassign L) (gassign L g (o, k, v, o')) sets). apply IH.
Qed.
Lemma valid_sets (sets : list (oid * name * aval L * oid)) used g : assigns_ok L g sets →
  valid_from L used ((λ s, OSet L s.1.1.1 s.1.1.2 s.1.2 s.2) <$> sets) g.
Proof.
  revert used g. induction sets as [|[[[o k] v] o'] sets IH]; intros used g Hok; [done|].
  destruct Hok as [H1 H2]. split; [done|]. by apply IH.
Qed.

Definition assigning (a : op L) : Prop :=
  match a with OSet _ _ _ _ _ | OSetKw _ _ _ | OBatch _ _ _ => True | _ => False end.
Lemma separately_ok used a g : assigning a → op_ok L used a g →
  (∀ used', valid_from L used' (separately L a) g) ∧ gexec L (separately L a) g = gstep L a g.
Proof.
  intros Ha Hok. unfold separately. rewrite gexec_sets.
  destruct a as [|o k v o'|o kws|i sets| | | |]; try done.
  - split; [|done]. intros used'. apply valid_sets. apply Hok.
  - split; [|done]. intros used'. apply valid_sets. apply Hok.
Qed.

Lemma tags_of_sets (sets : list (oid * name * aval L * oid)) used :
  tags_of L ((λ s, OSet L s.1.1.1 s.1.1.2 s.1.2 s.2) <$> sets) used = used.
Proof.
  revert used. induction sets as [|s sets IH]; intros used; [done|]. simpl. by rewrite (left_id_L ∅ (∪)).
Qed.

Lemma valid_separately l a : assigning a → valid L (l ++ [a]) → valid L (l ++ separately L a) ∧
  gexec L (l ++ separately L a) ∅ = gexec L (l ++ [a]) ∅.
Proof.
  intros Ha Hv. unfold valid in *. rewrite !valid_app in *. destruct Hv as [Hv [Hok _]].
  destruct (separately_ok _ a _ Ha Hok) as [H1 H2]. split; [by split|].
  rewrite !gexec_app, H2. done.
Qed.

Lemma due_after_sets (sets : list (oid * name * aval L * oid)) : ∀ used st D,
  lib_ok L → ok_state L used st → assigns_ok L (cores (st_h st)) sets →
  ∀ x d, due_after L ((λ s, OSet L s.1.1.1 s.1.1.2 s.1.2 s.2) <$> sets) st D x d ↔
    due_assigns L (cores (st_h st)) sets D x d.
Proof.
  induction sets as [|[[[o k] v] o'] sets IH]; intros used st D Hlib Hos Hok x d; [done|].
  destruct Hok as [H1 H2].
  destruct (step_cores L used (OSet L o k v o') st Hlib Hos H1) as [Hos' Hcs].
  change (gassign L (cores (st_h st)) (o, k, v, o')) with (gstep L (OSet L o k v o') (cores (st_h st))) in H2.
  rewrite <- Hcs in H2.
  pose proof (IH _ _ (due_step L (OSet L o k v o') (cores (st_h st)) (new_events L st (step L (OSet L o k v o') st)) D)
    Hlib Hos' H2 x d) as IH'.
  rewrite Hcs in IH'. exact IH'.
Qed.

(** What remains to be notified is the same, too. *)
Lemma separately_dirty l a : lib_ok L → assigning a → valid L (l ++ [a]) →
  ∀ x, dirty_of L (st_h (final (l ++ [a]))) x = dirty_of L (st_h (final (l ++ separately L a))) x.
Proof.
  intros Hlib Ha Hv x. destruct (valid_separately l a Ha Hv) as [Hv' _].
  pose proof Hv as Hv0. unfold valid in Hv0. rewrite valid_app in Hv0. destruct Hv0 as [Hv1 [Hok _]].
  destruct (exec_ok L l Hlib Hv1) as [Hos Hc].
  apply set_eq; intros d. rewrite !exec_app.
  pose proof Hv' as Hv2. unfold valid in Hv2. rewrite valid_app in Hv2. destruct Hv2 as [_ Hv2].
  rewrite <- Hc in Hv2, Hok.
  rewrite (exec_due L (separately L a) _ _ Hlib Hos Hv2).
  rewrite (exec_due L [a] _ _ Hlib Hos (conj Hok I)).
  assert (Hso : assigns_ok L (cores (st_h (final l))) (assignments L a)).
  { destruct a; try done; simpl in *; tauto. }
  unfold separately. rewrite (due_after_sets _ _ _ _ Hlib Hos Hso).
  destruct a; try done.
Qed.

Definition boxed (c : core L) (k : name) (v : aval L) : bool :=
  match v with ARef _ => false | AVal _ => negb (is_base L (c_cls L c)) && bool_decide (k ∈ c_dt L c) end.
Definition stored (c : core L) (k : name) (v : aval L) (o' : oid) : aval L :=
  if boxed c k v then ARef o' else v.
Definition boxing (c : core L) (k : name) (v : aval L) (o' : oid) (g : graph) : graph :=
  match v with AVal t => if boxed c k v then <[o' := base_core L t]> g else g | ARef _ => g end.
Lemma gassign_form g o k v o' c : g !! o = Some c →
  gassign L g (o, k, v, o') = <[o := write L k (stored c k v o') c]> (boxing c k v o' g).
Proof.
  intros Hc. unfold gassign, stored, boxing, boxed. rewrite Hc. destruct v as [t|p]; [|done].
  destruct (is_base L (c_cls L c)); [done|]. simpl.
  destruct (decide (k ∈ c_dt L c)) as [Hk|Hk].
  - rewrite bool_decide_true by exact Hk. done.
  - rewrite bool_decide_false by exact Hk. done.
Qed.
Lemma boxing_comm c k1 v1 o1 k2 v2 o2 g : o1 ≠ o2 →
  boxing c k2 v2 o2 (boxing c k1 v1 o1 g) = boxing c k1 v1 o1 (boxing c k2 v2 o2 g).
Proof.
  intros Ho. unfold boxing. destruct v1 as [t1|], v2 as [t2|]; try reflexivity.
  destruct (boxed c k1 (AVal t1)), (boxed c k2 (AVal t2)); try reflexivity.
  apply insert_commute. congruence.
Qed.
Lemma boxing_insert c k v o' o d g : o ≠ o' → boxing c k v o' (<[o := d]> g) = <[o := d]> (boxing c k v o' g).
Proof.
  intros Ho. unfold boxing. destruct v as [t|]; [|reflexivity].
  destruct (boxed c k (AVal t)); [|reflexivity]. apply insert_commute. congruence.
Qed.

Lemma gassign_comm g o k1 v1 o1 k2 v2 o2 : is_Some (g !! o) → k1 ≠ k2 → o1 ≠ o2 → o1 ∉ dom g → o2 ∉ dom g →
  gassign L (gassign L g (o, k1, v1, o1)) (o, k2, v2, o2) =
  gassign L (gassign L g (o, k2, v2, o2)) (o, k1, v1, o1).
Proof.
  intros [c Hc] Hk Ho H1 H2.
  assert (Ho1 : o ≠ o1) by (intros <-; apply H1, elem_of_dom; eauto).
  assert (Ho2 : o ≠ o2) by (intros <-; apply H2, elem_of_dom; eauto).
  rewrite (gassign_form g o k1 v1 o1 c Hc), (gassign_form g o k2 v2 o2 c Hc).
  erewrite !gassign_form by apply lookup_insert.
  change (boxing (write L k1 (stored c k1 v1 o1) c)) with (boxing c).
  change (boxing (write L k2 (stored c k2 v2 o2) c)) with (boxing c).
  change (stored (write L k1 (stored c k1 v1 o1) c)) with (stored c).
  change (stored (write L k2 (stored c k2 v2 o2) c)) with (stored c).
  rewrite !boxing_insert by assumption. rewrite !insert_insert, (boxing_comm c k1 v1 o1) by assumption.
  f_equal. unfold write. simpl. f_equal. apply insert_commute. congruence.
Qed.

Lemma gassign_dom g o k v o' : o ∈ dom g → dom (gassign L g (o, k, v, o')) ⊆ {[o']} ∪ dom g.
Proof.
  intros Ho. unfold gassign. destruct (g !! o) as [c|]; [|set_solver].
  destruct v; [|rewrite dom_insert_L; set_solver].
  destruct (is_base _ _); [rewrite dom_insert_L; set_solver|].
  destruct (decide _); rewrite ?dom_insert_L; set_solver.
Qed.
Lemma gassign_keeps g o k v o' : is_Some (g !! o) → is_Some (gassign L g (o, k, v, o') !! o).
Proof.
  intros [c Hc]. unfold gassign. rewrite Hc.
  destruct v; [|rewrite lookup_insert; eauto].
  destruct (is_base _ _); [rewrite lookup_insert; eauto|].
  destruct (decide _); rewrite lookup_insert; eauto.
Qed.

Lemma kws_distinct_cons g o k v o' kws : kws_distinct L g o ((k, v, o') :: kws) →
  kws_distinct L (gassign L g (o, k, v, o')) o kws.
Proof.
  intros (Ho & Hn & Hi & Hd). split_and!.
  - by apply gassign_keeps.
  - by inversion Hn.
  - by inversion Hi.
  - intros x Hx Hx'. apply elem_of_dom in Ho. pose proof (gassign_dom g o k v o' Ho _ Hx') as Hx2.
    clear Hx'. rename Hx2 into Hx'.
    apply elem_of_union in Hx' as [Hx'|Hx'].
    + apply elem_of_singleton in Hx'. inversion_clear Hi as [|? ? Hni]. simpl in Hni. apply Hni. rewrite <- Hx'.
      apply elem_of_list_fmap. by exists x.
    + apply (Hd x); [by right|done].
Qed.

Lemma kws_perm o kws kws' : kws ≡ₚ kws' → ∀ g, kws_distinct L g o kws →
  foldl (gassign L) g (kw_sets L o kws) = foldl (gassign L) g (kw_sets L o kws').
Proof.
  induction 1 as [|[[k v] o'] kws kws' _ IH|[[k2 v2] o2] [[k1 v1] o1] kws|k1 k2 k3 H1 IH1 H2 IH2]; intros g Hd.
  - done.
  - change (foldl (gassign L) (gassign L g (o, k, v, o')) (kw_sets L o kws) =
            foldl (gassign L) (gassign L g (o, k, v, o')) (kw_sets L o kws')).
    apply IH. by apply kws_distinct_cons.
  - change (foldl (gassign L) (gassign L (gassign L g (o, k1, v1, o1)) (o, k2, v2, o2)) (kw_sets L o kws) =
            foldl (gassign L) (gassign L (gassign L g (o, k2, v2, o2)) (o, k1, v1, o1)) (kw_sets L o kws)).
    destruct Hd as (Ho & Hn & Hi & Hd).
    inversion_clear Hn as [|? ? N1 N2]. inversion_clear Hi as [|? ? I1 I2]. simpl in N1, I1.
    f_equal. apply gassign_comm; [exact Ho| | | |].
    + intros ->. apply N1. by left.
    + intros ->. apply I1. by left.
    + apply (Hd (k1, v1, o1)). by left.
    + apply (Hd (k2, v2, o2)). by right; left.
  - rewrite IH1 by done. apply IH2. destruct Hd as (Ho & Hn & Hi & Hd). split_and!; [done|..].
    + by rewrite <- H1.
    + by rewrite <- H1.
    + intros x Hx. apply Hd. by rewrite H1.
Qed.

Lemma hist_kw_perm l o kws kws' : lib_ok L → kws ≡ₚ kws' →
  valid L (l ++ [OSetKw L o kws]) → valid L (l ++ [OSetKw L o kws']) → kws_distinct L (gexec L l ∅) o kws →
  (∀ x w v, reads L (final (l ++ [OSetKw L o kws])) x w v ↔ reads L (final (l ++ [OSetKw L o kws'])) x w v) ∧
  (∀ x w j, not_view L (gexec L (l ++ [OSetKw L o kws]) ∅) w →
     reads_dr L (final (l ++ [OSetKw L o kws])) x w j ↔ reads_dr L (final (l ++ [OSetKw L o kws'])) x w j).
Proof.
  intros Hlib Hp H1 H2 Hd. apply hist_same; try done. rewrite !gexec_app. simpl. by apply kws_perm.
Qed.

(* ------------------------------------------------------------------ *)
(** C09 *)
Lemma hist_notify l a : lib_ok L → is_read L a → valid L (l ++ [a]) →
  let evs := new_events L (final l) (final (l ++ [a])) in
  let due := due_after L l (init L) nothing_due in
  (∀ x ks, EvChanged x ks ∈ evs → ks ≠ ∅ ∧ ∀ d, d ∈ ks ↔ due x d) ∧
  (∀ x ks e1 e2, evs = e2 ++ EvChanged x ks :: e1 → ∀ ks', EvChanged x ks' ∉ e1) ∧
  (∀ e x e1 e2, (e = EvCompute x ∨ ∃ w, e = EvDr x w) → evs = e2 ++ e :: e1 →
     ∀ d, due x d → ∃ ks, EvChanged x ks ∈ e1 ∧ d ∈ ks).
Proof.
  intros Hlib Ha Hv evs due. unfold valid in Hv. rewrite valid_app in Hv. destruct Hv as [Hv _].
  pose proof (exec_due_init L l Hlib Hv) as Hdue. fold due in Hdue.
  assert (Hobs : obs_by L evs (final l) (final (l ++ [a]))).
  { apply obs_events. rewrite exec_app. simpl. destruct a; try done; simpl; [apply read_obs|apply read_dr_obs]. }
  clearbody evs. split; [|split].
  - intros x ks Hk. destruct (ob_changed _ _ _ _ Hobs x ks Hk) as [-> Hne]. split; [done|].
    intros d. apply Hdue.
  - intros x ks e1 e2 E ks' Hk. apply (ob_once _ _ _ _ Hobs x ks e1 e2 E). by exists ks'.
  - intros e x e1 e2 He E d Hd.
    assert (Hb : body_of e = Some x) by (destruct He as [->|[w ->]]; done).
    destruct (ob_before _ _ _ _ Hobs e x e1 e2 Hb E) as [H0|[ks Hk]].
    + exfalso. apply Hdue in Hd. rewrite H0 in Hd. set_solver.
    + exists ks. split; [done|].
      destruct (ob_changed _ _ _ _ Hobs x ks) as [-> _]; [rewrite E; set_solver|]. by apply Hdue.
Qed.

(* ------------------------------------------------------------------ *)
(** C11 *)
Lemma hist_parents l : lib_ok L → valid L l → ∀ p n, st_h (final l) !! p = Some n →
  (∀ q k, (∃ ks, n_par L n !! q = Some ks ∧ k ∈ ks) ↔ edge L (gexec L l ∅) q k p) ∧
  (∀ q, n_par L n !! q ≠ Some ∅).
Proof.
  intros Hlib Hv p n Hn. destruct (exec_ok L l Hlib Hv) as [[[Hs _] _ _] Hc]. rewrite <- Hc. split.
  - intros q k. by apply (si_par _ _ Hs).
  - intros q Hq. by apply (si_ne _ _ Hs p n Hn q _ Hq).
Qed.

(* ------------------------------------------------------------------ *)
(** C12 *)
Definition col_rel g1 g2 : Prop :=
  ∃ X, X ⊆ dom g2 ∧ unreferenced L g2 X ∧ ∀ x, g1 !! x = if decide (x ∈ X) then None else g2 !! x.

Lemma col_rel_assign g1 g2 s : col_rel g1 g2 →
  assign_ok L g1 s.1.1.1 s.1.1.2 s.1.2 s.2 → assign_ok L g2 s.1.1.1 s.1.1.2 s.1.2 s.2 →
  col_rel (gassign L g1 s) (gassign L g2 s).
Proof.
  destruct s as [[[o k] v] o']. simpl.
  intros (X & HX & Hu & Hl) (c & Hc & _ & Hr & Hf) (c2 & Hc2 & _ & _ & Hf2).
  assert (HoX : o ∉ X) by (intros Ho; rewrite Hl, decide_True in Hc by done; done).
  assert (HoX' : o' ∉ X) by (intros Ho; apply Hf2; by apply HX).
  assert (c2 = c) as ->. { rewrite Hl, decide_False in Hc by done. congruence. }
  assert (Hoo' : o ≠ o') by (intros ->; apply Hf2, elem_of_dom; eauto).
  unfold gassign. rewrite Hc, Hc2.
  assert (Hins : ∀ (a : aval L) g1' g2', (∀ x, g1' !! x = if decide (x ∈ X) then None else g2' !! x) →
     X ⊆ dom g2' → unreferenced L g2' X → g2' !! o = Some c →
     (∀ p, a = ARef p → p ∉ X) → col_rel (<[o := write L k a c]> g1') (<[o := write L k a c]> g2')).
  { intros a g1' g2' Hl' HX' Hu' Hc' Ha. exists X. split_and!.
    - rewrite dom_insert_L. set_solver.
    - intros x cx j p Hx Hj Hp. destruct (decide (x = o)) as [->|].
      + rewrite lookup_insert in Hx. injection Hx as <-. simpl in Hj.
        destruct (decide (j = k)) as [->|].
        * rewrite lookup_insert in Hj. injection Hj as ->. exfalso. by apply (Ha p).
        * rewrite lookup_insert_ne in Hj by done. by apply (Hu' o c j p).
      + rewrite lookup_insert_ne in Hx by done. by apply (Hu' x cx j p).
    - intros x. destruct (decide (x = o)) as [->|].
      + rewrite !lookup_insert. by rewrite decide_False.
      + rewrite !lookup_insert_ne by done. apply Hl'. }
  assert (HrX : ∀ p, v = ARef p → p ∉ X).
  { intros p -> Hp. specialize (Hr p eq_refl). apply elem_of_dom in Hr as [? Hr].
    rewrite Hl, decide_True in Hr by done. done. }
  destruct v as [t|q]; [|by apply Hins].
  destruct (is_base _ _); [by apply Hins|].
  destruct (decide (k ∈ _)); [|by apply Hins].
  apply Hins.
  - intros x. destruct (decide (x = o')) as [->|].
    + rewrite !lookup_insert. by rewrite decide_False.
    + rewrite !lookup_insert_ne by done. apply Hl.
  - rewrite dom_insert_L. set_solver.
  - intros x cx j p Hx Hj Hp. destruct (decide (x = o')) as [->|].
    + rewrite lookup_insert in Hx. injection Hx as <-. simpl in Hj.
      apply lookup_singleton_Some in Hj as [_ ?]. done.
    + rewrite lookup_insert_ne in Hx by done. by apply (Hu x cx j p).
  - by rewrite lookup_insert_ne.
  - intros p [= <-]. done.
Qed.

Lemma col_rel_assigns sets : ∀ g1 g2, col_rel g1 g2 → assigns_ok L g1 sets → assigns_ok L g2 sets →
  col_rel (foldl (gassign L) g1 sets) (foldl (gassign L) g2 sets).
Proof.
  induction sets as [|[[[o k] v] o'] sets IH]; intros g1 g2 Hr H1 H2; [done|].
  destruct H1 as [H1 H1'], H2 as [H2 H2']. simpl. apply IH; try done. by apply (col_rel_assign g1 g2 (o, k, v, o')).
Qed.

Lemma col_rel_step used a g1 g2 : col_rel g1 g2 → op_ok L used a g1 → op_ok L used a g2 →
  col_rel (gstep L a g1) (gstep L a g2).
Proof.
  intros Hr H1 H2.
  destruct a as [o c dt tm|o k v o'|o kws|i sets|o|m o w|m o w|Y]; simpl in *; try done.
  - destruct Hr as (X & HX & Hu & Hl). exists X.
    assert (HoX : o ∉ X) by (intros Ho; apply H2; by apply HX).
    split_and!.
    + rewrite dom_insert_L. set_solver.
    + intros x cx j p Hx Hj Hp. destruct (decide (x = o)) as [->|].
      * rewrite lookup_insert in Hx. injection Hx as <-. simpl in Hj. by rewrite lookup_empty in Hj.
      * rewrite lookup_insert_ne in Hx by done. by apply (Hu x cx j p).
    + intros x. destruct (decide (x = o)) as [->|].
      * rewrite !lookup_insert. by rewrite decide_False.
      * rewrite !lookup_insert_ne by done. apply Hl.
  - by apply (col_rel_assign g1 g2 (o, k, v, o')).
  - apply col_rel_assigns; [done|apply H1|apply H2].
  - apply col_rel_assigns; [done|apply H1|apply H2].
  - destruct Hr as (X & HX & Hu & Hl). exists (X ∖ Y).
    assert (Hf : ∀ g x, filter (λ p : oid * core L, p.1 ∉ Y) g !! x = if decide (x ∈ Y) then None else g !! x).
    { intros g x. destruct (decide (x ∈ Y)).
      - apply map_filter_lookup_None. right. intros c _ Hc. by simpl in Hc.
      - destruct (g !! x) as [c|] eqn:E.
        + by apply map_filter_lookup_Some.
        + apply map_filter_lookup_None. by left. }
    split_and!.
    + intros x [Hx HxY]%elem_of_difference. apply elem_of_dom. rewrite Hf, decide_False by done.
      apply elem_of_dom. by apply HX.
    + intros x cx j p Hx Hj Hp. rewrite Hf in Hx. destruct (decide (x ∈ Y)); [done|].
      apply elem_of_difference in Hp as [Hp _]. apply elem_of_difference. split; [|done].
      by apply (Hu x cx j p).
    + intros x. rewrite !Hf, Hl.
      destruct (decide (x ∈ Y)), (decide (x ∈ X)), (decide (x ∈ X ∖ Y)); try done; set_solver.
Qed.

Lemma col_rel_exec l : ∀ used g1 g2, col_rel g1 g2 → valid_from L used l g1 → valid_from L used l g2 →
  col_rel (gexec L l g1) (gexec L l g2).
Proof.
  induction l as [|a l IH]; intros used g1 g2 Hr H1 H2; [done|].
  destruct H1 as [H1 H1'], H2 as [H2 H2']. simpl. apply (IH (op_tags L a ∪ used)); try done. by eapply col_rel_step.
Qed.

Lemma col_rel_init g X : unreferenced L g X → col_rel (gstep L (OCollect L X) g) g.
Proof.
  intros Hu. exists (X ∩ dom g). split_and!.
  - set_solver.
  - intros x c k p Hx Hk Hp. apply elem_of_intersection. split.
    + eapply Hu; [done|done|]. set_solver.
    + apply elem_of_dom. eauto.
  - intros x. simpl. destruct (g !! x) as [c|] eqn:E.
    + destruct (decide (x ∈ X ∩ dom g)) as [Hx|Hx].
      * apply map_filter_lookup_None. right. intros c' _ Hc'. simpl in Hc'. set_solver.
      * apply map_filter_lookup_Some. split; [done|]. simpl. intros HxX. apply Hx.
        apply elem_of_intersection. split; [done|]. apply elem_of_dom. eauto.
    + destruct (decide _); apply map_filter_lookup_None; by left.
Qed.

Lemma col_rel_same g1 g2 o : col_rel g1 g2 → graph_ok L g2 → o ∈ dom g1 →
  (∀ m w, eval L m g2 o w = eval L m g1 o w) ∧
  (∀ m w, not_view L g1 w → drval L m g2 o w = drval L m g1 o w).
Proof.
  intros (X & HX & Hu & Hl) Hok Ho.
  assert (HoX : o ∉ X).
  { intros H. apply elem_of_dom in Ho as [? Ho]. by rewrite Hl, decide_True in Ho. }
  assert (Hdep : ∀ p, dep L g2 o p → p ∉ X).
  { clear Ho. intros p Hp. unfold dep in Hp.
    induction Hp as [|x y z (k & c & Hc & _ & _ & Hk) _ IH]; [done|].
    apply IH. intros Hy. apply HoX. by apply (Hu x c k y). }
  assert (Hsim : ∀ p, dep L g2 o p → gsim L g2 g1 p).
  { intros p Hp. unfold gsim. rewrite Hl, decide_False by auto.
    destruct (g2 !! p); constructor. apply core_sim_refl. }
  assert (Hgok : ∀ p c, dep L g2 o p → g2 !! p = Some c → node_ok L c).
  { intros p c _ Hp. by apply (Hok p). }
  split.
  - intros m w. by apply eval_frame.
  - intros m w Hw. apply drval_frame; try done. destruct Hw as (c & Hc & Hp). exists c. split; [|done].
    rewrite Hl in Hc. by destruct (decide _).
Qed.

Lemma hist_collect l1 X l2 : lib_ok L → valid L (l1 ++ OCollect L X :: l2) → valid L (l1 ++ l2) →
  ∀ o, o ∈ dom (gexec L (l1 ++ OCollect L X :: l2) ∅) →
  (∀ w v, reads L (final (l1 ++ OCollect L X :: l2)) o w v ↔ reads L (final (l1 ++ l2)) o w v) ∧
  (∀ w j, not_view L (gexec L (l1 ++ OCollect L X :: l2) ∅) w →
     reads_dr L (final (l1 ++ OCollect L X :: l2)) o w j ↔ reads_dr L (final (l1 ++ l2)) o w j).
Proof.
  intros Hlib Hv1 Hv2 o Ho.
  assert (Hrel : col_rel (gexec L (l1 ++ OCollect L X :: l2) ∅) (gexec L (l1 ++ l2) ∅)).
  { pose proof Hv1 as H1. pose proof Hv2 as H2. unfold valid in H1, H2. rewrite valid_app in H1, H2.
    destruct H1 as [_ [Hu H1]]. destruct H2 as [_ H2]. rewrite !gexec_app.
    apply (col_rel_exec l2 (tags_of L l1 ∅)); [| |done].
    - by apply col_rel_init.
    - change (op_tags L (OCollect L X)) with (∅ : gset Z) in H1. by rewrite (left_id_L ∅ (∪)) in H1. }
  destruct (exec_ok L _ Hlib Hv2) as [[[Hs _] _ _] Hc].
  destruct (col_rel_same _ _ o Hrel) as [E1 E2]; [rewrite <- Hc; apply Hs|done|]. split.
  - intros w v. rewrite !hist_reads by done. unfold denotes.
    split; intros [m Hm]; exists m; rewrite E1 in *; done.
  - intros w j Hw. rewrite !hist_reads_dr; try done.
    + unfold dr_denotes. split; intros [m Hm]; exists m; rewrite E2 in *; done.
    + destruct Hrel as (Y & _ & _ & Hl). destruct Hw as (c & Hc' & Hp). exists c. split; [|done].
      rewrite Hl in Hc'. by destruct (decide _).
Qed.

(* ------------------------------------------------------------------ *)
(** C18: a failed read caches nothing for the object and nothing wrong anywhere. *)
Lemma hist_failed_read l m o : lib_ok L → valid L l →
  (read L m o QR (final l)).2 = None →
  (∀ x n v, st_h (read L m o QR (final l)).1 !! x = Some n → n_r L n = Some v →
     denotes L (gexec L l ∅) x QR v).
Proof.
  intros Hlib Hv Hr x n v Hx Hn. destruct (exec_ok L l Hlib Hv) as [[Hi _ _] Hc].
  destruct (read_is_good L _ m o QR _ Hi Hc) as ([Hs Hci] & Hk & _).
  pose proof (ci_r _ _ _ Hci x n v Hx) as Hd. rewrite (kept_cores _ _ _ Hk), Hc in Hd. apply Hd; auto.
Qed.

Lemma failed_read_trace l1 a l2 : lib_ok L → is_read L a → valid L (l1 ++ a :: l2) →
  ∀ m o v, (read L m o QR (final (l1 ++ a :: l2))).2 = Some v → denotes L (gexec L (l1 ++ l2) ∅) o QR v.
Proof.
  intros Hlib Ha Hv m o v Hr. destruct (read_between l1 a l2 Ha Hv) as [Hv' E]. rewrite <- E.
  exact (proj1 (hist_read _ Hlib Hv m o QR) v Hr).
Qed.

Lemma separately_same l a : lib_ok L → valid L (l ++ [a]) →
  match a with OSetKw _ _ _ | OBatch _ _ _ => True | _ => False end →
  (∀ o w v, reads L (final (l ++ [a])) o w v ↔ reads L (final (l ++ separately L a)) o w v) ∧
  (∀ o w j, not_view L (gexec L (l ++ [a]) ∅) w →
     reads_dr L (final (l ++ [a])) o w j ↔ reads_dr L (final (l ++ separately L a)) o w j) ∧
  (∀ o d, due_after L (l ++ [a]) (init L) nothing_due o d ↔
          due_after L (l ++ separately L a) (init L) nothing_due o d).
Proof.
  intros Hlib Hv Hm. assert (Ha : assigning a) by (destruct a; first [exact I|exact Hm]).
  destruct (valid_separately l a Ha Hv) as [Hv' E].
  destruct (hist_same _ _ Hlib Hv Hv' (eq_sym E)) as [H1 H2].
  split; [exact H1|]. split; [exact H2|]. intros o d.
  rewrite <- (exec_due_init L _ Hlib Hv o d), <- (exec_due_init L _ Hlib Hv' o d).
  rewrite (separately_dirty l a Hlib Ha Hv o). reflexivity.
Qed.
End thms.
