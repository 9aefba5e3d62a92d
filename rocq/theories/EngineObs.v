(** What reads report to user code: on_changed calls and method calls. *)
From stdpp Require Import gmap strings list relations.
From Verif Require Import EngineModel EngineSpec.

Section obs.
Context (L : lib).
Notation heap := (gmap oid (node L)).
Notation node := (node L).
Notation state := (state L).
Notation st_h := (st_h L).
Notation st_log := (st_log L).
Implicit Types (h : heap) (n : node) (st : state) (evs : list event).

Definition dirty_of h (x : oid) : gset name :=
  match h !! x with Some n => n_dirty L n | None => ∅ end.
Definition has_r h (x : oid) : Prop := ∃ n, h !! x = Some n ∧ is_Some (n_r L n).
Definition has_prop h (x : oid) (k : name) : Prop := ∃ n, h !! x = Some n ∧ is_Some (n_pc L n !! k).

Definition changed_in evs (x : oid) : Prop := ∃ ks, EvChanged x ks ∈ evs.
(** Calls that come after a _call_on_changed of the same object. *)
Definition body_of (e : event) : option oid :=
  match e with EvCompute x => Some x | EvDr x _ => Some x | _ => None end.

Record obs_by evs st st' : Prop := {
  ob_log : st_log st' = evs ++ st_log st;
  ob_dom : dom (st_h st') = dom (st_h st);
  ob_dirty : ∀ x, (¬ changed_in evs x ∧ dirty_of (st_h st') x = dirty_of (st_h st) x) ∨
                  (changed_in evs x ∧ dirty_of (st_h st') x = ∅);
  ob_changed : ∀ x ks, EvChanged x ks ∈ evs → ks = dirty_of (st_h st) x ∧ ks ≠ ∅;
  ob_once : ∀ x ks e1 e2, evs = e2 ++ EvChanged x ks :: e1 → ¬ changed_in e1 x;
  ob_r : ∀ x, EvCompute x ∈ evs → ¬ has_r (st_h st) x;
  ob_prop : ∀ x k, EvProp x k ∈ evs → ¬ has_prop (st_h st) x k;
  ob_keep_r : ∀ x, has_r (st_h st) x → has_r (st_h st') x;
  ob_keep_prop : ∀ x k, has_prop (st_h st) x k → has_prop (st_h st') x k;
  ob_before : ∀ e x e1 e2, body_of e = Some x → evs = e2 ++ e :: e1 →
     dirty_of (st_h st) x = ∅ ∨ changed_in e1 x
}.
Definition obs st st' : Prop := ∃ evs, obs_by evs st st'.

Lemma obs_refl st : obs st st.
Proof.
  exists []. split; try done.
  - intros x. left. split; [|done]. intros [ks Hks]. by apply elem_of_nil in Hks.
  - intros x ks Hks. by apply elem_of_nil in Hks.
  - intros x ks e1 [|] ?; done.
  - intros x Hks. by apply elem_of_nil in Hks.
  - intros x k Hks. by apply elem_of_nil in Hks.
  - intros e x e1 [|] ? ?; done.
Qed.

Lemma app_split {A} (l1 l2 e2 : list A) x e1 :
  l1 ++ l2 = e2 ++ x :: e1 →
  (∃ m, l1 = e2 ++ x :: m ∧ e1 = m ++ l2) ∨ (∃ m, l2 = m ++ x :: e1 ∧ e2 = l1 ++ m).
Proof.
  revert e2. induction l1 as [|a l1 IH]; intros e2 H; simpl in H.
  - right. exists e2. done.
  - destruct e2 as [|b e2]; simpl in H.
    + injection H as -> <-. left. exists l1. done.
    + injection H as -> H. destruct (IH e2 H) as [(m & -> & ->)|(m & -> & ->)].
      * left. by exists m.
      * right. by exists m.
Qed.

Lemma changed_app e1 e2 x : changed_in (e1 ++ e2) x ↔ changed_in e1 x ∨ changed_in e2 x.
Proof.
  unfold changed_in. setoid_rewrite elem_of_app. naive_solver.
Qed.

Lemma obs_trans st1 st2 st3 : obs st1 st2 → obs st2 st3 → obs st1 st3.
Proof.
  intros [ea [A1 A2 A3 A4 A5 A6 A7 A8 A9 A10]] [eb [B1 B2 B3 B4 B5 B6 B7 B8 B9 B10]].
  exists (eb ++ ea). split.
  - by rewrite B1, A1, <- app_assoc.
  - congruence.
  - intros x. rewrite changed_app.
    destruct (A3 x) as [[Ha Ha']|[Ha Ha']], (B3 x) as [[Hb Hb']|[Hb Hb']].
    + left. split; [naive_solver|congruence].
    + right. split; [auto|done].
    + right. split; [auto|congruence].
    + right. split; [auto|done].
  - intros x ks [Hks|Hks]%elem_of_app; [|by apply A4].
    destruct (B4 x ks Hks) as [-> Hne]. split; [|done].
    destruct (A3 x) as [[_ Ha']|[_ Ha']]; [done|]. by rewrite Ha' in Hne.
  - intros x ks e1 e2 [(m & -> & ->)|(m & -> & ->)]%app_split.
    + rewrite changed_app. intros [Hc|Hc]; [by eapply B5|].
      assert (Hin : EvChanged x ks ∈ e2 ++ EvChanged x ks :: m) by (apply elem_of_app; right; by left).
      destruct (B4 x ks Hin) as [-> Hne]. destruct (A3 x) as [[Ha _]|[_ Ha']]; [done|].
      by rewrite Ha' in Hne.
    + by eapply A5.
  - intros x [Hx|Hx]%elem_of_app; [|by apply A6]. intros Hr. eapply B6; [done|]. by apply A8.
  - intros x k [Hx|Hx]%elem_of_app; [|by apply A7]. intros Hr. eapply B7; [done|]. by apply A9.
  - auto.
  - auto.
  - intros e x e1 e2 He [(m & -> & ->)|(m & -> & ->)]%app_split.
    + destruct (B10 e x m e2 He eq_refl) as [Hd|Hc]; [|right; apply changed_app; auto].
      destruct (A3 x) as [[_ Ha']|[Ha _]]; [left; congruence|]. right. apply changed_app. auto.
    + by eapply A10.
Qed.

(** Steps that only store caches. *)
Lemma obs_store f o st :
  (∀ n, n_dirty L (f n) = n_dirty L n) →
  (∀ n, is_Some (n_r L n) → is_Some (n_r L (f n))) →
  (∀ n k, is_Some (n_pc L n !! k) → is_Some (n_pc L (f n) !! k)) →
  obs st (on_heap L (alter f o) st).
Proof.
  intros Hd Hr Hp. destruct (obs_refl st) as [evs [A1 A2 A3 A4 A5 A6 A7 A8 A9 A10]].
  exists evs. split; try done; simpl.
  - by rewrite dom_alter_L.
  - intros x. destruct (A3 x) as [[Ha Ha']|[Ha Ha']].
    + left. split; [done|]. unfold dirty_of. destruct (decide (x = o)) as [->|].
      * rewrite lookup_alter. destruct (st_h st !! o); simpl; [apply Hd|done].
      * by rewrite lookup_alter_ne.
    + right. split; [done|]. unfold dirty_of in *. destruct (decide (x = o)) as [->|].
      * rewrite lookup_alter. destruct (st_h st !! o); simpl; [by rewrite Hd|done].
      * by rewrite lookup_alter_ne.
  - intros x (n & Hn & Hrn). destruct (decide (x = o)) as [->|].
    + exists (f n). rewrite lookup_alter, Hn. eauto.
    + exists n. by rewrite lookup_alter_ne.
  - intros x k (n & Hn & Hrn). destruct (decide (x = o)) as [->|].
    + exists (f n). rewrite lookup_alter, Hn. eauto.
    + exists n. by rewrite lookup_alter_ne.
Qed.

Lemma obs_fire o st : obs st (fire L o st).
Proof.
  unfold fire. destruct (st_h st !! o) as [n|] eqn:Ho; [|apply obs_refl].
  case_decide as Hd; [apply obs_refl|].
  assert (Hdo : dirty_of (st_h st) o = n_dirty L n) by (unfold dirty_of; by rewrite Ho).
  exists [EvChanged o (n_dirty L n)]. split; simpl.
  - done.
  - by rewrite dom_alter_L.
  - intros x. destruct (decide (x = o)) as [->|Hne].
    + right. split; [exists (n_dirty L n); by left|]. unfold dirty_of. by rewrite lookup_alter, Ho.
    + left. split.
      * intros [ks Hks]. apply elem_of_list_singleton in Hks. congruence.
      * unfold dirty_of. by rewrite lookup_alter_ne.
  - intros x ks Hks. apply elem_of_list_singleton in Hks. injection Hks as -> ->. by rewrite Hdo.
  - intros x ks e1 [|? [|]] [= ]; subst. intros [ks' Hks']. by apply elem_of_nil in Hks'.
  - intros x Hx. by apply elem_of_list_singleton in Hx.
  - intros x k Hx. by apply elem_of_list_singleton in Hx.
  - intros x (n' & Hn & Hrn). destruct (decide (x = o)) as [->|].
    + eexists. rewrite lookup_alter, Hn. simpl. eauto.
    + exists n'. by rewrite lookup_alter_ne.
  - intros x k (n' & Hn & Hrn). destruct (decide (x = o)) as [->|].
    + eexists. rewrite lookup_alter, Hn. simpl. eauto.
    + exists n'. by rewrite lookup_alter_ne.
  - intros e x e1 [|? [|]] He [= ]; subst. done.
Qed.

Lemma obs_emit e st :
  (∀ x ks, e ≠ EvChanged x ks) →
  (∀ x, e = EvCompute x → ¬ has_r (st_h st) x) →
  (∀ x k, e = EvProp x k → ¬ has_prop (st_h st) x k) →
  (∀ x, body_of e = Some x → dirty_of (st_h st) x = ∅) →
  obs st (emit L e st).
Proof.
  intros H1 H2 H3 H4. exists [e]. split; simpl; try done.
  - intros x. left. split; [|done]. intros [ks Hks]. apply elem_of_list_singleton in Hks. by apply (H1 x ks).
  - intros x ks Hks. apply elem_of_list_singleton in Hks. by destruct (H1 x ks).
  - intros x ks e1 [|? [|]] [= ]; subst. by destruct (H1 x ks).
  - intros x Hx. apply elem_of_list_singleton in Hx. by apply H2.
  - intros x k Hx. apply elem_of_list_singleton in Hx. by apply H3.
  - intros e' x e1 [|? [|]] He [= ]; subst. left. by apply H4.
Qed.

Lemma fire_clean o st : dirty_of (st_h (fire L o st)) o = ∅.
Proof.
  unfold fire, dirty_of. destruct (st_h st !! o) as [n|] eqn:Ho.
  - case_decide as Hd; [by rewrite Ho|]. simpl. by rewrite lookup_alter, Ho.
  - by rewrite Ho.
Qed.
Lemma obs_clean o st st' : obs st st' → dirty_of (st_h st) o = ∅ → dirty_of (st_h st') o = ∅.
Proof. intros [evs H] Hd. destruct (ob_dirty _ _ _ H o) as [[_ ->]|[_ ?]]; done. Qed.
Lemma fire_r o x st : has_r (st_h (fire L o st)) x ↔ has_r (st_h st) x.
Proof.
  unfold fire, has_r. destruct (st_h st !! o) as [n|] eqn:Ho; [|done].
  case_decide; [done|]. simpl. destruct (decide (x = o)) as [->|].
  - rewrite lookup_alter, Ho. simpl. naive_solver.
  - by rewrite lookup_alter_ne.
Qed.

(* ------------------------------------------------------------------ *)
Lemma resolve_obs (rd : oid → what → state → state * option (Arr L)) o c q st :
  (∀ o w st, obs st (rd o w st).1) → obs st (resolve L rd (raise L) o c q st).1.
Proof.
  intros Hrd. destruct q as [|k|k]; simpl; auto.
  destruct (c_attr L c !! k) as [[t|p]|]; simpl; auto using obs_refl.
Qed.

Lemma run_obs {R} (ask : req → state → state * option (Arr L)) (p : prog (Arr L) R) :
  (∀ q st, obs st (ask q st).1) → ∀ st, obs st (run L ask st p).1.
Proof.
  intros Hask. induction p as [r| |q f IH]; intros st; simpl; [apply obs_refl..|].
  specialize (Hask q st). destruct (ask q st) as [st' [v|]]; simpl in *; [|done].
  eapply obs_trans; [exact Hask|]. apply IH.
Qed.

Lemma read_obs m : ∀ o w st, obs st (read L m o w st).1.
Proof.
  induction m as [|m IH]; intros o w st; [apply obs_refl|]. simpl.
  destruct (st_h st !! o) as [n|] eqn:Ho; [|apply obs_refl].
  destruct w as [|k].
  - destruct (n_r L n) as [v|] eqn:Er; [apply obs_fire|].
    pose proof (obs_fire o st) as H1.
    assert (H2 : obs (fire L o st) (emit L (EvCompute o) (fire L o st))).
    { apply obs_emit; [done| |done|].
      - intros x [= <-]. rewrite fire_r. intros (n' & Hn' & Hr). rewrite Ho in Hn'.
        injection Hn' as <-. rewrite Er in Hr. by destruct Hr.
      - intros x [= <-]. apply fire_clean. }
    pose proof (run_obs (resolve L (read L m) (raise L) o (n_core L n))
      (compute_r L (c_cls L (n_core L n)) (plain L (n_core L n))) (λ q st, resolve_obs _ o _ q st IH)
      (emit L (EvCompute o) (fire L o st))) as H3.
    destruct (run L _ _ _) as [st2 [v|]]; simpl in *.
    + eapply obs_trans; [exact H1|]. eapply obs_trans; [exact H2|].
      eapply obs_trans; [exact H3|]. apply obs_store; try done.
    + eapply obs_trans; [exact H1|]. by eapply obs_trans.
  - destruct (prop_deps L (c_cls L (n_core L n)) !! k) as [ds|]; [|apply obs_refl].
    destruct (n_pc L n !! k) as [v|] eqn:Er; [apply obs_refl|].
    assert (H2 : obs st (emit L (EvProp o k) st)).
    { apply obs_emit; [done|done| |done].
      intros x k' [= <- <-] (n' & Hn' & Hr). rewrite Ho in Hn'.
      injection Hn' as <-. rewrite Er in Hr. by destruct Hr. }
    pose proof (run_obs (resolve L (read L m) (raise L) o (n_core L n))
      (compute_prop L (c_cls L (n_core L n)) k (plain L (n_core L n))) (λ q st, resolve_obs _ o _ q st IH)
      (emit L (EvProp o k) st)) as H3.
    destruct (run L _ _ _) as [st2 [v|]]; simpl in *.
    + eapply obs_trans; [exact H2|].
      eapply obs_trans; [exact H3|]. apply obs_store; try done.
      intros n' k' Hk'. simpl. destruct (decide (k' = k)) as [->|].
      * rewrite lookup_insert. eauto.
      * by rewrite lookup_insert_ne.
    + by eapply obs_trans.
Qed.

Lemma direct_obs m o w st : dirty_of (st_h st) o = ∅ → obs st (direct L m o w st).1.
Proof.
  intros Hd. unfold direct. destruct (st_h st !! o) as [n|]; [|apply obs_refl].
  eapply obs_trans; [|apply run_obs; intros; apply resolve_obs, read_obs].
  apply obs_emit; try done. intros x [= <-]. done.
Qed.

Lemma walk_obs k m o i : ∀ st, dirty_of (st_h st) o = ∅ → obs st (walk L k m o i st).1.
Proof.
  revert i. induction k as [|k IH]; intros i st Hd; [apply obs_refl|]. simpl.
  destruct (st_h st !! i) as [n|]; [|apply obs_refl].
  destruct (is_permute _ _); [|apply obs_refl].
  destruct (c_attr L (n_core L n) !! "a"%string) as [[t|p]|]; [apply obs_refl| |apply obs_refl].
  case_decide; [apply obs_refl|].
  pose proof (direct_obs m o p st Hd) as H1.
  destruct (direct L m o p st) as [st1 [[j|]|]]; simpl in *; [done| |done].
  eapply obs_trans; [exact H1|]. apply IH. by eapply obs_clean.
Qed.

Lemma sliced_obs m o w st : obs st (sliced L m o w st).1.
Proof.
  unfold sliced. pose proof (obs_fire o st) as H0. pose proof (fire_clean o st) as Hc.
  pose proof (direct_obs m o w (fire L o st) Hc) as H1.
  destruct (direct L m o w (fire L o st)) as [st1 [[j|]|]]; simpl in *.
  - by eapply obs_trans.
  - pose proof (walk_obs m m o w st1 (obs_clean _ _ _ H1 Hc)) as H2.
    destruct (walk L m m o w st1) as [st2 [[[inner j]|]|]]; simpl in *.
    + pose proof (direct_obs m w inner (fire L w st2) (fire_clean w st2)) as H3.
      assert (H4 : obs st (fire L w st2)).
      { eapply obs_trans; [exact H0|]. eapply obs_trans; [exact H1|]. eapply obs_trans; [exact H2|].
        apply obs_fire. }
      destruct (direct L m w inner (fire L w st2)) as [st3 [[jw|]|]]; simpl in *; by eapply obs_trans.
    + eapply obs_trans; [exact H0|]. by eapply obs_trans.
    + eapply obs_trans; [exact H0|]. by eapply obs_trans.
  - by eapply obs_trans.
Qed.

Lemma dr_loop_obs rd m o w c ks : (∀ p st, obs st (rd p st).1) → ∀ acc st,
  obs st (dr_loop L rd m o w c ks acc st).1.
Proof.
  intros Hrd. induction ks as [|k ks IH]; intros acc st; simpl; [apply obs_refl|].
  destruct (c_attr L c !! k) as [[t|p]|]; [apply IH| |apply IH].
  case_decide; [apply IH|]. pose proof (Hrd p st) as H1.
  destruct (rd p st) as [st1 [[j2|]|]]; simpl in *; [|by eapply obs_trans|done].
  pose proof (sliced_obs m o p st1) as H2.
  destruct (sliced L m o p st1) as [st2 [[d|]|]]; simpl in *.
  - eapply obs_trans; [exact H1|]. by eapply obs_trans.
  - eapply obs_trans; [exact H1|]. by eapply obs_trans.
  - by eapply obs_trans.
Qed.

Lemma read_dr_obs m w : ∀ o st, obs st (read_dr L m o w st).1.
Proof.
  induction m as [|m IH]; intros o st; [apply obs_refl|]. simpl.
  destruct (st_h st !! o) as [n|] eqn:Ho; [|apply obs_refl].
  pose proof (obs_fire o st) as H0.
  destruct (n_dr L n !! w) as [jo|]; [done|].
  pose proof (sliced_obs m o w (fire L o st)) as H1.
  destruct (sliced L m o w (fire L o st)) as [st2 [d|]]; simpl in *; [|by eapply obs_trans].
  pose proof (dr_loop_obs (λ p, read_dr L m p w) m o w (n_core L n) (c_dt L (n_core L n)) IH (opt_list d) st2) as H2.
  destruct (dr_loop L _ _ _ _ _ _ _ _) as [st3 [l|]]; simpl in *.
  - eapply obs_trans; [exact H0|]. eapply obs_trans; [exact H1|]. eapply obs_trans; [exact H2|].
    case_decide; [apply obs_refl|]. by apply obs_store.
  - eapply obs_trans; [exact H0|]. by eapply obs_trans.
Qed.
End obs.
