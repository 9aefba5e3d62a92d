(** clear_cache_wrt: proofs. *)
From stdpp Require Import gmap strings list relations.
From Verif Require Import EngineModel EngineSpec EngineClear EngineEval EngineSet EngineInv
  EngineOps EngineRead EngineObs EngineHist EngineThms ForgetModel ForgetSpec.

Section thms.
Context (L : lib).
Notation graph := (gmap oid (core L)).
Notation heap := (gmap oid (node L)).
Notation node := (node L).
Notation cores := (cores L).
Notation state := (state L).
Notation st_h := (st_h L).
Implicit Types (g : graph) (c : core L) (h : heap) (n : node) (st : state) (F : gset oid).

(* ------------------------------------------------------------------ *)
(** Maps over the nodes that the bookkeeping does not notice. *)
Record natural (f : node → node) : Prop := {
  na_par : ∀ n, n_par L (f n) = n_par L n;
  na_itr : ∀ n, n_itr L (f n) = n_itr L n;
  na_core : ∀ n, n_core L (f n) = n_core L n;
  na_touch : ∀ ks n, f (touch L ks n) = touch L ks (f n);
  na_clear : ∀ i n, f (clear_node L i n) = clear_node L i (f n);
  na_mcore : ∀ u n, f (map_core L u n) = map_core L u (f n);
  na_mpar : ∀ u n, f (map_par L u n) = map_par L u (f n);
  na_dirty : ∀ k n, f (set_dirty L (n_dirty L n ∪ k) n) = set_dirty L (n_dirty L (f n) ∪ k) (f n);
  na_fresh : ∀ (c : Cls L) dt tm, f (fresh_node L c dt tm) = fresh_node L c dt tm;
  na_forget : ∀ X n, f (forget L X n) = forget L X (f n)
}.

Section natural.
Context (f : node → node) (Hf : natural f).

Lemma nat_alter (u : node → node) o h : (∀ n, f (u n) = u (f n)) →
  alter u o (f <$> h) = f <$> alter u o h.
Proof.
  intros Hu. apply map_eq; intros x. rewrite lookup_fmap. destruct (decide (x = o)) as [->|].
  - rewrite !lookup_alter, lookup_fmap. destruct (h !! o); simpl; [by rewrite Hu|done].
  - rewrite !lookup_alter_ne by done. by rewrite lookup_fmap.
Qed.
Lemma nat_touch ps : ∀ h, touch_parents L ps (f <$> h) = f <$> touch_parents L ps h.
Proof.
  unfold touch_parents. induction ps as [|p ps IH]; intros h; simpl; [done|].
  rewrite nat_alter by apply Hf. apply IH.
Qed.
Lemma nat_loop itr fuel : ∀ h todo (seen : gset oid) cnt,
  clear_loop L fuel itr (f <$> h) todo seen cnt =
  (λ r : heap * nat, (f <$> r.1 : heap, r.2)) <$> clear_loop L fuel itr h todo seen cnt.
Proof.
  induction fuel as [|fuel IH]; intros h todo seen cnt; destruct todo as [|nx todo]; simpl; try done.
  rewrite lookup_fmap. destruct (h !! nx) as [nd|]; simpl; [|apply IH].
  rewrite (na_itr f Hf), (na_par f Hf). repeat case_decide; [apply IH..|].
  rewrite nat_alter by apply Hf. rewrite nat_touch. apply IH.
Qed.
Lemma nat_links h : n_links L (f <$> h) = n_links L h.
Proof.
  unfold n_links. rewrite dom_fmap_L.
  induction (elements (dom h)) as [|x l IH]; simpl; [done|]. rewrite IH. f_equal.
  unfold n_parents. rewrite lookup_fmap. destruct (h !! x); simpl; [by rewrite (na_par f Hf)|done].
Qed.
Lemma nat_clear itr h o : clear_cache L itr (f <$> h) o = f <$> clear_cache L itr h o.
Proof.
  unfold clear_cache, clear_run. rewrite nat_links, nat_loop.
  destruct (clear_loop L _ itr h [o] ∅ 0) as [[h' cnt]|]; done.
Qed.
Lemma nat_set itr h o k v : set_attr L itr (f <$> h) o k v = f <$> set_attr L itr h o k v.
Proof.
  unfold set_attr. rewrite lookup_fmap. destruct (h !! o) as [nd|]; simpl; [|done].
  rewrite (na_core f Hf). destruct (is_base L (c_cls L (n_core L nd))).
  - rewrite <- nat_alter by apply Hf. f_equal. case_decide; [|done].
    rewrite <- nat_clear. f_equal. apply nat_alter. intros n. apply (na_dirty f Hf).
  - rewrite <- nat_alter by apply Hf. f_equal.
    set (h1 := if decide (k ∈ c_dt L (n_core L nd)) then _ else (f <$> h)).
    set (h2 := if decide (k ∈ c_dt L (n_core L nd)) then _ else h).
    assert (E : h1 = f <$> h2).
    { subst h1 h2. destruct (decide (k ∈ c_dt L (n_core L nd))); [|done].
      assert (E0 : ∀ u x h, alter (map_par L u) x (f <$> h) = f <$> alter (map_par L u) x h).
      { intros u x h0. apply nat_alter. apply Hf. }
      destruct (c_attr L (n_core L nd) !! k) as [[|old]|], v as [|p]; rewrite ?E0; done. }
    rewrite E. clearbody h2. clear E h1. case_decide; [|done]. rewrite <- nat_clear. f_equal. apply nat_alter.
    intros n. apply (na_touch f Hf).
Qed.
Lemma nat_base h o t : new_base L (f <$> h) o t = f <$> new_base L h o t.
Proof. unfold new_base. rewrite <- nat_set. f_equal. by rewrite fmap_insert, (na_fresh f Hf). Qed.
Lemma nat_assign itr h o k v o' : assign L itr (f <$> h) o k v o' = f <$> assign L itr h o k v o'.
Proof.
  unfold assign. rewrite lookup_fmap. destruct (h !! o) as [nd|]; simpl; [|apply nat_set].
  destruct v as [t|p]; [|apply nat_set]. rewrite (na_core f Hf).
  destruct (is_base L (c_cls L (n_core L nd))); [apply nat_set|]. case_decide; [|apply nat_set].
  rewrite nat_base. apply nat_set.
Qed.
Lemma nat_kw o kws : ∀ h, set_kw L (f <$> h) o kws = f <$> set_kw L h o kws.
Proof.
  induction kws as [|[[k v] o'] kws IH]; intros h; simpl; [done|].
  destruct kws; [apply nat_assign|]. rewrite nat_assign. apply IH.
Qed.
Lemma nat_batch i sets : ∀ h, batch L i sets (f <$> h) = f <$> batch L i sets h.
Proof.
  unfold batch. induction sets as [|[[[o k] v] o'] sets IH]; intros h; simpl; [done|].
  rewrite nat_assign. apply IH.
Qed.
Lemma nat_collect X h : collect L X (f <$> h) = f <$> collect L X h.
Proof.
  unfold collect. apply map_eq; intros x. rewrite !lookup_fmap, !map_filter_lookup, !lookup_fmap.
  destruct (h !! x); simpl; [|done]. repeat case_option_guard; try done. simpl. by rewrite (na_forget f Hf).
Qed.

(** Calls other than reads. *)
Definition is_rd (a : op L) : bool :=
  match a with ORead _ _ _ _ => true | OReadDr _ _ _ _ => true | _ => false end.
Lemma nat_step a st lg : is_rd a = false → st_h (step L a (St L (f <$> st_h st) lg)) = f <$> st_h (step L a st).
Proof.
  destruct a; simpl; intros Ha; try done.
  - by rewrite fmap_insert, (na_fresh f Hf).
  - apply nat_assign.
  - apply nat_kw.
  - apply nat_batch.
  - apply nat_clear.
  - apply nat_collect.
Qed.
End natural.

(* ------------------------------------------------------------------ *)
(** Removing the derivatives with respect to the variables F. *)
Definition mask F : node → node := map_dr L (filter (λ p, p.1 ∉ F)).
Lemma mask_natural F : natural (mask F).
Proof.
  split; try done.
  intros X n. unfold mask, forget, map_dr, map_par. simpl. f_equal.
  apply map_eq; intros x. apply option_eq; intros j. rewrite !map_filter_lookup_Some. simpl. tauto.
Qed.
Lemma mask_cores F h : cores (mask F <$> h) = cores h.
Proof. unfold EngineModel.cores. rewrite <- map_fmap_compose. by apply map_fmap_ext. Qed.
Lemma mask_dr F n w : n_dr L (mask F n) !! w = if decide (w ∈ F) then None else n_dr L n !! w.
Proof.
  unfold mask. simpl. case_decide.
  - apply map_filter_lookup_None. right. intros j _ Hn. by apply Hn.
  - destruct (n_dr L n !! w) as [j|] eqn:E.
    + by apply map_filter_lookup_Some.
    + apply map_filter_lookup_None. by left.
Qed.

Definition dr_known h : Prop := ∀ x nx w j, h !! x = Some nx → n_dr L nx !! w = Some j → is_Some (h !! w).
Definition minv F h : Prop := inv L (mask F <$> h) ∧ dr_known h.

Lemma minv_rinv F h : minv F h → rinv L (λ w, w ∉ F) h.
Proof.
  intros [[Hs Hc] Hd]. 
  assert (E : cores (mask F <$> h) = cores h) by apply mask_cores.
  split.
  - split; [|done]. rewrite <- E. apply Hs.
  - destruct Hc as [C1 C2 C3 C4]. rewrite E in *. split.
    + intros x nx v Hx Hv. apply (C1 x (mask F nx)); [|by intros []|done]. by rewrite lookup_fmap, Hx.
    + intros x nx k v Hx Hv. apply (C2 x (mask F nx)); [by rewrite lookup_fmap, Hx|done|by intros ????[]].
    + intros x nx k v Hx Hv. apply (C3 x (mask F nx) k v); [by rewrite lookup_fmap, Hx|done].
    + intros x nx w j Hx Hv Hw Hnv. apply (C4 x (mask F nx)); [by rewrite lookup_fmap, Hx|by intros []| |done].
      rewrite mask_dr. by rewrite decide_False.
Qed.

Lemma rinv_minv F h h' : minv F h → kept L h h' → rinv L (λ w, w ∉ F) h' → minv F h'.
Proof.
  intros [Hi _] Hk [[Hok Hd] Hc]. split; [|done].
  apply (rinv_inv L all (mask F <$> h)); [done|done| |].
  - intros x. rewrite !lookup_fmap. specialize (Hk x).
    inversion Hk as [n n' Hn E1 E2|E1 E2]; simpl; constructor.
    destruct Hn as [A1 A2 A3 A4 A5 A6 A7]. split; try done.
    intros w. rewrite !mask_dr. case_decide; [done|]. apply A7.
  - split; [split|].
    + by rewrite mask_cores.
    + intros x nx w j Hx. rewrite lookup_fmap in Hx |- *.
      destruct (h' !! x) as [n|] eqn:Ex; [|done]. injection Hx as <-. rewrite mask_dr. case_decide; [done|].
      intros Hj. destruct (Hd x n w j Ex Hj) as [n' Hn']. rewrite Hn'. simpl. eauto.
    + destruct Hc as [C1 C2 C3 C4]. split; rewrite ?mask_cores.
      * intros x nx v Hx. rewrite lookup_fmap in Hx. destruct (h' !! x) as [n|] eqn:Ex; [|done].
        injection Hx as <-. by apply (C1 x n v).
      * intros x nx k v Hx. rewrite lookup_fmap in Hx. destruct (h' !! x) as [n|] eqn:Ex; [|done].
        injection Hx as <-. by apply (C2 x n k v).
      * intros x nx k v Hx. rewrite lookup_fmap in Hx. destruct (h' !! x) as [n|] eqn:Ex; [|done].
        injection Hx as <-. by apply (C3 x n k v).
      * intros x nx w j Hx. rewrite lookup_fmap in Hx. destruct (h' !! x) as [n|] eqn:Ex; [|done].
        injection Hx as <-. rewrite mask_dr. case_decide; [done|]. intros Hj _. by apply (C4 x n).
Qed.

(* ------------------------------------------------------------------ *)
(** Calls other than reads do not add entries to the caches. *)
Definition fewer h h' : Prop :=
  (∀ x, is_Some (h !! x) → is_Some (h' !! x)) ∧
  ∀ x n' w j, h' !! x = Some n' → n_dr L n' !! w = Some j →
    ∃ n, h !! x = Some n ∧ n_dr L n !! w = Some j.
Lemma fewer_refl h : fewer h h.
Proof. split; [done|]. eauto. Qed.
Lemma fewer_trans h1 h2 h3 : fewer h1 h2 → fewer h2 h3 → fewer h1 h3.
Proof.
  intros [A1 A2] [B1 B2]. split; [auto|]. intros x n' w j Hx Hj.
  destruct (B2 x n' w j Hx Hj) as (n & Hn & Hj'). by apply (A2 x n).
Qed.
Lemma fewer_alter (u : node → node) o h :
  (∀ n w j, n_dr L (u n) !! w = Some j → n_dr L n !! w = Some j) → fewer h (alter u o h).
Proof.
  intros Hu. split.
  - intros x [n Hn]. destruct (decide (x = o)) as [->|].
    + rewrite lookup_alter, Hn. simpl. eauto.
    + rewrite lookup_alter_ne by done. eauto.
  - intros x n' w j Hx Hj. destruct (decide (x = o)) as [->|].
    + rewrite lookup_alter in Hx. destruct (h !! o) as [n|]; [|done]. injection Hx as <-. eauto.
    + rewrite lookup_alter_ne in Hx by done. eauto.
Qed.
Lemma fewer_touch ps : ∀ h, fewer h (touch_parents L ps h).
Proof.
  unfold touch_parents. induction ps as [|p ps IH]; intros h; simpl; [apply fewer_refl|].
  eapply fewer_trans; [|apply IH]. by apply fewer_alter.
Qed.
Lemma fewer_loop itr fuel : ∀ h todo (seen : gset oid) cnt r,
  clear_loop L fuel itr h todo seen cnt = Some r → fewer h r.1.
Proof.
  induction fuel as [|fuel IH]; intros h todo seen cnt r; destruct todo as [|nx todo]; simpl; try done.
  - intros [= <-]. apply fewer_refl.
  - intros [= <-]. apply fewer_refl.
  - destruct (h !! nx) as [nd|]; [|apply IH]. repeat case_decide; [apply IH..|].
    intros Hr. eapply fewer_trans; [|by eapply IH]. eapply fewer_trans; [|apply fewer_touch].
    apply fewer_alter. intros n w j. simpl. by rewrite lookup_empty.
Qed.
Lemma fewer_clear itr h o : fewer h (clear_cache L itr h o).
Proof.
  unfold clear_cache, clear_run. destruct (clear_loop L _ itr h [o] ∅ 0) as [[h' cnt]|] eqn:E.
  - by apply fewer_loop in E.
  - apply fewer_refl.
Qed.
Lemma fewer_set itr h o k v : fewer h (set_attr L itr h o k v).
Proof.
  unfold set_attr. destruct (h !! o) as [nd|]; [|apply fewer_refl].
  destruct (is_base L (c_cls L (n_core L nd))).
  - eapply fewer_trans; [|by apply fewer_alter]. case_decide; [|apply fewer_refl].
    eapply fewer_trans; [|apply fewer_clear]. by apply fewer_alter.
  - eapply fewer_trans; [|by apply fewer_alter].
    set (h1 := if decide (k ∈ c_dt L (n_core L nd)) then _ else h).
    assert (H1 : fewer h h1).
    { subst h1. case_decide; [|apply fewer_refl].
      destruct (c_attr L (n_core L nd) !! k) as [[|old]|], v as [|p];
        repeat first [apply fewer_refl | (eapply fewer_trans; [|by apply fewer_alter])]. }
    eapply fewer_trans; [exact H1|]. case_decide; [|apply fewer_refl].
    eapply fewer_trans; [|apply fewer_clear]. by apply fewer_alter.
Qed.
Lemma fewer_fresh h o (c : Cls L) dt tm : fewer h (<[o := fresh_node L c dt tm]> h).
Proof.
  split.
  - intros x [n Hn]. destruct (decide (x = o)) as [->|].
    + rewrite lookup_insert. eauto.
    + rewrite lookup_insert_ne by done. eauto.
  - intros x n' w j Hx Hj. apply lookup_insert_Some in Hx as [[<- <-]|[_ Hx]]; [|eauto].
    simpl in Hj. by rewrite lookup_empty in Hj.
Qed.
Lemma fewer_assign itr h o k v o' : fewer h (assign L itr h o k v o').
Proof.
  unfold assign. destruct (h !! o) as [nd|]; [|apply fewer_set].
  destruct v as [t|p]; [|apply fewer_set].
  destruct (is_base L (c_cls L (n_core L nd))); [apply fewer_set|]. case_decide; [|apply fewer_set].
  eapply fewer_trans; [|apply fewer_set]. unfold new_base. eapply fewer_trans; [|apply fewer_set].
  apply fewer_fresh.
Qed.
Lemma fewer_kw o kws : ∀ h, fewer h (set_kw L h o kws).
Proof.
  induction kws as [|[[k v] o'] kws IH]; intros h; simpl; [apply fewer_refl|].
  destruct kws; [apply fewer_assign|]. eapply fewer_trans; [apply fewer_assign|apply IH].
Qed.
Lemma fewer_batch i sets : ∀ h, fewer h (batch L i sets h).
Proof.
  unfold batch. induction sets as [|[[[o k] v] o'] sets IH]; intros h; simpl; [apply fewer_refl|].
  eapply fewer_trans; [apply fewer_assign|apply IH].
Qed.
Lemma fewer_known h h' : fewer h h' → dr_known h → dr_known h'.
Proof.
  intros [A1 A2] H x n' w j Hx Hj. destruct (A2 x n' w j Hx Hj) as (n & Hn & Hj'). eauto.
Qed.
Lemma collect_known X h : dr_known h → dr_known (collect L X h).
Proof.
  intros H x n' w j. unfold collect. rewrite lookup_fmap, map_filter_lookup.
  destruct (h !! x) as [n|] eqn:Ex; simpl; [|done]. case_option_guard; simpl; [|done]. intros [= <-].
  simpl. intros [Hj Hw]%map_filter_lookup_Some. destruct (H x n w j Ex Hj) as [n2 Hn2].
  rewrite lookup_fmap, map_filter_lookup, Hn2. simpl. simpl in Hw. rewrite option_guard_True by done. simpl. eauto.
Qed.
Lemma step_known a st : is_rd a = false → dr_known (st_h st) → dr_known (st_h (step L a st)).
Proof.
  destruct a; simpl; intros Ha; try done.
  - apply fewer_known, fewer_fresh.
  - apply fewer_known, fewer_assign.
  - apply fewer_known, fewer_kw.
  - apply fewer_known, fewer_batch.
  - apply fewer_known, fewer_clear.
  - apply collect_known.
Qed.

(* ------------------------------------------------------------------ *)
(** What clear_cache_wrt changes. *)
Record lost_node (i : option Z) (w : oid) n n' : Prop := {
  ln_core : n_core L n' = n_core L n;
  ln_par : n_par L n' = n_par L n;
  ln_r : n_r L n' = n_r L n;
  ln_itr : n_itr L n' = n_itr L n ∨ n_itr L n' = i;
  ln_dirty : n_dirty L n ⊆ n_dirty L n';
  ln_dr : ∀ v, v ≠ w → n_dr L n' !! v = n_dr L n !! v;
  ln_drw : n_dr L n' !! w = n_dr L n !! w ∨ (is_Some (n_dr L n !! w) ∧ n_dr L n' !! w = Some None);
  ln_pc : ∀ k v, n_pc L n' !! k = Some v → n_pc L n !! k = Some v
}.
Definition lost i w h h' : Prop := ∀ x, option_Forall2 (lost_node i w) (h !! x) (h' !! x).

Lemma lost_node_refl i w n : lost_node i w n n.
Proof. split; auto. Qed.
Lemma lost_node_trans i w n1 n2 n3 : lost_node i w n1 n2 → lost_node i w n2 n3 → lost_node i w n1 n3.
Proof.
  intros [A1 A2 A3 A4 A5 A6 A7 A8] [B1 B2 B3 B4 B5 B6 B7 B8]. split; try congruence.
  - destruct B4 as [-> |]; auto.
  - by etrans.
  - intros v Hv. rewrite B6 by done. by apply A6.
  - destruct B7 as [-> |[Hs ->]]; [done|]. right. split; [|done]. destruct A7 as [<- |[? _]]; done.
  - auto.
Qed.
Lemma lost_refl i w h : lost i w h h.
Proof. intros x. destruct (h !! x); constructor. apply lost_node_refl. Qed.
Lemma lost_trans i w h1 h2 h3 : lost i w h1 h2 → lost i w h2 h3 → lost i w h1 h3.
Proof.
  intros H1 H2 x. specialize (H1 x). specialize (H2 x).
  inversion H1 as [a b Hab E1 E2|E1 E2].
  - rewrite <- E2 in H2. inversion H2 as [? d Hbd E3 E4|]. constructor. by eapply lost_node_trans.
  - rewrite <- E2 in H2. inversion H2. constructor.
Qed.
Lemma lost_alter i w (u : node → node) o h : (∀ n, lost_node i w n (u n)) → lost i w h (alter u o h).
Proof.
  intros Hu x. destruct (decide (x = o)) as [->|].
  - rewrite lookup_alter. destruct (h !! o); constructor. apply Hu.
  - rewrite lookup_alter_ne by done. apply lost_refl.
Qed.
Lemma lost_Some i w h h' x n : lost i w h h' → h !! x = Some n → ∃ n', h' !! x = Some n' ∧ lost_node i w n n'.
Proof. intros H E. specialize (H x). rewrite E in H. inversion H; subst; eauto. Qed.
Lemma lost_Some_inv i w h h' x n' : lost i w h h' → h' !! x = Some n' → ∃ n, h !! x = Some n ∧ lost_node i w n n'.
Proof. intros H E. specialize (H x). rewrite E in H. inversion H; subst; eauto. Qed.
Lemma lost_cores i w h h' : lost i w h h' → cores h' = cores h.
Proof.
  intros H. apply map_eq; intros x. rewrite !cores_lookup. specialize (H x).
  inversion H as [a b [Hc] E1 E2|E1 E2]; simpl; [by rewrite Hc|done].
Qed.

Lemma unset_lost i w n : lost_node i w n (map_dr L (unset L w) n).
Proof.
  split; simpl; auto.
  - intros v Hv. unfold unset. destruct (n_dr L n !! w); [|done]. by rewrite lookup_insert_ne.
  - unfold unset. destruct (n_dr L n !! w) eqn:E; [|by left]. right. rewrite lookup_insert. split; [|done]. eauto.
Qed.
Lemma touch_lost i w ks n : lost_node i w n (touch L ks n).
Proof.
  split; simpl; auto.
  - set_solver.
  - intros k v [? _]%map_filter_lookup_Some. done.
Qed.
Lemma itr_lost i w n : lost_node i w n (set_itr L i n).
Proof. split; simpl; auto. Qed.

Lemma parents_lost i w (rec : oid → heap → heap * bool) ps :
  (∀ p h, lost i w h (rec p h).1) → ∀ h, lost i w h (forget_parents L rec w ps h).1.
Proof.
  intros Hr. induction ps as [|[p ks] ps IH]; intros h; simpl; [apply lost_refl|].
  destruct (if has_dr L h p w then rec p h else (h, true)) as [h1 ok] eqn:E.
  assert (H1 : lost i w h h1).
  { destruct (has_dr L h p w); [|injection E as <- _; apply lost_refl].
    specialize (Hr p h). by rewrite E in Hr. }
  destruct ok; [|done]. eapply lost_trans; [exact H1|]. eapply lost_trans; [|apply IH].
  apply lost_alter, touch_lost.
Qed.
Lemma clear_wrt_lost m : ∀ i w o h, lost i w h (clear_wrt L m i w o h).1.
Proof.
  induction m as [|m IH]; intros i w o h; simpl; [apply lost_refl|].
  destruct (h !! o) as [nd|]; [|apply lost_refl].
  destruct (if decide (i = None ∨ i ≠ n_itr L nd) then _ else _) as [h2 ok] eqn:E.
  assert (H2 : lost i w h h2).
  { eapply lost_trans; [apply (lost_alter i w (map_dr L (unset L w)) o), unset_lost|]. case_decide.
    - replace h2 with (h2, ok).1 by done. rewrite <- E. apply parents_lost. auto.
    - injection E as <- _. apply lost_refl. }
  destruct ok; simpl; [|done]. eapply lost_trans; [exact H2|]. apply lost_alter, itr_lost.
Qed.

(** The entry of the object itself. *)
Lemma lost_gone i w h h' x n : lost i w h h' → h !! x = Some n → n_dr L n !! w = Some None →
  ∃ n', h' !! x = Some n' ∧ n_dr L n' !! w = Some None.
Proof.
  intros H Hx Hj. destruct (lost_Some _ _ _ _ _ _ H Hx) as (n' & Hn' & Hl). exists n'. split; [done|].
  destruct (ln_drw _ _ _ _ Hl) as [-> |[_ ->]]; done.
Qed.
Lemma clear_wrt_gone m i w o h n j : h !! o = Some n → n_dr L n !! w = Some j →
  ∃ n', (clear_wrt L (S m) i w o h).1 !! o = Some n' ∧ n_dr L n' !! w = Some None.
Proof.
  intros Ho Hj. simpl. rewrite Ho. set (h1 := alter (map_dr L (unset L w)) o h).
  destruct (if decide (i = None ∨ i ≠ n_itr L n) then _ else _) as [h2 ok] eqn:E.
  assert (H2 : lost i w h1 h2).
  { case_decide.
    - replace h2 with (h2, ok).1 by done. rewrite <- E. apply parents_lost. intros. apply clear_wrt_lost.
    - injection E as <- _. apply lost_refl. }
  assert (H3 : lost i w h1 (if ok then (alter (set_itr L i) o h2, true) else (h2, false)).1).
  { destruct ok; [|done]. eapply lost_trans; [exact H2|]. apply lost_alter, itr_lost. }
  apply (lost_gone i w h1 _ o (map_dr L (unset L w) n)); [done| |].
  - unfold h1. by rewrite lookup_alter, Ho.
  - simpl. unfold unset. rewrite Hj. by rewrite lookup_insert.
Qed.

(* ------------------------------------------------------------------ *)
(** Masked by the variables forgotten, the state is one of those of EngineHist.v. *)
Definition mst F st : state := St L (mask F <$> st_h st) [].
Record xok F (used : gset Z) st : Prop := {
  xo_state : ok_state L used (mst F st);
  xo_known : dr_known (st_h st)
}.

Lemma ok_log used h lg lg' : ok_state L used (St L h lg) → ok_state L used (St L h lg').
Proof. intros [A B C]. by split. Qed.

Lemma xok_minv F used st : xok F used st → minv F (st_h st).
Proof. intros [[A B C] D]. by split. Qed.

Lemma mask_tags F used h : tags_in L used (mask F <$> h) ↔ tags_in L used h.
Proof.
  split; intros H x n Hx.
  - apply (H x (mask F n)). by rewrite lookup_fmap, Hx.
  - rewrite lookup_fmap in Hx. destruct (h !! x) as [m|] eqn:E; [|done]. injection Hx as <-. by apply (H x m).
Qed.

Lemma xok_step F used a st : lib_ok L → xok F used st → op_ok L used a (cores (st_h st)) →
  xok F (op_tags L a ∪ used) (step L a st) ∧ cores (st_h (step L a st)) = gstep L a (cores (st_h st)).
Proof.
  intros Hlib Hx Hok. destruct (is_rd a) eqn:Ea.
  - pose proof (minv_rinv F _ (xok_minv _ _ _ Hx)) as Hr. destruct Hx as [Hs Hd].
    assert (Hk : kept L (st_h st) (st_h (step L a st)) ∧ rinv L (λ w, w ∉ F) (st_h (step L a st))).
    { destruct a as [| | | | |m o w|m o w|]; try done; simpl in *.
      - by destruct (read_rgood L (λ w, w ∉ F) (cores (st_h st)) m o w st Hr eq_refl) as (? & ? & _).
      - destruct (read_dr_rgood L (λ w, w ∉ F) (cores (st_h st)) m w o st Hr eq_refl) as (? & ? & _);
          [by apply elem_of_dom|done]. }
    destruct Hk as [Hk Hr']. destruct Hs as [Hi Ht H9]. simpl in *.
    destruct (rinv_minv F _ _ (conj Hi Hd) Hk Hr') as [Hi' Hd']. split.
    + split; [|done]. split; simpl; [done| |].
      * rewrite mask_tags in *. apply tags_in_mono with used; [set_solver|]. by eapply kept_tags.
      * destruct a; try done; simpl; set_solver.
    + rewrite (kept_cores L _ _ Hk). by destruct a.
  - destruct Hx as [Hs Hd]. destruct (step_cores L used a (mst F st) Hlib Hs) as [Hs' Hc'].
    { simpl. by rewrite mask_cores. }
    unfold mst in Hs', Hc'. simpl in Hc'. rewrite (nat_step _ (mask_natural F)), !mask_cores in Hc' by done.
    split; [|done]. split; [|by apply step_known].
    pose proof (nat_step _ (mask_natural F) a st [] Ea) as E.
    destruct (step L a (St L (mask F <$> st_h st) [])) as [h' lg']. simpl in E. subst h'. by eapply ok_log.
Qed.

Lemma lost_minv F i w h h' : w ∈ F → lost i w h h' → minv F h → minv F h'.
Proof.
  intros Hw Hl [[Hs Hc] Hd]. pose proof (lost_cores _ _ _ _ Hl) as E.
  assert (HE : cores (mask F <$> h') = cores (mask F <$> h)) by (by rewrite !mask_cores).
  assert (Hb : ∀ x n', (mask F <$> h') !! x = Some n' → ∃ n1 n, n' = mask F n1 ∧
    (mask F <$> h) !! x = Some (mask F n) ∧ lost_node i w n n1).
  { intros x n'. rewrite !lookup_fmap. destruct (h' !! x) as [n1|] eqn:Ex; [|done]. intros [= <-].
    destruct (lost_Some_inv _ _ _ _ _ _ Hl Ex) as (n & Hn & Hln). exists n1, n. rewrite Hn. done. }
  assert (Hdom : ∀ x, is_Some ((mask F <$> h) !! x) → is_Some ((mask F <$> h') !! x)).
  { intros x. rewrite !lookup_fmap. intros [n1 Hn1]. destruct (h !! x) as [n|] eqn:Ex; [|done].
    destruct (lost_Some _ _ _ _ _ _ Hl Ex) as (n' & -> & _). simpl. eauto. }
  assert (Hdr : ∀ n n1 v, lost_node i w n n1 → n_dr L (mask F n1) !! v = n_dr L (mask F n) !! v).
  { intros n n1 v Hln. rewrite !mask_dr. case_decide; [done|]. apply (ln_dr _ _ _ _ Hln). by intros ->. }
  split; [split|].
  - destruct Hs as [S1 S2 S3 S4 S5]. split; rewrite ?HE.
    + done.
    + intros x nx p d Hx. destruct (Hb x nx Hx) as (n1 & n & -> & Hn & Hln).
      rewrite <- (S2 x _ p d Hn). simpl. by rewrite (ln_par _ _ _ _ Hln).
    + intros x nx Hx. destruct (Hb x nx Hx) as (n1 & n & -> & Hn & Hln). simpl.
      rewrite (ln_par _ _ _ _ Hln). by apply (S3 x _ Hn).
    + intros p d x He. apply Hdom. by eapply S4.
    + intros x nx v j Hx Hj. destruct (Hb x nx Hx) as (n1 & n & -> & Hn & Hln).
      rewrite (Hdr n n1) in Hj by done. apply Hdom. by eapply S5.
  - destruct Hc as [C1 C2 C3 C4]. split; rewrite ?HE.
    + intros x nx v Hx HE' Hr. destruct (Hb x nx Hx) as (n1 & n & -> & Hn & Hln).
      apply (C1 x _ v Hn HE'). simpl in *. by rewrite <- (ln_r _ _ _ _ Hln).
    + intros x nx k v Hx Hp Hdd. destruct (Hb x nx Hx) as (n1 & n & -> & Hn & Hln).
      apply (C2 x _ k v Hn); simpl in *; [by apply (ln_pc _ _ _ _ Hln)|]. by rewrite <- (ln_core _ _ _ _ Hln).
    + intros x nx k v Hx Hp. destruct (Hb x nx Hx) as (n1 & n & -> & Hn & Hln). simpl in *.
      rewrite (ln_core _ _ _ _ Hln). apply (C3 x _ k v Hn). simpl. by apply (ln_pc _ _ _ _ Hln).
    + intros x nx v j Hx HE' Hj. destruct (Hb x nx Hx) as (n1 & n & -> & Hn & Hln).
      rewrite (Hdr n n1) in Hj by done. by apply (C4 x _ v j Hn).
  - intros x n' v j Hx Hj. destruct (lost_Some_inv _ _ _ _ _ _ Hl Hx) as (n & Hn & Hln).
    assert (Hv : is_Some (n_dr L n !! v)).
    { destruct (decide (v = w)) as [->|Hne].
      - destruct (ln_drw _ _ _ _ Hln) as [<- |[? _]]; eauto.
      - rewrite <- (ln_dr _ _ _ _ Hln) by done. eauto. }
    destruct Hv as [j' Hj']. destruct (Hd x n v j' Hn Hj') as [nv Hnv].
    destruct (lost_Some _ _ _ _ _ _ Hl Hnv) as (nv' & ? & _). eauto.
Qed.
Lemma lost_tags used w h h' : lost None w h h' → tags_in L used h → tags_in L used h'.
Proof.
  intros Hl Ht x n' Hx. destruct (lost_Some_inv _ _ _ _ _ _ Hl Hx) as (n & Hn & Hln).
  destruct (ln_itr _ _ _ _ Hln) as [-> | ->]; [by apply (Ht x)|by left].
Qed.

Lemma xok_exec F l : ∀ used st, lib_ok L → forgotten L l ⊆ F → xok F used st →
  valid_from L used (plain_ops L l) (cores (st_h st)) →
  (∃ used', xok F used' (xexec L l st)) ∧ cores (st_h (xexec L l st)) = gexec L (plain_ops L l) (cores (st_h st)).
Proof.
  induction l as [|a l IH]; intros used st Hlib HF Hx Hv; [split; [by exists used|done]|].
  destruct a as [a|m o w]; simpl in *.
  - destruct Hv as [Ha Hv]. destruct (xok_step F used a st Hlib Hx Ha) as [Hx' Hc].
    rewrite <- Hc in Hv |- *. by eapply IH.
  - assert (Hw : w ∈ F) by (unfold forgotten in HF; simpl in HF; set_solver).
    pose proof (clear_wrt_lost m None w o (st_h st)) as Hl.
    destruct Hx as [[Hi Ht H9] Hd]. destruct (lost_minv F _ _ _ _ Hw Hl (conj Hi Hd)) as [Hi' Hd'].
    pose proof (lost_cores _ _ _ _ Hl) as E.
    destruct (IH used (on_heap L (λ h, (clear_wrt L m None w o h).1) st) Hlib) as [A B].
    + unfold forgotten in *. simpl in HF. set_solver.
    + split; [split|]; simpl; [done| |done|done]. apply mask_tags.
      apply (mask_tags F used (st_h st)) in Ht. by eapply lost_tags.
    + simpl. by rewrite E.
    + split; [done|]. rewrite B. simpl. by rewrite E.
Qed.

Lemma xok_init F : xok F ∅ (init L).
Proof.
  split.
  - destruct (ok_init L) as [A B C]. unfold mst. simpl in *. by rewrite fmap_empty.
  - intros x n w j Hx. done.
Qed.

Notation xfinal l := (xexec L l (init L)).
Lemma xhist l : lib_ok L → valid L (plain_ops L l) →
  rinv L (λ w, w ∉ forgotten L l) (st_h (xfinal l)) ∧ cores (st_h (xfinal l)) = gexec L (plain_ops L l) ∅.
Proof.
  intros Hlib Hv. assert (E : cores (st_h (init L)) = ∅) by apply fmap_empty.
  destruct (xok_exec (forgotten L l) l ∅ (init L) Hlib) as [[used' Hx] Hc];
    [done|apply xok_init|by rewrite E|]. split.
  - by eapply minv_rinv, xok_minv.
  - by rewrite E in Hc.
Qed.

Lemma forget_reads l o q v : lib_ok L → valid L (plain_ops L l) →
  reads L (xfinal l) o q v ↔ denotes L (gexec L (plain_ops L l) ∅) o q v.
Proof. intros Hlib Hv. destruct (xhist l Hlib Hv) as [Hr <-]. by eapply rinv_reads. Qed.
Lemma forget_reads_dr l o w j : lib_ok L → valid L (plain_ops L l) → w ∉ forgotten L l →
  not_view L (gexec L (plain_ops L l) ∅) w →
  reads_dr L (xfinal l) o w j ↔ dr_denotes L (gexec L (plain_ops L l) ∅) o w j.
Proof. intros Hlib Hv Hw. destruct (xhist l Hlib Hv) as [Hr <-]. intros Hn. by apply (rinv_reads_dr L (λ w, w ∉ forgotten L l)). Qed.

Lemma forget_none (k m : nat) i o w st nd j : st_h st !! o = Some nd → n_dr L nd !! w = Some j →
  (read_dr L (S m) o w (on_heap L (λ h, (clear_wrt L (S k) i w o h).1) st)).2 = Some None.
Proof.
  intros Ho Hj. destruct (clear_wrt_gone k i w o _ _ _ Ho Hj) as (n' & Hn' & Hj').
  simpl in *. unfold on_heap. cbn [EngineModel.st_h]. rewrite Hn', Hj'. done.
Qed.

(* ------------------------------------------------------------------ *)
(** The recursion ends on graphs without cycles. *)
Definition ranked (rank : oid → nat) (M : nat) h : Prop :=
  ∀ x n, h !! x = Some n → rank x ≤ M ∧
    ∀ p ks, n_par L n !! p = Some ks → is_Some (h !! p) ∧ rank x < rank p.
Lemma lost_ranked rank M i w h h' : lost i w h h' → ranked rank M h → ranked rank M h'.
Proof.
  intros Hl Hr x n' Hx. destruct (lost_Some_inv _ _ _ _ _ _ Hl Hx) as (n & Hn & Hln).
  destruct (Hr x n Hn) as [H1 H2]. split; [done|]. rewrite (ln_par _ _ _ _ Hln). intros p ks Hp.
  destruct (H2 p ks Hp) as [[np Hnp] Hlt]. split; [|done].
  destruct (lost_Some _ _ _ _ _ _ Hl Hnp) as (np' & ? & _). eauto.
Qed.
Lemma parents_ends rank M i w (rec : oid → heap → heap * bool) r ps :
  (∀ p h, lost i w h (rec p h).1) →
  (∀ p h, ranked rank M h → is_Some (h !! p) → r < rank p → (rec p h).2 = true) →
  (∀ p ks, (p, ks) ∈ ps → r < rank p) →
  ∀ h, ranked rank M h → (forget_parents L rec w ps h).2 = true.
Proof.
  intros Hl Hrec. induction ps as [|[p ks] ps IH]; intros Hps h Hr; simpl; [done|].
  destruct (if has_dr L h p w then rec p h else (h, true)) as [h1 ok] eqn:E.
  assert (H1 : lost i w h h1 ∧ ok = true).
  { destruct (has_dr L h p w) eqn:Ed; [|injection E as <- <-; split; [apply lost_refl|done]].
    split; [specialize (Hl p h); by rewrite E in Hl|].
    replace ok with (h1, ok).2 by done. rewrite <- E. apply Hrec; [done| |].
    - unfold has_dr in Ed. destruct (h !! p); [eauto|done].
    - apply (Hps p ks). left. }
  destruct H1 as [H1 ->]. apply IH.
  - intros p' ks' Hp. apply (Hps p' ks'). by right.
  - eapply lost_ranked; [|exact Hr]. eapply lost_trans; [exact H1|]. apply lost_alter, touch_lost.
Qed.
Lemma clear_wrt_ends rank M i w m : ∀ o h, ranked rank M h → is_Some (h !! o) → M < rank o + m →
  (clear_wrt L m i w o h).2 = true.
Proof.
  induction m as [|m IH]; intros o h Hr [nd Ho] Hm.
  { destruct (Hr o nd Ho). lia. }
  simpl. rewrite Ho. destruct (if decide (i = None ∨ i ≠ n_itr L nd) then _ else _) as [h2 ok] eqn:E.
  assert (ok = true); [|by subst].
  case_decide; [|by injection E as _ <-]. replace ok with (h2, ok).2 by done. rewrite <- E.
  apply (parents_ends rank M i w _ (rank o)).
  - intros. apply clear_wrt_lost.
  - intros p h' Hr' Hp Hlt. apply IH; [done..|lia].
  - intros p ks Hp%elem_of_map_to_list. by apply (proj2 (Hr o nd Ho) p ks).
  - eapply lost_ranked; [|exact Hr]. apply (lost_alter i w), unset_lost.
Qed.

Lemma bound_rank (rank : oid → nat) (l : list oid) : ∃ M, ∀ x, x ∈ l → rank x ≤ M.
Proof.
  induction l as [|x l [M IH]]; [exists 0; intros x Hx; by apply elem_of_nil in Hx|].
  exists (max (rank x) M). intros y [->|Hy]%elem_of_cons; [lia|]. specialize (IH y Hy). lia.
Qed.
Lemma forget_ends l o w i : lib_ok L → valid L (plain_ops L l) → acyclic L (gexec L (plain_ops L l) ∅) →
  o ∈ dom (gexec L (plain_ops L l) ∅) →
  ∃ N : nat, ∀ m, N ≤ m → (clear_wrt L m i w o (st_h (xfinal l))).2 = true.
Proof.
  intros Hlib Hv. assert (E : cores (st_h (init L)) = ∅) by apply fmap_empty.
  destruct (xok_exec (forgotten L l) l ∅ (init L) Hlib) as [[used' Hx] Hc];
    [done|apply xok_init|by rewrite E|].
  rewrite E in Hc. rewrite <- Hc. set (h := st_h (xfinal l)) in *. intros [rank Hrank] Ho.
  destruct Hx as [[[Hs _] _ _] _]. simpl in Hs. fold h in Hs.
  destruct (bound_rank rank (elements (dom h))) as [M HM].
  assert (Hr : ranked rank M h).
  { intros x n Hxn. split; [apply HM; apply elem_of_elements, elem_of_dom; eauto|].
    intros p ks Hp.
    assert (Hmx : (mask (forgotten L l) <$> h) !! x = Some (mask (forgotten L l) n)) by (by rewrite lookup_fmap, Hxn).
    assert (Hin : ∃ d, edge L (cores h) p d x).
    { destruct (set_choose_L ks) as [d Hd].
      - intros ->. by apply (si_ne _ _ Hs _ _ Hmx p ∅).
      - exists d. rewrite <- (mask_cores (forgotten L l) h). apply (si_par _ _ Hs _ _ p d Hmx). exists ks. done. }
    destruct Hin as [d Hd]. split; [|apply Hrank; by exists d].
    destruct (edge_dom _ _ _ _ _ Hd) as [c' Hc']. apply cores_Some_inv in Hc' as (np & ? & _). eauto. }
  exists (S M). intros m Hm. apply (clear_wrt_ends rank M); [done| |lia].
  apply elem_of_dom in Ho as [c' Hc']. apply cores_Some_inv in Hc' as (np & ? & _). eauto.
Qed.

End thms.
