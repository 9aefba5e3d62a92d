(** Reads return what recomputation from scratch gives, and keep the invariant. *)
From stdpp Require Import gmap strings list relations.
From Verif Require Import EngineModel EngineSpec EngineClear EngineEval EngineSet EngineInv EngineOps.

Section read.
Context (L : lib).
Notation graph := (gmap oid (core L)).
Notation heap := (gmap oid (node L)).
Notation node := (node L).
Notation cores := (cores L).
Notation state := (state L).
Notation st_h := (st_h L).
Notation st_log := (st_log L).
Implicit Types (g : graph) (c : core L) (h : heap) (n : node) (st : state).

(** What reads may do to an object: fill caches, empty the dirty set. *)
Record kept_node n n' : Prop := {
  kn_core : n_core L n' = n_core L n;
  kn_par : n_par L n' = n_par L n;
  kn_itr : n_itr L n' = n_itr L n;
  kn_dirty : n_dirty L n' ⊆ n_dirty L n;
  kn_r : ∀ v, n_r L n = Some v → n_r L n' = Some v;
  kn_pc : ∀ k v, n_pc L n !! k = Some v → n_pc L n' !! k = Some v;
  kn_dr : ∀ w, is_Some (n_dr L n !! w) → is_Some (n_dr L n' !! w)
}.
Definition kept h h' : Prop := ∀ x, option_Forall2 kept_node (h !! x) (h' !! x).

Lemma kept_node_refl n : kept_node n n.
Proof. by split. Qed.
Lemma kept_node_trans n1 n2 n3 : kept_node n1 n2 → kept_node n2 n3 → kept_node n1 n3.
Proof.
  intros [A1 A2 A3 A4 A5 A6 A7] [B1 B2 B3 B4 B5 B6 B7].
  split; try congruence; [by etrans|auto..].
Qed.
Lemma kept_refl h : kept h h.
Proof. intros x. destruct (h !! x); constructor. apply kept_node_refl. Qed.
Lemma kept_trans h1 h2 h3 : kept h1 h2 → kept h2 h3 → kept h1 h3.
Proof.
  intros H1 H2 x. specialize (H1 x). specialize (H2 x).
  inversion H1 as [a b Hab E1 E2|E1 E2].
  - rewrite <- E2 in H2. inversion H2 as [? d Hbd E3 E4|]. constructor. by eapply kept_node_trans.
  - rewrite <- E2 in H2. inversion H2. constructor.
Qed.
Lemma kept_Some h h' x n : kept h h' → h !! x = Some n → ∃ n', h' !! x = Some n' ∧ kept_node n n'.
Proof. intros H E. specialize (H x). rewrite E in H. inversion H; subst; eauto. Qed.
Lemma kept_Some_inv h h' x n' : kept h h' → h' !! x = Some n' → ∃ n, h !! x = Some n ∧ kept_node n n'.
Proof. intros H E. specialize (H x). rewrite E in H. inversion H; subst; eauto. Qed.
Lemma kept_cores h h' : kept h h' → cores h' = cores h.
Proof.
  intros H. apply map_eq; intros x. rewrite !cores_lookup. specialize (H x).
  inversion H as [a b [Hc] E1 E2|E1 E2]; simpl; [by rewrite Hc|done].
Qed.
Lemma kept_alter f o h : (∀ n, h !! o = Some n → kept_node n (f n)) → kept h (alter f o h).
Proof.
  intros Hf x. destruct (decide (x = o)) as [->|].
  - rewrite lookup_alter. destruct (h !! o); constructor. by apply Hf.
  - rewrite lookup_alter_ne by done. apply kept_refl.
Qed.

(** The part of the invariant that reading needs: nothing about parent links, and
    derivatives only for the objects [Wok]. *)
Context (Wok : oid → Prop).
Record rcinv h : Prop := {
  rc_r : ∀ x nx v, h !! x = Some nx → n_r L nx = Some v → denotes L (cores h) x QR v;
  rc_pc : ∀ x nx k v, h !! x = Some nx → n_pc L nx !! k = Some v → denotes L (cores h) x (QProp k) v;
  rc_pcd : ∀ x nx k v, h !! x = Some nx → n_pc L nx !! k = Some v →
    is_Some (prop_deps L (c_cls L (n_core L nx)) !! k);
  rc_dr : ∀ x nx w j, h !! x = Some nx → n_dr L nx !! w = Some j → Wok w →
    not_view L (cores h) w → dr_denotes L (cores h) x w j
}.
Definition rinv h : Prop :=
  (graph_ok L (cores h) ∧
   ∀ x nx w j, h !! x = Some nx → n_dr L nx !! w = Some j → is_Some (h !! w)) ∧
  rcinv h.

Lemma inv_rinv h : inv L h → rinv h.
Proof.
  intros [Hs [H1 H2 H3 H4]]. split; [split; [apply Hs|apply (si_dr _ _ Hs)]|]. split; naive_solver.
Qed.
Lemma rinv_inv h h' : (∀ w, Wok w) → inv L h → kept h h' → rinv h' → inv L h'.
Proof.
  intros HB [Hs Hc] Hk [[Hok Hdr] Hc']. pose proof (kept_cores _ _ Hk) as E.
  split; [|destruct Hc'; split; naive_solver]. split; [done| | | |done].
  - intros x nx p d Hx. destruct (kept_Some_inv _ _ _ _ Hk Hx) as (n & Hn & Hkn).
    rewrite (kn_par _ _ Hkn), E. by apply (si_par _ _ Hs).
  - intros x nx Hx. destruct (kept_Some_inv _ _ _ _ Hk Hx) as (n & Hn & Hkn).
    rewrite (kn_par _ _ Hkn). by apply (si_ne _ _ Hs x).
  - intros p d x. rewrite E. intros He. destruct (si_closed _ _ Hs p d x He) as [n Hn].
    destruct (kept_Some _ _ _ _ Hk Hn) as (n' & Hn' & _). eauto.
Qed.

(** Changing the caches of one object, keeping them right. *)
Lemma rinv_alter f o h :
  (∀ n, h !! o = Some n → kept_node n (f n)) →
  (∀ n, h !! o = Some n →
    (∀ v, n_r L (f n) = Some v → n_r L n = Some v ∨ denotes L (cores h) o QR v) ∧
    (∀ k v, n_pc L (f n) !! k = Some v → n_pc L n !! k = Some v ∨
       (denotes L (cores h) o (QProp k) v ∧ is_Some (prop_deps L (c_cls L (n_core L n)) !! k))) ∧
    (∀ w j, n_dr L (f n) !! w = Some j → n_dr L n !! w = Some j ∨
       (is_Some (h !! w) ∧ (Wok w → not_view L (cores h) w → dr_denotes L (cores h) o w j)))) →
  rinv h → rinv (alter f o h).
Proof.
  intros Hk Hn [Hs Hc].
  pose proof (kept_alter f o h Hk) as Hkp. pose proof (kept_cores _ _ Hkp) as Hcs.
  assert (Hdom : ∀ x, is_Some (h !! x) → is_Some (alter f o h !! x)).
  { intros x [n Hx]. destruct (kept_Some _ _ _ _ Hkp Hx) as (? & ? & _). eauto. }
  assert (Hba : ∀ x n', alter f o h !! x = Some n' → ∃ n, h !! x = Some n ∧ kept_node n n' ∧
     (x = o ∧ n' = f n ∨ n' = n)).
  { intros x n' Hx. destruct (decide (x = o)) as [->|].
    - rewrite lookup_alter in Hx. destruct (h !! o) as [n|]; [|done]. simpl in Hx.
      injection Hx as <-. exists n. auto.
    - rewrite lookup_alter_ne in Hx by done. exists n'. split_and!; auto using kept_node_refl. }
  split.
  - split; rewrite ?Hcs; [apply Hs|].
    intros x nx w j Hx Hj. apply Hdom. destruct Hs as [_ Hs].
    destruct (Hba x nx Hx) as (n & Hx' & Hkn & [[-> ->]| ->]); [|by apply (Hs x n w j)].
    destruct (Hn n Hx') as (_ & _ & H3). destruct (H3 w j Hj) as [?|[? _]]; [|done].
    by apply (Hs o n w j).
  - destruct Hc as [H1 H2 H2' H3]. split; rewrite ?Hcs.
    + intros x nx v Hx Hv. destruct (Hba x nx Hx) as (n & Hx' & Hkn & [[-> ->]| ->]).
      * destruct (Hn n Hx') as (G & _). destruct (G v Hv); [by apply (H1 o n v)|done].
      * by apply (H1 x n v).
    + intros x nx k v Hx Hv. destruct (Hba x nx Hx) as (n & Hx' & Hkn & [[-> ->]| ->]).
      * destruct (Hn n Hx') as (_ & G & _). destruct (G k v Hv) as [?|[? _]]; [|done].
        by apply (H2 o n k v).
      * by apply (H2 x n k v).
    + intros x nx k v Hx Hv. destruct (Hba x nx Hx) as (n & Hx' & Hkn & [[-> ->]| ->]).
      * rewrite (kn_core _ _ Hkn). destruct (Hn n Hx') as (_ & G & _).
        destruct (G k v Hv) as [?|[_ ?]]; [|done]. by apply (H2' o n k v).
      * by apply (H2' x n k v).
    + intros x nx w j Hx Hj HB Hw. destruct (Hba x nx Hx) as (n & Hx' & Hkn & [[-> ->]| ->]).
      * destruct (Hn n Hx') as (_ & _ & G). destruct (G w j Hj) as [?|[_ ?]]; [|auto].
        by apply (H3 o n w j).
      * by apply (H3 x n w j).
Qed.

Lemma fire_kept o st : kept (st_h st) (st_h (fire L o st)).
Proof.
  unfold fire. destruct (st_h st !! o) as [n|]; [|apply kept_refl].
  case_decide; [apply kept_refl|]. simpl. apply kept_alter. intros n' _. split; try done; set_solver.
Qed.
Lemma fire_rinv o st : rinv (st_h st) → rinv (st_h (fire L o st)).
Proof.
  unfold fire. destruct (st_h st !! o) as [n|]; [|done].
  case_decide; [done|]. simpl. apply rinv_alter.
  - intros n' _. split; try done; set_solver.
  - intros n' Hn'. split_and!; auto.
Qed.

(* ------------------------------------------------------------------ *)
(** [good V m st out P]: running from [st] gave [out]; the invariant still holds,
    only caches changed and, if [V], the result is the one of [P] (some stack
    bound for a result obtained, and a result is obtained if [P m] has one). *)
Definition good {A} (V : Prop) (m : nat) st (out : state * option A) (P : nat → option A) : Prop :=
  rinv (st_h out.1) ∧ kept (st_h st) (st_h out.1) ∧
  (V → (∀ v, out.2 = Some v → ∃ m', P m' = Some v) ∧ (∀ v, P m = Some v → out.2 = Some v)).

Definition mono {A} (P : nat → option A) : Prop :=
  ∀ m1 m2 v, m1 ≤ m2 → P m1 = Some v → P m2 = Some v.

Lemma good_ret {A} V m st (v : A) : rinv (st_h st) → good V m st (st, Some v) (λ _, Some v).
Proof. intros Hi. split_and!; [done|apply kept_refl|]. intros _. simpl. eauto. Qed.

Lemma good_fail {A} V m st : rinv (st_h st) → good V m st (st, @None A) (λ _, None).
Proof. intros Hi. split_and!; [done|apply kept_refl|]. intros _. simpl. split; eauto. Qed.

Lemma good_from {A} V m st st' (out : state * option A) P :
  kept (st_h st) (st_h st') → good V m st' out P → good V m st out P.
Proof. intros Hk (Hi & Hk' & HV). split_and!; [done|by eapply kept_trans|done]. Qed.

Lemma good_ext {A} V m st (out : state * option A) P Q :
  (∀ k, P k = Q k) → good V m st out P → good V m st out Q.
Proof.
  intros E (Hi & Hk & HV). split_and!; [done..|]. intros Hv. destruct (HV Hv) as [H1 H2].
  split.
  - intros v Hv'. destruct (H1 v Hv') as [k Hk']. exists k. by rewrite <- E.
  - intros v Hv'. apply H2. by rewrite E.
Qed.

Lemma good_bind {A B} V m st (out : state * option A) (P : nat → option A)
    (k : state → A → state * option B) (Q : nat → A → option B) :
  mono P → (∀ v, mono (λ j, Q j v)) →
  good V m st out P →
  (∀ st' v, rinv (st_h st') → kept (st_h st) (st_h st') → good V m st' (k st' v) (λ j, Q j v)) →
  good V m st (match out with (st', Some v) => k st' v | (st', None) => (st', None) end)
    (λ j, match P j with Some v => Q j v | None => None end).
Proof.
  intros HP HQ (Hi & Hkp & HV) Hk. destruct out as [st' [v|]]; simpl in *.
  - destruct (Hk st' v Hi Hkp) as (Hi' & Hkp' & HV'). split_and!; [done|by eapply kept_trans|].
    intros Hv. destruct (HV Hv) as [H1 H2]. destruct (HV' Hv) as [G1 G2]. split.
    + intros b Hb. destruct (H1 v eq_refl) as [m1 Hm1]. destruct (G1 b Hb) as [m2 Hm2].
      exists (m1 `max` m2). rewrite (HP m1 (m1 `max` m2) v) by (done || lia).
      apply (HQ v m2); [lia|done].
    + intros b Hb. destruct (P m) as [v'|] eqn:E; [|done]. specialize (H2 _ eq_refl).
      injection H2 as ->. by apply G2.
  - split_and!; [done..|]. intros Hv. destruct (HV Hv) as [H1 H2]. split; [done|].
    intros b Hb. destruct (P m) as [v'|] eqn:E; [|done]. by specialize (H2 _ eq_refl).
Qed.

Lemma answer_eval_mono g o c q : mono (λ j, answer L (eval L j g) o c q).
Proof.
  intros m1 m2 v Hle. apply answer_mono. intros p w u. by apply eval_mono.
Qed.
Lemma runp_eval_mono {R} g o c (p : prog (Arr L) R) : mono (λ j, runp L (answer L (eval L j g) o c) p).
Proof.
  intros m1 m2 v Hle. apply runp_mono. intros q u. by apply answer_eval_mono.
Qed.

(** Reads of objects, assumed good, make programs good. *)
Definition read_good V g m (rd : oid → what → state → state * option (Arr L)) : Prop :=
  ∀ o w st, rinv (st_h st) → cores (st_h st) = g →
    good V m st (rd o w st) (λ j, eval L j g o w).

Lemma resolve_good V g m rd o c q st :
  read_good V g m rd → rinv (st_h st) → cores (st_h st) = g →
  good V m st (resolve L rd (raise L) o c q st) (λ j, answer L (eval L j g) o c q).
Proof.
  intros Hrd Hi Hg. destruct q as [|k|k]; simpl; [by apply Hrd| |by apply Hrd].
  destruct (c_attr L c !! k) as [[t|p]|]; [by apply good_fail|by apply Hrd|by apply good_fail].
Qed.

Lemma run_good {R} V g m rd o c (p : prog (Arr L) R) : ∀ st,
  read_good V g m rd → rinv (st_h st) → cores (st_h st) = g →
  good V m st (run L (resolve L rd (raise L) o c) st p) (λ j, runp L (answer L (eval L j g) o c) p).
Proof.
  intros st Hrd. revert st. induction p as [r| |q f IH]; intros st Hi Hg; simpl.
  - by apply good_ret.
  - by apply good_fail.
  - apply (good_bind V m st _ (λ j, answer L (eval L j g) o c q) _
      (λ j v, runp L (answer L (eval L j g) o c) (f v))).
    + apply answer_eval_mono.
    + intros v. apply runp_eval_mono.
    + by apply resolve_good.
    + intros st' v Hi' Hk. apply IH; [done|]. rewrite (kept_cores _ _ Hk). done.
Qed.

Lemma good_weaken {A} (V V' : Prop) m st (out : state * option A) P :
  (V' → V) → good V m st out P → good V' m st out P.
Proof. intros H (Hi & Hk & HV). split_and!; auto. Qed.

(** Storing a result that is known to be right. *)
Lemma good_store {A} V m st st2 (v : A) (f : node → node) o P :
  good V m st (st2, Some v) P →
  (∀ n, st_h st2 !! o = Some n → kept_node n (f n)) →
  rinv (alter f o (st_h st2)) →
  good V m st (on_heap L (alter f o) st2, Some v) P.
Proof.
  intros (Hi & Hk & HV) Hf Hi'. simpl in *. split_and!; [done| |done].
  simpl. eapply kept_trans; [exact Hk|]. by apply kept_alter.
Qed.

Lemma eval_good_S V m st (out : state * option (Arr L)) g o w c (p : prog (Arr L) (Arr L)) :
  (∀ j, eval L (S j) g o w = runp L (answer L (eval L j g) o c) p) →
  good V m st out (λ j, runp L (answer L (eval L j g) o c) p) →
  good V (S m) st out (λ j, eval L j g o w).
Proof.
  intros He (Hi & Hk & HV). split_and!; [done..|]. intros Hv. destruct (HV Hv) as [H1 H2]. split.
  - intros v Hv'. destruct (H1 v Hv') as [j Hj]. exists (S j). by rewrite He.
  - intros v Hv'. rewrite He in Hv'. by apply H2.
Qed.

Lemma read_rgood g m : read_good True g m (read L m).
Proof.
  induction m as [|m IH]; intros o w st Hi Hg.
  { simpl. split_and!; [done|apply kept_refl|]. intros _. done. }
  simpl. destruct (st_h st !! o) as [n|] eqn:Ho.
  2:{ split_and!; [done|apply kept_refl|]. intros _. simpl. split; [done|].
      rewrite <- Hg, cores_lookup, Ho. done. }
  assert (Hgo : g !! o = Some (n_core L n)) by (rewrite <- Hg; by apply cores_Some).
  destruct w as [|k].
  - set (st1 := fire L o st).
    assert (Hi1 : rinv (st_h st1)) by (by apply fire_rinv).
    assert (Hk1 : kept (st_h st) (st_h st1)) by apply fire_kept.
    destruct (n_r L n) as [v|] eqn:Er.
    + destruct Hi as [_ Hc]. destruct (rc_r _ Hc o n v Ho) as [m' Hm']; [done|].
      rewrite Hg in Hm'. split_and!; [done..|]. intros _. split.
      * intros v' [= <-]. eauto.
      * intros v' Hv'. simpl. f_equal. apply (denotes_det L g o QR); [by exists m'|].
        by exists (S m).
    + assert (Hr : good True (S m) st (run L (resolve L (read L m) (raise L) o (n_core L n))
         (emit L (EvCompute o) st1) (compute_r L (c_cls L (n_core L n)) (plain L (n_core L n))))
         (λ j, eval L j g o QR)).
      { eapply eval_good_S; [intros j; simpl; by rewrite Hgo|].
        eapply good_from; [exact Hk1|].
        apply (run_good True g m (read L m) o (n_core L n) _ (emit L (EvCompute o) st1) IH); [done|].
        simpl. by rewrite (kept_cores _ _ Hk1). }
      destruct (run L _ _ _) as [st2 [v|]]; [|done].
      pose proof Hr as (Hi2 & Hk2 & HV2). simpl in Hi2, Hk2.
      assert (Hv : denotes L (cores (st_h st2)) o QR v).
      { rewrite (kept_cores _ _ Hk2), Hg. by apply HV2. }
      assert (Hkn : ∀ n', st_h st2 !! o = Some n' → kept_node n' (set_r L (Some v) n')).
      { intros n' Hn'. split; try done. intros u Hu. simpl. f_equal.
        destruct Hi2 as [_ Hc2]. apply (denotes_det L (cores (st_h st2)) o QR); [done|].
        by apply (rc_r _ Hc2 o n' u). }
      apply good_store; [done..|]. apply rinv_alter; [done| |done].
      intros n' Hn'. split_and!; simpl; auto. intros u [= <-]. by right.
  - destruct (prop_deps L (c_cls L (n_core L n)) !! k) as [ds|] eqn:Ed.
    2:{ split_and!; [done|apply kept_refl|]. intros _. split; [done|]. intros v. simpl. by rewrite Hgo, Ed. }
    destruct (n_pc L n !! k) as [v|] eqn:Er.
    + destruct Hi as [Hs Hc]. destruct (rc_pc _ Hc o n k v Ho) as [m' Hm']; [done|].
      rewrite Hg in Hm'. split_and!; [done|apply kept_refl|]. intros _. split.
      * intros v' [= <-]. eauto.
      * intros v' Hv'. simpl. f_equal. apply (denotes_det L g o (QProp k)); [by exists m'|].
        by exists (S m).
    + assert (Hr : good True (S m) st (run L (resolve L (read L m) (raise L) o (n_core L n))
         (emit L (EvProp o k) st) (compute_prop L (c_cls L (n_core L n)) k (plain L (n_core L n))))
         (λ j, eval L j g o (QProp k))).
      { eapply eval_good_S; [intros j; simpl; by rewrite Hgo, Ed|].
        apply (run_good True g m (read L m) o (n_core L n) _ (emit L (EvProp o k) st) IH); done. }
      destruct (run L _ _ _) as [st2 [v|]]; [|done].
      pose proof Hr as (Hi2 & Hk2 & HV2). simpl in Hi2, Hk2.
      assert (Hv : denotes L (cores (st_h st2)) o (QProp k) v).
      { rewrite (kept_cores _ _ Hk2), Hg. by apply HV2. }
      assert (Hkn : ∀ n', st_h st2 !! o = Some n' → kept_node n' (map_pc L (<[k := v]>) n')).
      { intros n' Hn'. split; try done. intros k' u Hu. simpl.
        destruct (decide (k' = k)) as [->|]; [|by rewrite lookup_insert_ne].
        rewrite lookup_insert. f_equal.
        destruct Hi2 as [_ Hc2]. apply (denotes_det L (cores (st_h st2)) o (QProp k)); [done|].
        by apply (rc_pc _ Hc2 o n' k u). }
      apply good_store; [done..|]. apply rinv_alter; [done| |done].
      intros n' Hn'. split_and!; simpl; auto. intros k' u Hu.
      apply lookup_insert_Some in Hu as [[<- <-]|[? ?]]; [|by left]. right. split; [done|].
      destruct (kept_Some _ _ _ _ Hk2 Ho) as (n'' & Hn'' & Hkn'').
      rewrite Hn' in Hn''. injection Hn'' as <-. rewrite (kn_core _ _ Hkn''), Ed. eauto.
Qed.

(* ------------------------------------------------------------------ *)
(** Derivatives. *)
Lemma direct_good g m o w st :
  rinv (st_h st) → cores (st_h st) = g →
  good True m st (direct L m o w st) (λ j, pdirect L j g o w).
Proof.
  intros Hi Hg. unfold direct, pdirect. rewrite <- Hg, cores_lookup.
  destruct (st_h st !! o) as [n|] eqn:Ho; simpl; [|by apply good_fail].
  eapply good_from; [|apply (run_good True (cores (st_h st)) m); [apply read_rgood|done|done]].
  apply kept_refl.
Qed.

Lemma pwalk_S (m n : nat) g o i c p :
  g !! i = Some c → is_permute L (c_cls L c) = true → c_attr L c !! "a"%string = Some (ARef p) →
  pwalk L (S m) n g o i = if decide (p = o) then Some None else
    match pdirect L n g o p with
    | Some jo => match jo with Some j => Some (Some (p, j)) | None => pwalk L m n g o p end
    | None => None
    end.
Proof.
  intros Hg Hp Ha. simpl. rewrite Hg, Hp, Ha. case_decide; [done|].
  by destruct (pdirect L n g o p) as [[|]|].
Qed.

(** [walk] with both bounds, against [pwalk] with both bounds. *)
Lemma walk_good g m k o i : ∀ st,
  rinv (st_h st) → cores (st_h st) = g →
  let out := walk L k m o i st in
  rinv (st_h out.1) ∧ kept (st_h st) (st_h out.1) ∧
  (∀ v, out.2 = Some v → ∃ k' m', pwalk L k' m' g o i = Some v) ∧
  (∀ v, pwalk L k m g o i = Some v → out.2 = Some v).
Proof.
  revert i. induction k as [|k IH]; intros i st Hi Hg; simpl.
  { split_and!; [done|apply kept_refl|done|done]. }
  destruct (st_h st !! i) as [n|] eqn:Ho.
  2:{ simpl. split_and!; [done|apply kept_refl|done|]. rewrite <- Hg, cores_lookup, Ho. done. }
  assert (Hgi : g !! i = Some (n_core L n)) by (rewrite <- Hg; by apply cores_Some).
  rewrite Hgi.
  destruct (is_permute L (c_cls L (n_core L n))) eqn:Ep.
  2:{ simpl. split_and!; [done|apply kept_refl| |by intros].
      intros v [= <-]. exists 1, 0. simpl. by rewrite Hgi, Ep. }
  destruct (c_attr L (n_core L n) !! "a"%string) as [[t|p]|] eqn:Ea;
    [simpl; split_and!; [done|apply kept_refl|done|done]| |simpl; split_and!; [done|apply kept_refl|done|done]].
  destruct (decide (p = o)) as [->|Hpo].
  { simpl. split_and!; [done|apply kept_refl| |by intros].
    intros v [= <-]. exists 1, 0. simpl. rewrite Hgi, Ep, Ea. by rewrite decide_True. }
  destruct (direct_good g m o p st Hi Hg) as (Hi1 & Hk1 & HV1).
  destruct (HV1 I) as [S1 C1]. clear HV1.
  destruct (direct L m o p st) as [st1 [[j|]|]] eqn:Ed; simpl in Hi1, Hk1, S1, C1.
  - simpl. split_and!; [done..| |].
    + intros v [= <-]. destruct (S1 _ eq_refl) as [m' Hm']. exists 1, m'.
      rewrite (pwalk_S _ _ _ _ _ _ _ Hgi Ep Ea). rewrite decide_False by done. by rewrite Hm'.
    + intros v Hv. destruct (pdirect L m g o p) as [[j'|]|] eqn:E; [| |done].
      * specialize (C1 _ eq_refl). congruence.
      * specialize (C1 _ eq_refl). congruence.
  - destruct (IH p st1 Hi1) as (Hi2 & Hk2 & S2 & C2); [by rewrite (kept_cores _ _ Hk1)|].
    split_and!; [done|by eapply kept_trans| |].
    + intros v Hv. destruct (S1 _ eq_refl) as [m1 Hm1]. destruct (S2 v Hv) as (k2 & m2 & Hm2).
      exists (S k2), (m1 `max` m2).
      rewrite (pwalk_S _ _ _ _ _ _ _ Hgi Ep Ea). rewrite decide_False by done.
      rewrite (pdirect_mono L m1 (m1 `max` m2) g o p None) by (done || lia).
      apply (pwalk_mono L k2 k2 m2); [lia|lia|done].
    + intros v Hv. destruct (pdirect L m g o p) as [[j'|]|] eqn:E; [| |done].
      * specialize (C1 _ eq_refl). congruence.
      * by apply C2.
  - simpl. split_and!; [done..|].
    intros v Hv. destruct (pdirect L m g o p) as [jo|] eqn:E; [|done].
    by specialize (C1 _ eq_refl).
Qed.

Lemma walk_good' g m o i st :
  rinv (st_h st) → cores (st_h st) = g →
  good True m st (walk L m m o i st) (λ j, pwalk L j j g o i).
Proof.
  intros Hi Hg. destruct (walk_good g m m o i st Hi Hg) as (Hi' & Hk & S1 & C1).
  split_and!; [done..|]. intros _. split; [|done]. intros v Hv. destruct (S1 v Hv) as (k' & m' & H).
  exists (k' `max` m'). apply (pwalk_mono L k' _ m'); [lia|lia|done].
Qed.

Lemma pdirect_monoP g o w : mono (λ j, pdirect L j g o w).
Proof. intros m1 m2 v. apply pdirect_mono. Qed.
Lemma pwalk_monoP g o w : mono (λ j, pwalk L j j g o w).
Proof. intros m1 m2 v Hle. by apply pwalk_mono. Qed.
Lemma psliced_monoP g o w : mono (λ j, psliced L j g o w).
Proof. intros m1 m2 v. apply psliced_mono. Qed.
Lemma drval_monoP g o w : mono (λ j, drval L j g o w).
Proof. intros m1 m2 v. apply drval_mono. Qed.

Lemma mono_const {A} (x : option A) : mono (λ _, x).
Proof. by intros ?. Qed.
Lemma mono_bind {A B} (P : nat → option A) (Q : nat → A → option B) :
  mono P → (∀ v, mono (λ j, Q j v)) →
  mono (λ j, match P j with Some v => Q j v | None => None end).
Proof.
  intros HP HQ m1 m2 b Hle Hb. destruct (P m1) as [v|] eqn:E; [|done].
  rewrite (HP m1 m2 v) by done. by apply (HQ v m1).
Qed.

Lemma kept_fire_cores o st g : cores (st_h st) = g → cores (st_h (fire L o st)) = g.
Proof. intros <-. apply kept_cores, fire_kept. Qed.

Lemma sliced_good g m o w st :
  rinv (st_h st) → cores (st_h st) = g →
  good True m st (sliced L m o w st) (λ j, psliced L j g o w).
Proof.
  intros Hi Hg.
  set (k2 := λ (st2 : state) (r : option (oid * Jac L)),
     match r with
     | Some (inner, j) => match direct L m w inner (fire L w st2) with
                          | (st3, Some (Some jw)) => (st3, Some (Some (jmul L j (jT L jw))))
                          | (st3, _) => (st3, None)
                          end
     | None => (st2, Some None)
     end).
  set (q2 := λ (x : nat) (r : option (oid * Jac L)),
     match r with
     | Some (inner, j) => match pdirect L x g w inner with
                          | Some (Some jw) => Some (Some (jmul L j (jT L jw)))
                          | _ => None
                          end
     | None => Some None
     end).
  assert (Hq2 : ∀ r, mono (λ x, q2 x r)).
  { intros [[inner j]|] m1 m2 v Hle; simpl; [|done].
    destruct (pdirect L m1 g w inner) as [jo|] eqn:E; [|done].
    rewrite (pdirect_mono L m1 m2 _ _ _ jo) by done. done. }
  set (k1 := λ (st1 : state) (d : option (Jac L)),
     match d with
     | Some j => (st1, Some (Some j))
     | None => match walk L m m o w st1 with
               | (st2, Some r) => k2 st2 r
               | (st2, None) => (st2, None)
               end
     end).
  set (q1 := λ (x : nat) (d : option (Jac L)),
     match d with
     | Some j => Some (Some j)
     | None => match pwalk L x x g o w with
               | Some r => q2 x r
               | None => None
               end
     end).
  assert (Hq1 : ∀ d, mono (λ x, q1 x d)).
  { intros [j|]; simpl; [apply mono_const|]. apply mono_bind; [apply pwalk_monoP|apply Hq2]. }
  assert (E1 : sliced L m o w st = match direct L m o w (fire L o st) with
     | (st1, Some d) => k1 st1 d | (st1, None) => (st1, None) end).
  { unfold sliced, k1, k2. destruct (direct L m o w (fire L o st)) as [st1 [[j|]|]]; [done| |done].
    destruct (walk L m m o w st1) as [st2 [[[inner j]|]|]]; done. }
  rewrite E1.
  apply (good_ext _ _ _ _ (λ x, match pdirect L x g o w with Some d => q1 x d | None => None end)).
  { intros x. unfold psliced, q1, q2. destruct (pdirect L x g o w) as [[|]|]; [done| |done].
    destruct (pwalk L x x g o w) as [[[inner j]|]|]; done. }
  eapply good_from; [apply (fire_kept o)|].
  pose proof (kept_fire_cores o st g Hg) as Hg1. apply fire_rinv with (o := o) in Hi.
  clear E1. generalize dependent (fire L o st). intros st1 Hi Hg1.
  apply (good_bind True m st1 _ (λ x, pdirect L x g o w) k1 q1);
    [apply pdirect_monoP|done|by apply direct_good|].
  intros st' [j|] Hi' Hk'; simpl; [by apply good_ret|].
  assert (Hg' : cores (st_h st') = g) by (by rewrite (kept_cores _ _ Hk')).
  apply (good_bind True m st' _ (λ x, pwalk L x x g o w) k2 q2);
    [apply pwalk_monoP|done|by apply walk_good'|].
  intros st2 [[inner j]|] Hi2 Hk2; simpl; [|by apply good_ret].
  assert (Hg2 : cores (st_h st2) = g) by (by rewrite (kept_cores _ _ Hk2)).
  eapply good_from; [apply (fire_kept w)|].
  pose proof (kept_fire_cores w st2 g Hg2) as Hg3. apply fire_rinv with (o := w) in Hi2.
  destruct (direct_good g m w inner (fire L w st2) Hi2 Hg3) as (Hi4 & Hk4 & HV).
  destruct (HV I) as [S1 C1].
  destruct (direct L m w inner (fire L w st2)) as [st4 [[jw|]|]]; simpl in *; split_and!;
    try done; intros _; split; simpl.
  - intros v [= <-]. destruct (S1 _ eq_refl) as [x Hx]. exists x. by rewrite Hx.
  - intros v Hv. destruct (pdirect L m g w inner) as [[jw'|]|] eqn:E; [|done|done].
    specialize (C1 _ eq_refl). congruence.
  - done.
  - intros v Hv. destruct (pdirect L m g w inner) as [[jw'|]|] eqn:E; [|done|done].
    specialize (C1 _ eq_refl). congruence.
  - done.
  - intros v Hv. destruct (pdirect L m g w inner) as [[jw'|]|] eqn:E; [|done|done].
    specialize (C1 _ eq_refl). congruence.
Qed.

Lemma pdr_loop_monoP rd g o w c ks : (∀ p, mono (λ x, rd x p)) → ∀ acc,
  mono (λ x, pdr_loop L (rd x) x g o w c ks acc).
Proof.
  intros Hrd acc m1 m2 v Hle. apply pdr_loop_mono; [|done].
  intros p j. by apply Hrd.
Qed.

Lemma dr_loop_good V g m rd prd o w c ks :
  (∀ p, mono (λ x, prd x p)) →
  (∀ p st, rinv (st_h st) → cores (st_h st) = g → good V m st (rd p st) (λ x, prd x p)) →
  ∀ acc st, rinv (st_h st) → cores (st_h st) = g →
  good V m st (dr_loop L rd m o w c ks acc st) (λ x, pdr_loop L (prd x) x g o w c ks acc).
Proof.
  intros Hm Hrd. induction ks as [|k ks IH]; intros acc st Hi Hg; simpl; [by apply good_ret|].
  destruct (c_attr L c !! k) as [[t|p]|]; [by apply IH| |by apply IH].
  case_decide; [by apply IH|].
  set (k2 := λ (j2 : Jac L) (st2 : state) (d : option (Jac L)),
     match d with
     | Some d => dr_loop L rd m o w c ks (acc ++ [jmul L d j2]) st2
     | None => dr_loop L rd m o w c ks acc st2
     end).
  set (q2 := λ (j2 : Jac L) (x : nat) (d : option (Jac L)),
     match d with
     | Some d => pdr_loop L (prd x) x g o w c ks (acc ++ [jmul L d j2])
     | None => pdr_loop L (prd x) x g o w c ks acc
     end).
  assert (Hq2 : ∀ j2 d, mono (λ x, q2 j2 x d)).
  { intros j2 [d|]; simpl; by apply pdr_loop_monoP. }
  set (k1 := λ (st1 : state) (j : option (Jac L)),
     match j with
     | Some j2 => match sliced L m o p st1 with
                  | (st2, Some d) => k2 j2 st2 d
                  | (st2, None) => (st2, None)
                  end
     | None => dr_loop L rd m o w c ks acc st1
     end).
  set (q1 := λ (x : nat) (j : option (Jac L)),
     match j with
     | Some j2 => match psliced L x g o p with
                  | Some d => q2 j2 x d
                  | None => None
                  end
     | None => pdr_loop L (prd x) x g o w c ks acc
     end).
  assert (Hq1 : ∀ d, mono (λ x, q1 x d)).
  { intros [j|]; simpl; [|by apply pdr_loop_monoP]. apply mono_bind; [apply psliced_monoP|apply Hq2]. }
  match goal with |- good _ _ _ ?out ?P => 
    assert (E1 : out = match rd p st with (st1, Some j) => k1 st1 j | (st1, None) => (st1, None) end);
    [|rewrite E1; apply (good_ext _ _ _ _ (λ x, match prd x p with Some d => q1 x d | None => None end))]
  end.
  { unfold k1, k2. destruct (rd p st) as [st1 [[j2|]|]]; [|done|done].
    by destruct (sliced L m o p st1) as [st2 [[d|]|]]. }
  { intros x. unfold q1, q2. destruct (prd x p) as [[j2|]|]; [|done|done].
    by destruct (psliced L x g o p) as [[d|]|]. }
  apply (good_bind V m st _ (λ x, prd x p) k1 q1); [apply Hm|done|by apply Hrd|].
  intros st1 [j2|] Hi1 Hk1; simpl.
  2:{ apply IH; [done|]. by rewrite (kept_cores _ _ Hk1). }
  assert (Hg1 : cores (st_h st1) = g) by (by rewrite (kept_cores _ _ Hk1)).
  apply (good_bind V m st1 _ (λ x, psliced L x g o p) (k2 j2) (q2 j2));
    [apply psliced_monoP|done|by eapply good_weaken; [|apply sliced_good]|].
  intros st2 [d|] Hi2 Hk2; simpl; (apply IH; [done|]; by rewrite (kept_cores _ _ Hk2)).
Qed.

Lemma read_dr_rgood g m w : ∀ o st,
  rinv (st_h st) → cores (st_h st) = g → is_Some (g !! w) →
  good (Wok w ∧ not_view L g w) m st (read_dr L m o w st) (λ x, drval L x g o w).
Proof.
  intros o st Hi Hg Hw. revert o st Hi Hg. induction m as [|m IH]; intros o st Hi Hg.
  { simpl. split_and!; [done|apply kept_refl|]. intros _. done. }
  simpl. destruct (st_h st !! o) as [n|] eqn:Ho.
  2:{ split_and!; [done|apply kept_refl|]. intros _. simpl. split; [done|].
      rewrite <- Hg, cores_lookup, Ho. done. }
  assert (Hgo : g !! o = Some (n_core L n)) by (rewrite <- Hg; by apply cores_Some).
  set (st1 := fire L o st).
  assert (Hi1 : rinv (st_h st1)) by (by apply fire_rinv).
  assert (Hk1 : kept (st_h st) (st_h st1)) by apply fire_kept.
  assert (Hg1 : cores (st_h st1) = g) by (by rewrite (kept_cores _ _ Hk1)).
  destruct (n_dr L n !! w) as [jo|] eqn:Er.
  { split_and!; [done..|]. intros [HB Hv]. destruct Hi as [_ Hc]. rewrite <- Hg in Hv.
    destruct (rc_dr _ Hc o n w jo Ho) as [m' Hm']; [done..|]. rewrite Hg in Hm'. split.
    - intros v' [= <-]. eauto.
    - intros v' Hv'. simpl. f_equal. apply (dr_denotes_det L g o w); [by exists m'|]. by exists (S m). }
  set (q1 := λ (x : nat) (d : option (Jac L)),
    pdr_loop L (λ p, drval L x g p w) x g o w (n_core L n) (c_dt L (n_core L n)) (opt_list d)).
  set (k1 := λ (st2 : state) (d : option (Jac L)),
    dr_loop L (λ p, read_dr L m p w) m o w (n_core L n) (c_dt L (n_core L n)) (opt_list d) st2).
  assert (Hr : good (Wok w ∧ not_view L g w) m st
    (match sliced L m o w st1 with (st2, Some d) => k1 st2 d | (st2, None) => (st2, None) end)
    (λ x, match psliced L x g o w with Some d => q1 x d | None => None end)).
  { eapply good_from; [exact Hk1|].
    apply (good_bind _ m st1 _ (λ x, psliced L x g o w) k1 q1).
    - apply psliced_monoP.
    - intros d. apply (pdr_loop_monoP (λ x p, drval L x g p w)). intros p. apply drval_monoP.
    - eapply good_weaken; [|by apply sliced_good]. done.
    - intros st2 d Hi2 Hk2. apply (dr_loop_good _ g m _ (λ x p, drval L x g p w)).
      + intros p. apply drval_monoP.
      + intros p st' Hi' Hg'. by apply IH.
      + done.
      + by rewrite (kept_cores _ _ Hk2). }
  match goal with |- good _ _ _ ?out _ =>
    assert (E1 : out = match (match sliced L m o w st1 with (st2, Some d) => k1 st2 d | (st2, None) => (st2, None) end) with
      | (st3, Some l) => (if decide (size (n_par L n) = 1) then st3
             else on_heap L (alter (map_dr L (<[w := reduce_jac L l]>)) o) st3, Some (reduce_jac L l))
      | (st3, None) => (st3, None) end)
  end.
  { unfold k1. destruct (sliced L m o w st1) as [st2 [d|]]; [|done]. done. }
  rewrite E1. clear E1.
  assert (Edr : ∀ x, drval L (S x) g o w = match (match psliced L x g o w with Some d => q1 x d | None => None end) with
     | Some l => Some (reduce_jac L l) | None => None end).
  { intros x. unfold q1. simpl. rewrite Hgo. by destruct (psliced L x g o w). }
  destruct Hr as (Hi3 & Hk3 & HV3).
  destruct (match sliced L m o w st1 with (st2, Some d) => k1 st2 d | (st2, None) => (st2, None) end) as [st3 [l|]];
    simpl in Hi3, Hk3, HV3.
  2:{ split_and!; [done..|]. intros Hv. destruct (HV3 Hv) as [S1 C1]. split; [done|].
      intros v Hv'. rewrite Edr in Hv'.
      destruct (match psliced L m g o w with Some d => q1 m d | None => None end) as [l|] eqn:E; [|done].
      by specialize (C1 _ eq_refl). }
  assert (Hr' : good (Wok w ∧ not_view L g w) (S m) st (st3, Some (reduce_jac L l)) (λ x, drval L x g o w)).
  { split_and!; [done..|]. intros Hv. destruct (HV3 Hv) as [S1 C1]. split.
    - intros v [= <-]. destruct (S1 l eq_refl) as [x Hx]. exists (S x). by rewrite Edr, Hx.
    - intros v Hv'. rewrite Edr in Hv'.
      destruct (match psliced L m g o w with Some d => q1 m d | None => None end) as [l'|] eqn:E; [|done].
      specialize (C1 _ eq_refl). simpl. congruence. }
  destruct (decide (size (n_par L n) = 1)); [done|].
  assert (Hg3 : cores (st_h st3) = g) by (by rewrite (kept_cores _ _ Hk3)).
  assert (Hkn : ∀ n', st_h st3 !! o = Some n' → kept_node n' (map_dr L (<[w := reduce_jac L l]>) n')).
  { intros n' Hn'. split; try done. intros w' Hw'. simpl.
    destruct (decide (w' = w)) as [->|]; [rewrite lookup_insert; eauto|by rewrite lookup_insert_ne]. }
  apply good_store; [done..|]. apply rinv_alter; [done| |done].
  intros n' Hn'. split_and!; simpl; auto. intros w' j Hj.
  apply lookup_insert_Some in Hj as [[<- <-]|[? ?]]; [|by left]. right. split.
  - rewrite <- Hg3 in Hw. destruct Hw as [cw Hcw]. apply cores_Some_inv in Hcw as (? & ? & _). eauto.
  - rewrite Hg3. intros HB Hv. destruct Hr' as (_ & _ & HV). by apply (HV (conj HB Hv)).
Qed.
End read.

(** With the full invariant. *)
Section read_inv.
Context (L : lib).
Notation cores := (cores L).
Notation st_h := (st_h L).
Implicit Types (st : state L).
Definition all (w : oid) : Prop := True.

Lemma fire_inv o st : inv L (st_h st) → inv L (st_h (fire L o st)).
Proof. intros H. eapply (rinv_inv L all); [done|exact H|apply fire_kept|]. by apply fire_rinv, inv_rinv. Qed.

Definition igood {A} (V : Prop) (m : nat) st (out : state L * option A) (P : nat → option A) : Prop :=
  inv L (st_h out.1) ∧ kept L (st_h st) (st_h out.1) ∧
  (V → (∀ v, out.2 = Some v → ∃ m', P m' = Some v) ∧ (∀ v, P m = Some v → out.2 = Some v)).
Lemma good_igood {A} V m st (out : state L * option A) P :
  inv L (st_h st) → good L all V m st out P → igood V m st out P.
Proof. intros Hi (H1 & H2 & H3). split; [|by split]. by apply (rinv_inv L all (st_h st)). Qed.

Lemma read_is_good g m o w st : inv L (st_h st) → cores (st_h st) = g →
  igood True m st (read L m o w st) (λ j, eval L j g o w).
Proof. intros Hi Hg. apply good_igood; [done|]. apply read_rgood; [by apply inv_rinv|done]. Qed.
Lemma read_dr_good g m w o st : inv L (st_h st) → cores (st_h st) = g → is_Some (g !! w) →
  igood (not_view L g w) m st (read_dr L m o w st) (λ x, drval L x g o w).
Proof.
  intros Hi Hg Hw. apply good_igood; [done|].
  eapply good_weaken; [|apply read_dr_rgood; [by apply inv_rinv|done..]]. done.
Qed.
End read_inv.
