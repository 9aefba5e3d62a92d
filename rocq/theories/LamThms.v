(** Reading in a graph with lambda objects. *)
From stdpp Require Import gmap strings list relations.
From Verif Require Import EngineModel EngineSpec EngineClear EngineEval EngineSet EngineInv EngineOps
  EngineRead EngineEffect LamModel LamSpec LamGraph.

Section thms.
Context (L : lib) (is_lam is_handle : Cls L → bool).
Context (Hlib : lib_ok L) (Hll : lam_lib_ok L is_lam is_handle).
Notation graph := (gmap oid (core L)).
Notation heap := (gmap oid (node L)).
Notation cores := (cores L).
Notation state := (state L).
Notation st_h := (st_h L).
Notation gattr := (gattr L).
Notation hand := (hand L).
Notation behind := (behind L).
Notation exposed := (exposed L).
Notation safe := (safe L).
Notation stable := (stable L).
Notation passes := (passes L).
Notation substituted := (substituted L).
Notation reg_ok := (reg_ok L is_lam is_handle).
Implicit Types (g : graph) (reg : registry) (h : heap) (st : state).

Record lgood reg h : Prop := {
  lg_inv : inv L h;
  lg_reg : reg_ok reg (cores h);
  lg_dirty : ∀ hd f k nf, reg !! hd = Some (f, k) → behind reg (cores h) hd → h !! f = Some nf →
    k ∈ n_dirty L nf;
  lg_r : ∀ x nx v, h !! x = Some nx → n_r L nx = Some v → stable reg (cores h) x v
}.

Lemma set_attr_assign h o k (p o' : oid) : set_attr L None h o k (ARef p) = assign L None h o k (ARef p) o'.
Proof. unfold assign. by destruct (h !! o). Qed.

(** Handing one argument over. *)
Lemma pass_arg_ok reg h f hd k : lgood reg h → reg !! hd = Some (f, k) → safe reg (cores h) f →
  lgood reg (pass_arg L f h hd k) ∧
  cores (pass_arg L f h hd k) = hand reg {[hd]} (cores h) ∧
  ∀ x nx, h !! x = Some nx → ∃ nx', pass_arg L f h hd k !! x = Some nx' ∧ n_dirty L nx ⊆ n_dirty L nx'.
Proof.
  intros [Hi Hr Hd Hc] E Hs.
  destruct (Hr _ _ _ E) as [ch cf p q Hhd Hh Hdt Hx Hf Hl Hk Ha Hq Hn].
  pose proof (cores_Some_inv _ _ _ _ Hf) as (nf & Hnf & Ecf).
  pose proof (cores_Some_inv _ _ _ _ Hhd) as (nh & Hnh & Ech).
  set (o' := fresh (dom (cores h))).
  assert (Ho' : o' ∉ dom (cores h)) by apply is_fresh.
  assert (Eh : pass_arg L f h hd k = assign L None h hd "x"%string (ARef q) o').
  { unfold pass_arg. rewrite Hnf, Ecf, Ha. apply set_attr_assign. }
  assert (Hb : is_base L (c_cls L ch) = false) by (by apply (ll_handle _ _ _ Hll)).
  assert (Hok : assign_ok L (cores h) hd "x"%string (ARef q) o').
  { exists ch. split_and!; try done; [congruence|]. intros p' [= <-]. by apply elem_of_dom. }
  rewrite Eh. set (h1 := assign L None h hd "x"%string (ARef q) o').
  assert (Ecs : cores h1 = hand reg {[hd]} (cores h)).
  { unfold h1. rewrite assign_cores; [|done|by eapply assign_ok_fresh]. simpl. rewrite Hhd.
    apply map_eq; intros x. rewrite hand_lookup. destruct (decide (x = hd)) as [->|Hne].
    - rewrite lookup_insert, Hhd. simpl. rewrite decide_True by set_solver.
      rewrite (entry_current _ _ _ _ _ _ E). unfold LamSpec.gattr. by rewrite Hf, Ha.
    - rewrite lookup_insert_ne by done. destruct (cores h !! x); [|done]. simpl.
      by rewrite decide_False by set_solver. }
  destruct (assign_inv L h hd "x"%string (ARef q) o' Hlib Hi Hok) as [Hi1 _].
  pose proof (assign_facts_ok L None h hd "x"%string (ARef q) o' Hlib (proj1 Hi) Hok) as Hfa.
  destruct (assign_eff L None h hd "x"%string (ARef q) o' Hlib (proj1 Hi) Hok) as [Heff Hnew].
  assert (Htr : tracked_in L h hd "x"%string).
  { exists nh. split; [done|]. left. rewrite Ech, Hdt. by left. }
  pose proof (af_clean _ _ _ _ _ _ Hfa (tag_none L h) Htr) as Hcl.
  split_and!; [|done|].
  2:{ intros x nx Hx'. destruct (Heff x nx Hx') as (n' & Hn' & He). exists n'. split; [done|].
      intros d Hd'. by apply (ne_dirty _ _ _ _ _ _ _ _ _ He). }
  split.
  - done.
  - rewrite Ecs. by apply (hand_reg_ok L is_lam is_handle Hll).
  - intros hd' f' k' nf' E' Hb' Hf'. rewrite Ecs in Hb'.
    apply (behind_hand L is_lam is_handle Hll) in Hb' as [Hb' _]; [|done].
    destruct (h !! f') as [nf0|] eqn:Ef0.
    2:{ destruct (Hr _ _ _ E') as [? ? ? ? _ _ _ _ Hf0 _ _ _ _ _].
        rewrite cores_lookup, Ef0 in Hf0. done. }
    destruct (Heff f' nf0 Ef0) as (n' & Hn' & He). unfold h1 in Hf'. rewrite Hf' in Hn'.
    injection Hn' as <-. apply (ne_dirty _ _ _ _ _ _ _ _ _ He). by apply (Hd hd' f').
  - intros x nx v Hx' Hv.
    assert (Hna : ¬ above L h1 hd x).
    { intros Hab. destruct (ca_r _ _ _ Hcl x nx Hx' Hab). congruence. }
    destruct (h !! x) as [n0|] eqn:Ex.
    2:{ pose proof (Hnew x nx Ex Hx') as Hnn. rewrite (nn_r _ _ Hnn) in Hv. done. }
    destruct (Heff x n0 Ex) as (n' & Hn' & He). unfold h1 in Hx'. rewrite Hx' in Hn'.
    injection Hn' as <-. rewrite Ecs. unfold above in Hna. rewrite Ecs in Hna.
    apply (stable_unrelated L is_lam is_handle Hll reg (cores h) hd f k); try done.
    apply (Hc x n0 v Ex). rewrite <- Hv. symmetry.
    apply (ne_r _ _ _ _ _ _ _ _ _ He). intros [_ Hab].
    apply Hna. apply (dep_to_hand L). done.
Qed.

(** on_changed, over part of the registry. *)
Definition served reg (f : oid) (which : gset name) g (l : list (oid * (oid * name))) : Prop :=
  ∀ hd k, (hd, (f, k)) ∈ l → k ∈ which → ¬ behind reg g hd.

Lemma on_changed_ok reg f which l : ∀ h, (∀ e, e ∈ l → reg !! e.1 = Some e.2) →
  lgood reg h → safe reg (cores h) f →
  let h' := foldl (λ h e, if decide (e.2.1 = f ∧ e.2.2 ∈ which) then pass_arg L f h e.1 e.2.2 else h) h l in
  lgood reg h' ∧ passes reg (cores h) (cores h') ∧ served reg f which (cores h') l.
Proof.
  induction l as [|[hd [f' k]] l IH]; intros h Hl Hg Hs; simpl.
  { split_and!; [done|apply passes_refl|]. intros hd k Hin. by apply elem_of_nil in Hin. }
  assert (E : reg !! hd = Some (f', k)) by (apply (Hl (hd, (f', k))); by left).
  assert (Hl' : ∀ e, e ∈ l → reg !! e.1 = Some e.2) by (intros e He; apply Hl; by right).
  pose proof (lg_reg _ _ Hg) as Hr.
  destruct (decide (f' = f ∧ k ∈ which)) as [[-> Hk]|Hno].
  - destruct (pass_arg_ok reg h f hd k Hg E Hs) as (Hg1 & Ec & _).
    assert (Hp : passes reg (cores h) (cores (pass_arg L f h hd k))).
    { rewrite Ec. by eapply (passes_one L is_lam is_handle Hll). }
    destruct (IH _ Hl' Hg1) as (Hg2 & Hp2 & Hsv); [by apply Hp|].
    split_and!; [done| |].
    + by eapply (passes_trans L is_lam is_handle Hll).
    + intros hd' k' Hin Hk' Hb. apply elem_of_cons in Hin as [[= -> ->]|Hin]; [|by apply (Hsv hd' k')].
      assert (Hr1 : reg_ok reg (cores (pass_arg L f h hd k))) by (apply Hg1).
      apply (passes_behind L is_lam is_handle Hll _ _ _ _ Hr1 Hp2) in Hb.
      rewrite Ec in Hb. apply (behind_hand L is_lam is_handle Hll) in Hb as [_ Hb]; [|done]. set_solver.
  - destruct (IH h Hl' Hg Hs) as (Hg2 & Hp2 & Hsv). split_and!; [done..|].
    intros hd' k' Hin Hk'. apply elem_of_cons in Hin as [[= -> -> ->]|Hin]; [naive_solver|].
    by apply (Hsv hd' k').
Qed.

Lemma lgood_same reg h h' : cores h' = cores h → inv L h' →
  (∀ x n', h' !! x = Some n' → ∃ n, h !! x = Some n ∧
     (∀ v, n_r L n' = Some v → n_r L n = Some v ∨ stable reg (cores h) x v) ∧
     (∀ hd k, reg !! hd = Some (x, k) → behind reg (cores h) hd → k ∈ n_dirty L n → k ∈ n_dirty L n')) →
  lgood reg h → lgood reg h'.
Proof.
  intros Ec Hi' Hx [Hi Hr Hd Hc]. split; rewrite ?Ec; [done|done| |].
  - intros hd f k nf E Hb Hf. destruct (Hx f nf Hf) as (n & Hn & _ & H2). apply (H2 hd k E Hb).
    by apply (Hd hd f).
  - intros x nx v Hx' Hv. destruct (Hx x nx Hx') as (n & Hn & H1 & _).
    destruct (H1 v Hv) as [Hv'|?]; [|done]. by apply (Hc x n).
Qed.

Lemma alter_same_inv f o h : inv L h → (∀ n, h !! o = Some n → kept_node L n (f n)) →
  (∀ n, h !! o = Some n → (∀ v, n_r L (f n) = Some v → n_r L n = Some v ∨ denotes L (cores h) o QR v) ∧
     n_pc L (f n) = n_pc L n ∧ n_dr L (f n) = n_dr L n) → inv L (alter f o h).
Proof.
  intros Hi Hk Hn. apply (rinv_inv L all h); [done|done|by apply kept_alter|].
  apply rinv_alter; [done| |by apply inv_rinv].
  intros n Ho. destruct (Hn n Ho) as (H1 & H2 & H3). split_and!; [done| |].
  - intros k v. rewrite H2. auto.
  - intros w j. rewrite H3. auto.
Qed.

Lemma fire_l_ok reg o st : lgood reg (st_h st) → safe reg (cores (st_h st)) o →
  lgood reg (st_h (fire_l L reg o st)) ∧
  passes reg (cores (st_h st)) (cores (st_h (fire_l L reg o st))) ∧
  ∀ hd k, reg !! hd = Some (o, k) → ¬ behind reg (cores (st_h (fire_l L reg o st))) hd.
Proof.
  intros Hg Hs. unfold fire_l. destruct (st_h st !! o) as [nd|] eqn:Eo.
  2:{ split_and!; [done|apply passes_refl|]. intros hd k E _.
      destruct (lg_reg _ _ Hg _ _ _ E) as [? ? ? ? _ _ _ _ Hf _ _ _ _ _].
      rewrite cores_lookup, Eo in Hf. done. }
  case_decide as Hdy.
  { split_and!; [done|apply passes_refl|]. intros hd k E Hb.
    pose proof (lg_dirty _ _ Hg hd o k nd E Hb Eo) as Hin. set_solver. }
  simpl. unfold on_changed.
  destruct (on_changed_ok reg o (n_dirty L nd) (map_to_list reg) (st_h st)) as (Hg1 & Hp & Hsv).
  { intros [hd e] He. by apply elem_of_map_to_list in He. }
  { done. }
  { done. }
  revert Hg1 Hp Hsv. set (h1 := foldl _ _ _). intros Hg1 Hp Hsv.
  assert (Hserved : ∀ hd k, reg !! hd = Some (o, k) → ¬ behind reg (cores h1) hd).
  { intros hd k E Hb. apply (Hsv hd k); [by apply elem_of_map_to_list| |done].
    apply (lg_dirty _ _ Hg hd o k nd E); [|done].
    by apply (passes_behind L is_lam is_handle Hll _ _ _ _ (lg_reg _ _ Hg) Hp). }
  assert (Ec : cores (alter (set_dirty L ∅) o h1) = cores h1) by (by apply cores_alter_same).
  rewrite Ec. split_and!; [|done|done].
  apply (lgood_same reg h1); [done| | |done].
  - apply alter_same_inv; [by apply Hg1| |].
    + intros n _. split; try done; set_solver.
    + intros n _. split_and!; try done. auto.
  - intros x n' Hx. destruct (decide (x = o)) as [->|].
    + rewrite lookup_alter in Hx. destruct (h1 !! o) as [n|]; [|done]. simpl in Hx. injection Hx as <-.
      exists n. split_and!; [done|auto|]. intros hd k E Hb. by destruct (Hserved hd k E).
    + rewrite lookup_alter_ne in Hx by done. exists n'. split_and!; auto.
Qed.

(** The result of a read is the value with the current arguments. *)
Definition rgood reg n (rd : oid → state → state * option (Arr L)) : Prop :=
  ∀ o st, lgood reg (st_h st) → safe reg (cores (st_h st)) o →
    lgood reg (st_h (rd o st).1) ∧
    passes reg (cores (st_h st)) (cores (st_h (rd o st).1)) ∧
    (∀ v, (rd o st).2 = Some v → stable reg (cores (st_h (rd o st).1)) o v) ∧
    (∀ v, eval L n (substituted reg (cores (st_h st))) o QR = Some v → (rd o st).2 = Some v).

Lemma run_lok {R} reg n rd o c (p : prog (Arr L) R) : rgood reg n rd → ∀ st,
  uses L (asks_tracked L (c_cls L c) (c_dt L c)) p →
  node_ok L c → cores (st_h st) !! o = Some c →
  lgood reg (st_h st) → safe reg (cores (st_h st)) o →
  (∀ hd k, reg !! hd = Some (o, k) → ¬ behind reg (cores (st_h st)) hd) →
  let out := run L (ask_l L rd o) st p in
  lgood reg (st_h out.1) ∧
  passes reg (cores (st_h st)) (cores (st_h out.1)) ∧
  (∀ v, out.2 = Some v → ∀ S, ∃ m, runp L (answer L (eval L m (hand reg S (cores (st_h out.1)))) o c) p = Some v) ∧
  (∀ v, runp L (answer L (eval L n (substituted reg (cores (st_h st)))) o c) p = Some v → out.2 = Some v).
Proof.
  intros Hrd. induction p as [r| |q f IH]; intros st Hu Hok Hc Hg Hs Hown out.
  { simpl in *. split_and!; [done|apply passes_refl| |done]. intros v [= <-] S. by exists 0. }
  { simpl in *. split_and!; [done|apply passes_refl|done|done]. }
  destruct Hu as [Hq Hf].
  (* what is asked: a safe object, or nothing *)
  assert (Hask : (∃ y, safe reg (cores (st_h st)) y ∧ ask_l L rd o q st = rd y st ∧
       ∀ rd', answer L rd' o c q = rd' y QR) ∨
     (ask_l L rd o q st = (st, None) ∧ ∀ m g, answer L (eval L m g) o c q = None ∨ g !! o ≠ Some c)).
  { destruct q as [|k|k].
    - left. exists o. done.
    - simpl. pose proof (cores_Some_inv _ _ _ _ Hc) as (no & Hno & Eno). rewrite Hno, Eno.
      destruct (c_attr L c !! k) as [[t|p]|] eqn:Ek.
      + right. split; [done|]. intros m g. left. done.
      + left. exists p. split_and!; [|done|done].
        apply (safe_child L reg (cores (st_h st)) o k p Hs); [|done].
        exists c. split_and!; try done. destruct (is_base L (c_cls L c)) eqn:Eb; [|done].
        exfalso. by apply (proj2 Hok Eb k p).
      + right. split; [done|]. intros m g. by left.
    - right. split; [done|]. intros m g. destruct m as [|m]; [by left|]. simpl.
      destruct (g !! o) as [c'|] eqn:Eg; [|by left]. left.
      by rewrite (ll_props _ _ _ Hll), lookup_empty. }
  subst out. simpl.
  destruct Hask as [(y & Hy & Ey & Ea)|[Ey Ea]].
  2:{ rewrite Ey. simpl. split_and!; [done|apply passes_refl|done|].
      intros v Hv. exfalso. destruct (Ea n (substituted reg (cores (st_h st)))) as [E|E].
      - by rewrite E in Hv.
      - apply E. unfold LamSpec.substituted. rewrite (safe_same L is_lam is_handle); [done| |done].
        apply Hg. }
  rewrite Ey. destruct (Hrd y st Hg Hy) as (Hg1 & Hp1 & Hst & Hcmp).
  destruct (rd y st) as [st1 [v1|]]; simpl in *.
  2:{ split_and!; [done|done|done|]. intros v Hv. rewrite Ea in Hv.
      destruct (eval L n _ y QR) as [u|] eqn:Eu; [|done]. by specialize (Hcmp u eq_refl). }
  pose proof (lg_reg _ _ Hg) as Hr. pose proof (lg_reg _ _ Hg1) as Hr1.
  destruct (IH v1 st1 (Hf v1) Hok) as (Hg2 & Hp2 & Hst2 & Hcmp2).
  { rewrite (passes_safe_same L is_lam is_handle _ _ _ _ Hr Hp1 Hs). done. }
  { done. }
  { by apply Hp1. }
  { intros hd k E Hb. apply (Hown hd k E).
    by apply (passes_behind L is_lam is_handle Hll _ _ _ _ Hr Hp1). }
  split_and!; [done| | |].
  - by eapply (passes_trans L is_lam is_handle Hll).
  - intros v Hv S. destruct (Hst2 v Hv S) as [m1 Hm1].
    assert (Hsy : stable reg (cores (st_h (run L (ask_l L rd o) st1 (f v1)).1)) y v1).
    { apply (passes_stable L is_lam is_handle Hll _ _ _ _ _ Hr1 Hp2); [by apply Hp1|by apply Hst]. }
    assert (Hys : safe reg (cores (st_h (run L (ask_l L rd o) st1 (f v1)).1)) y) by (by apply Hp2, Hp1).
    destruct (stable_all L reg _ S y v1 Hys Hsy) as [m2 Hm2].
    exists (m1 `max` m2). rewrite Ea.
    rewrite (eval_mono L m2 (m1 `max` m2) _ _ _ _ ltac:(lia) Hm2).
    by apply (runp_eval_mono L _ o c (f v1) m1 (m1 `max` m2) v ltac:(lia)).
  - intros v Hv. apply Hcmp2. rewrite (passes_sub L is_lam is_handle Hll _ _ _ Hr Hp1).
    rewrite Ea in Hv. destruct (eval L n _ y QR) as [u|] eqn:Eu; [|done].
    specialize (Hcmp u eq_refl). injection Hcmp as ->. done.
Qed.

Lemma read_l_ok reg n : rgood reg n (read_l L reg n).
Proof.
  induction n as [|n IH]; intros o st Hg Hs.
  { simpl. split_and!; [done|apply passes_refl|done|done]. }
  simpl. destruct (fire_l_ok reg o st Hg Hs) as (Hg1 & Hp1 & Hown).
  set (st1 := fire_l L reg o st) in *. clearbody st1.
  pose proof (lg_reg _ _ Hg) as Hr. pose proof (lg_reg _ _ Hg1) as Hr1.
  assert (Hs1 : safe reg (cores (st_h st1)) o) by (by apply Hp1).
  pose proof (passes_sub L is_lam is_handle Hll _ _ _ Hr Hp1) as Hsub1.
  destruct (st_h st1 !! o) as [nd|] eqn:Eo.
  2:{ simpl. split_and!; [done|done|done|]. intros v Hv. rewrite <- Hsub1 in Hv.
      unfold LamSpec.substituted in Hv. rewrite (safe_same L is_lam is_handle) in Hv by done.
      rewrite cores_lookup, Eo in Hv. done. }
  assert (Ecore : cores (st_h st1) !! o = Some (n_core L nd)) by (by apply cores_Some).
  assert (Hev : ∀ S m, eval L (Datatypes.S m) (hand reg S (cores (st_h st1))) o QR =
    runp L (answer L (eval L m (hand reg S (cores (st_h st1)))) o (n_core L nd))
      (compute_r L (c_cls L (n_core L nd)) (plain L (n_core L nd)))).
  { intros S m. simpl. by rewrite (safe_same L is_lam is_handle), Ecore. }
  destruct (n_r L nd) as [v0|] eqn:Er.
  { simpl. pose proof (lg_r _ _ Hg1 o nd v0 Eo Er) as Hst. split_and!; [done|done|naive_solver|].
    intros v Hv. f_equal. eapply denotes_det; [by apply (stable_all L reg (cores (st_h st1)) (dom reg))|].
    exists (S n). fold (substituted reg (cores (st_h st1))). rewrite Hsub1. done. }
  pose proof (si_ok _ _ (proj1 (lg_inv _ _ Hg1)) o _ Ecore) as Hnok.
  pose proof (run_lok reg n (read_l L reg n) o (n_core L nd)
     (compute_r L (c_cls L (n_core L nd)) (plain L (n_core L nd))) IH (emit L (EvCompute o) st1)
     (co_r _ _ _ _ (proj1 Hnok) _) Hnok Ecore Hg1 Hs1 Hown) as Hrun.
  cbv zeta in Hrun. destruct (run L _ _ _) as [st2 [v2|]]; simpl in Hrun.
  - destruct Hrun as (Hg2 & Hp2 & Hst & Hcmp). pose proof (lg_reg _ _ Hg2) as Hr2.
    assert (Hs2 : safe reg (cores (st_h st2)) o) by (by apply Hp2).
    assert (Ecore2 : cores (st_h st2) !! o = Some (n_core L nd)).
    { by rewrite (passes_safe_same L is_lam is_handle _ _ _ _ Hr1 Hp2 Hs1). }
    assert (Hstab : stable reg (cores (st_h st2)) o v2).
    { intros S _. destruct (Hst v2 eq_refl S) as [m Hm]. exists (Datatypes.S m). simpl.
      by rewrite (safe_same L is_lam is_handle), Ecore2. }
    assert (Hden : denotes L (cores (st_h st2)) o QR v2).
    { rewrite <- (hand_empty L reg (cores (st_h st2))). by apply stable_all. }
    assert (Ec : cores (alter (set_r L (Some v2)) o (st_h st2)) = cores (st_h st2)) by (by apply cores_alter_same).
    simpl. rewrite Ec. split_and!.
    + apply (lgood_same reg (st_h st2)); [done| | |done].
      * apply alter_same_inv; [apply Hg2| |].
        -- intros nx Hnx. split; try done. intros v Hv. simpl. f_equal.
           eapply denotes_det; [exact Hden|]. destruct (lg_inv _ _ Hg2) as [_ Hci].
           apply (ci_r _ _ _ Hci o nx); [done| |done]. intros HF; exact HF.
        -- intros nx _. split_and!; try done. simpl. intros v [= <-]. by right.
      * intros x n' Hx. destruct (decide (x = o)) as [->|].
        -- rewrite lookup_alter in Hx. destruct (st_h st2 !! o) as [nx|]; [|done]. simpl in Hx.
           injection Hx as <-. exists nx. split_and!; [done| |done]. simpl. intros v [= <-]. by right.
        -- rewrite lookup_alter_ne in Hx by done. exists n'. split_and!; auto.
    + by eapply (passes_trans L is_lam is_handle Hll).
    + intros v [= <-]. done.
    + intros v Hv. apply Hcmp. rewrite <- Hsub1 in Hv.
      unfold LamSpec.substituted in *. rewrite <- Hev. done.
  - destruct Hrun as (Hg2 & Hp2 & _ & Hcmp). simpl. split_and!; [done| |done|].
    + by eapply (passes_trans L is_lam is_handle Hll).
    + intros v Hv. apply Hcmp. rewrite <- Hsub1 in Hv.
      unfold LamSpec.substituted in *. rewrite <- Hev. done.
Qed.

(** Reading, in a good state. *)
Lemma lgood_reads (ls : lstate L) o v :
  lgood (ls_reg L ls) (st_h (ls_st L ls)) → safe (ls_reg L ls) (lattrs L ls) o →
  reads_l L ls o v ↔ denotes L (substituted (ls_reg L ls) (lattrs L ls)) o QR v.
Proof.
  intros Hg Hs. split.
  - intros [n Hn]. destruct (read_l_ok (ls_reg L ls) n o (ls_st L ls) Hg Hs) as (Hg1 & Hp & Hst & _).
    specialize (Hst v Hn). pose proof (lg_reg _ _ Hg) as Hr.
    unfold lattrs. rewrite <- (passes_sub L is_lam is_handle Hll _ _ _ Hr Hp).
    apply (stable_all L); [by apply Hp|done].
  - intros [n Hn]. exists n. by apply (read_l_ok (ls_reg L ls) n o (ls_st L ls) Hg Hs).
Qed.

End thms.
