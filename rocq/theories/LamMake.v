(** Making lambda objects, whole histories, and the comparison with the written-out body. *)
From stdpp Require Import gmap strings list relations.
From Verif Require Import EngineModel EngineSpec EngineClear EngineEval EngineSet EngineInv EngineOps
  EngineRead EngineEffect GraphModel GraphSpec GraphThms LamModel LamSpec LamGraph LamThms LamHist.

Section make.
Context (L : lib) (is_lam is_handle : Cls L → bool).
Context (Hlib : lib_ok L) (Hll : lam_lib_ok L is_lam is_handle).
Notation graph := (gmap oid (core L)).
Notation heap := (gmap oid (node L)).
Notation cores := (cores L).
Notation st_h := (st_h L).
Notation gattr := (gattr L).
Notation hand := (hand L).
Notation behind := (behind L).
Notation exposed := (exposed L).
Notation safe := (safe L).
Notation substituted := (substituted L).
Notation reg_ok := (reg_ok L is_lam is_handle).
Notation entry_ok := (entry_ok L is_lam is_handle).
Notation lgood := (lgood L is_lam is_handle).
Notation lattrs := (lattrs L).
Notation margs := (list (name * oid * bool)).
Implicit Types (g : graph) (reg : registry) (h : heap).

Lemma attr_of_gattr h o k : attr_of L h o k = gattr (cores h) o k.
Proof. unfold attr_of, LamSpec.gattr. rewrite cores_lookup. by destruct (h !! o). Qed.

Lemma set_lgood reg h o k p no : lgood reg h → reg !! o = None → h !! o = Some no →
  is_base L (c_cls L (n_core L no)) = false → is_tracked L (n_core L no) k → is_Some (h !! p) →
  lgood reg (set_attr L None h o k (ARef p)).
Proof.
  intros Hg Ho Hno Hb Htr Hp. set (o' := fresh (dom (cores h))).
  rewrite (set_attr_assign L h o k p o'). apply (assign_lgood L is_lam is_handle Hlib Hll reg h o k _ o' no); try done.
  exists (n_core L no). split_and!; [by apply cores_Some|congruence| |apply is_fresh].
  intros q [= <-]. apply elem_of_dom. rewrite cores_lookup. by apply fmap_is_Some.
Qed.

Definition grows h h' : Prop := ∀ x, is_Some (h !! x) → is_Some (h' !! x).

(** What the loop over the arguments leaves behind. *)
Record taken f (l : margs) h h' : Prop := {
  tk_dom : grows h h';
  tk_f : ∀ nf, h !! f = Some nf → ∃ nf', h' !! f = Some nf' ∧
    c_cls L (n_core L nf') = c_cls L (n_core L nf) ∧ c_dt L (n_core L nf') = c_dt L (n_core L nf);
  tk_other : ∀ x c, cores h !! x = Some c → is_lam (c_cls L c) = false → cores h' !! x = Some c;
  tk_lam : ∀ x c, x ≠ f → cores h !! x = Some c → ∃ tm, cores h' !! x = Some (Core L (c_cls L c) (c_dt L c) tm (c_attr L c));
  tk_back : ∀ x, is_Some (h' !! x) → is_Some (h !! x);
  tk_rest : ∀ k, k ∉ (l.*1).*1 → gattr (cores h') f k = gattr (cores h) f k;
  tk_args : NoDup (l.*1).*1 → ∀ k hd b, (k, hd, b) ∈ l → gattr (cores h') f k = gattr (cores h) hd "x"%string
}.

Lemma set_attr_dom h o k v x : is_Some (set_attr L None h o k v !! x) ↔ is_Some (h !! x).
Proof.
  assert (H : is_Some (cores (set_attr L None h o k v) !! x) ↔ is_Some (cores h !! x)).
  { rewrite set_attr_cores. destruct (decide (x = o)) as [->|].
    - by rewrite lookup_alter, fmap_is_Some.
    - by rewrite lookup_alter_ne. }
  by rewrite !cores_lookup, !fmap_is_Some in H.
Qed.

(** One argument, of either kind. *)
Lemma take_one reg f (k : name) (b : bool) h p nf : lgood reg h → reg !! f = None → h !! f = Some nf →
  is_lam (c_cls L (n_core L nf)) = true → (b = true → k ∈ c_dt L (n_core L nf)) → is_Some (h !! p) →
  let h1 := set_attr L None (if b then h else leak L is_lam k h) f k (ARef p) in
  lgood reg h1 ∧ (∀ x, is_Some (h1 !! x) ↔ is_Some (h !! x)) ∧
  (∃ nf', h1 !! f = Some nf' ∧ c_cls L (n_core L nf') = c_cls L (n_core L nf) ∧
     c_dt L (n_core L nf') = c_dt L (n_core L nf) ∧
     c_attr L (n_core L nf') = <[k := ARef p]> (c_attr L (n_core L nf))) ∧
  (∀ x c, x ≠ f → cores h !! x = Some c → ∃ tm, cores h1 !! x = Some (Core L (c_cls L c) (c_dt L c) tm (c_attr L c)) ∧
     (is_lam (c_cls L c) = false → tm = c_tm L c)).
Proof.
  intros Hg Ho Hf Hl Hk Hp. destruct (ll_lam _ _ _ Hll _ Hl) as (Hb & _).
  set (h0 := if b then h else leak L is_lam k h).
  assert (Hdom0 : ∀ x, is_Some (h0 !! x) ↔ is_Some (h !! x)).
  { intros x. unfold h0. destruct b; [done|]. unfold leak. by rewrite lookup_fmap, fmap_is_Some. }
  assert (Hg0 : lgood reg h0) by (unfold h0; destruct b; [done|by apply leak_lgood]).
  assert (Hf0 : ∃ nf0, h0 !! f = Some nf0 ∧ c_cls L (n_core L nf0) = c_cls L (n_core L nf) ∧
     c_dt L (n_core L nf0) = c_dt L (n_core L nf) ∧ c_attr L (n_core L nf0) = c_attr L (n_core L nf) ∧
     is_tracked L (n_core L nf0) k).
  { unfold h0. destruct b.
    - exists nf. split_and!; try done. left. by apply Hk.
    - exists (map_core L (add_term L is_lam k) nf). unfold leak. rewrite lookup_fmap, Hf. simpl.
      rewrite (add_cls L is_lam), (add_dt L is_lam), (add_attr L is_lam). split_and!; try done.
      right. unfold add_term. rewrite Hl. simpl. apply elem_of_app. right. by left. }
  destruct Hf0 as (nf0 & Hf0 & Hcls & Hdt & Hat & Htr). cbv zeta. split_and!.
  - apply (set_lgood reg h0 f k p nf0); try done; [by rewrite Hcls|]. by apply Hdom0.
  - intros x. by rewrite set_attr_dom, Hdom0.
  - assert (Hc : cores (set_attr L None h0 f k (ARef p)) !! f = Some (write L k (ARef p) (n_core L nf0))).
    { rewrite set_attr_cores, lookup_alter, (cores_Some _ _ _ _ Hf0). done. }
    apply cores_Some_inv in Hc as (n' & Hn' & En'). exists n'. rewrite En'. simpl.
    rewrite Hcls, Hdt, Hat. done.
  - intros x c Hne Hc. exists (c_tm L (if b then c else add_term L is_lam k c)).
    rewrite set_attr_cores, lookup_alter_ne by done. unfold h0. destruct b.
    + split; [|done]. rewrite Hc. by destruct c.
    + rewrite (leak_cores L is_lam), lookup_fmap, Hc. simpl. unfold add_term.
      destruct (is_lam (c_cls L c)) eqn:E; simpl; (split; [|done]); by destruct c.
Qed.

Lemma take_args_ok reg f (l : margs) : ∀ h ts nf, lgood reg h → reg !! f = None → h !! f = Some nf →
  is_lam (c_cls L (n_core L nf)) = true →
  (∀ k hd b, (k, hd, b) ∈ l → (b = true → k ∈ c_dt L (n_core L nf)) ∧
     ∃ ch p, cores h !! hd = Some ch ∧ is_handle (c_cls L ch) = true ∧
       c_attr L ch !! "x"%string = Some (ARef p) ∧ is_Some (h !! p)) →
  lgood reg (take_args L is_lam f l h ts).1 ∧ taken f l h (take_args L is_lam f l h ts).1.
Proof.
  induction l as [|[[k hd] b] l IH]; intros h ts nf Hg Ho Hf Hl Hargs.
  { simpl. split; [done|]. split; try done.
    - by intros x.
    - intros nf' Hnf'. rewrite Hf in Hnf'. injection Hnf' as <-. eauto.
    - intros x c _ Hc. exists (c_tm L c). rewrite Hc. by destruct c.
    - intros _ k hd b Hin. by apply elem_of_nil in Hin. }
  destruct (Hargs k hd b) as (Hk & ch & p & Hch & Hh & Hx & Hp); [by left|].
  assert (Hat : attr_of L h hd "x"%string = Some (ARef p)).
  { rewrite attr_of_gattr. unfold LamSpec.gattr. by rewrite Hch. }
  set (h1 := set_attr L None (if b then h else leak L is_lam k h) f k (ARef p)).
  assert (Hstep : (take_args L is_lam f ((k, hd, b) :: l) h ts).1 =
     (take_args L is_lam f l h1 (if b then ts else ts ++ [k])).1).
  { simpl. rewrite Hat. unfold h1. by destruct b. }
  rewrite Hstep. destruct (take_one reg f k b h p nf Hg Ho Hf Hl Hk Hp) as (Hg1 & Hdom & (nf' & Hf' & Hcls & Hdt & Hatt) & Hoth).
  fold h1 in Hg1, Hdom, Hf', Hoth.
  assert (Hhandle : ∀ x c, cores h !! x = Some c → is_lam (c_cls L c) = false → cores h1 !! x = Some c).
  { intros x c Hc Hnl. assert (x ≠ f).
    { intros ->. rewrite (cores_Some _ _ _ _ Hf) in Hc. congruence. }
    destruct (Hoth x c) as (tm & Hc1 & Htm); [done|done|]. rewrite Hc1, (Htm Hnl). by destruct c. }
  assert (Hnl : ∀ c, is_handle c = true → is_lam c = false).
  { intros c Hc. destruct (is_lam c) eqn:E; [|done]. destruct (ll_lam _ _ _ Hll _ E) as (_ & ? & _). congruence. }
  destruct (IH h1 (if b then ts else ts ++ [k]) nf') as [Hg2 Htk]; try done.
  { by rewrite Hcls. }
  { intros k' hd' b' Hin. destruct (Hargs k' hd' b') as (Hk' & ch' & p' & Hch' & Hh' & Hx' & Hp'); [by right|].
    split; [by rewrite Hdt|]. exists ch', p'. split_and!; try done; [|by apply Hdom].
    apply Hhandle; [done|by apply Hnl]. }
  split; [done|]. destruct Htk as [T1 T2 T3 T4 T5 T6 T7].
  assert (Hgf : ∀ k', gattr (cores h1) f k' = <[k := ARef p]> (c_attr L (n_core L nf)) !! k').
  { intros k'. unfold LamSpec.gattr. by rewrite (cores_Some _ _ _ _ Hf'), Hatt. }
  split.
  - intros x Hx'. apply T1, Hdom, Hx'.
  - intros n Hn. rewrite Hf in Hn. injection Hn as <-. destruct (T2 nf' Hf') as (n2 & ? & ? & ?).
    exists n2. split_and!; congruence.
  - intros x c Hc Hcl. apply T3; [by apply Hhandle|done].
  - intros x c Hne Hc. destruct (Hoth x c Hne Hc) as (tm & Hc1 & _).
    destruct (T4 x _ Hne Hc1) as (tm' & Hc2). by exists tm'.
  - intros x Hx'. apply Hdom, T5, Hx'.
  - intros k' Hk'. simpl in Hk'. apply not_elem_of_cons in Hk' as [Hne Hk']. rewrite T6 by done.
    rewrite Hgf, lookup_insert_ne by done. unfold LamSpec.gattr. by rewrite (cores_Some _ _ _ _ Hf).
  - intros Hnd k' hd' b' Hin. simpl in Hnd. apply NoDup_cons in Hnd as [Hnin Hnd].
    apply elem_of_cons in Hin as [[= -> -> ->]|Hin].
    + rewrite T6 by done. rewrite Hgf, lookup_insert. unfold LamSpec.gattr. by rewrite Hch.
    + rewrite (T7 Hnd k' hd' b' Hin).
      destruct (Hargs k' hd' b') as (_ & ch' & p' & Hch' & Hh' & Hx' & _); [by right|].
      unfold LamSpec.gattr. rewrite Hch'. rewrite (Hhandle hd' ch' Hch'); [done|]. by apply Hnl.
Qed.

Lemma register_other f (l : margs) : ∀ reg hd, hd ∉ (l.*1).*2 → register f l reg !! hd = reg !! hd.
Proof.
  induction l as [|[[k h'] b] l IH]; intros reg hd Hn; [done|]. simpl in *.
  apply not_elem_of_cons in Hn as [Hne Hn]. rewrite IH by done. destruct b; [|done].
  by apply lookup_insert_ne.
Qed.
Lemma register_in f (l : margs) : ∀ reg k hd, NoDup (l.*1).*2 → (k, hd, true) ∈ l →
  register f l reg !! hd = Some (f, k).
Proof.
  induction l as [|[[k' h'] b] l IH]; intros reg k hd Hnd Hin; [by apply elem_of_nil in Hin|].
  simpl in *. apply NoDup_cons in Hnd as [Hn Hnd]. apply elem_of_cons in Hin as [[= <- <- <-]|Hin].
  - rewrite register_other by done. apply lookup_insert.
  - by apply IH.
Qed.
Lemma register_back f (l : margs) : ∀ reg hd e, register f l reg !! hd = Some e →
  reg !! hd = Some e ∨ ∃ k, (k, hd, true) ∈ l ∧ e = (f, k).
Proof.
  induction l as [|[[k' h'] b] l IH]; intros reg hd e; simpl; [by left|]. intros H.
  apply IH in H as [H|(k & Hin & ->)].
  - destruct b; [|by left]. apply lookup_insert_Some in H as [[<- <-]|[_ H]]; [|by left].
    right. exists k'. split; [by left|done].
  - right. exists k. split; [by right|done].
Qed.

Lemma register_ok f (l : margs) h : ∀ reg, lgood reg h → NoDup (l.*1).*2 →
  (∀ k hd, (k, hd, true) ∈ l → reg !! hd = None ∧ entry_ok (cores h) hd f k ∧
     gattr (cores h) hd "x"%string = gattr (cores h) f k) →
  lgood (register f l reg) h.
Proof.
  induction l as [|[[k hd] b] l IH]; intros reg Hg Hnd Hl; [done|].
  simpl in *. apply NoDup_cons in Hnd as [Hn Hnd]. apply IH; [|done|].
  - destruct b; [|done]. destruct (Hl k hd) as (H1 & H2 & H3); [by left|].
    by apply (register_one L is_lam is_handle).
  - intros k' hd' Hin. destruct (Hl k' hd') as (H1 & H2 & H3); [by right|]. split_and!; try done.
    destruct b; [|done]. rewrite <- H1. apply lookup_insert_ne. intros ->. apply Hn.
    apply elem_of_list_fmap. exists (k', hd'). split; [done|]. apply elem_of_list_fmap. by exists (k', hd', true).
Qed.

Lemma mark_args_spec h r args (l : margs) : mark_args L h r args = Some l → l.*1 = args.
Proof.
  revert l. induction args as [|[k hd] args IH]; intros l; simpl; [by intros [= <-]|].
  destruct (uses_arg L h r hd) as [b|]; [|done]. destruct (mark_args L h r args) as [l'|]; [|done].
  intros [= <-]. simpl. f_equal. by apply IH.
Qed.

(** What making a lambda object does. *)
Record made (c : Cls L) (f : oid) (l : margs) (result : oid) (ls ls' : lstate L) : Prop := {
  md_good : lgood (ls_reg L ls') (st_h (ls_st L ls'));
  md_reg : ls_reg L ls' = register f l (ls_reg L ls);
  md_f : ∃ cf, lattrs ls' !! f = Some cf ∧ c_cls L cf = c ∧
    c_attr L cf !! "_result"%string = Some (ARef result) ∧
    ∀ k hd b, (k, hd, b) ∈ l → c_attr L cf !! k = gattr (lattrs ls) hd "x"%string;
  md_old : ∀ x cx, lattrs ls !! x = Some cx →
    ∃ tm, lattrs ls' !! x = Some (Core L (c_cls L cx) (c_dt L cx) tm (c_attr L cx));
  md_dom : ∀ x, is_Some (lattrs ls' !! x) → x = f ∨ is_Some (lattrs ls !! x)
}.

Lemma make_ok c f args result ls l : lgood (ls_reg L ls) (st_h (ls_st L ls)) →
  lop_ok L is_lam is_handle (LMake L c f args result) ls →
  mark_args L (st_h (ls_st L ls)) result args = Some l →
  made c f l result ls (make_lambda L is_lam c f args result ls).
Proof.
  intros Hg (Hf & Hl & Hres & Hnd1 & Hnd2 & Hargs) Hm. pose proof (mark_args_spec _ _ _ _ Hm) as El.
  set (h := st_h (ls_st L ls)) in *. set (reg := ls_reg L ls) in *. change (LamSpec.lattrs L ls) with (cores h) in *.
  apply not_elem_of_dom in Hf.
  assert (Hf' : h !! f = None) by (rewrite cores_lookup in Hf; by destruct (h !! f)).
  set (h0 := <[f := fresh_node L c (used_names l ++ ["_result"%string]) (lam_terms ++ ls_terms L ls)]> h).
  destruct (ll_lam _ _ _ Hll _ Hl) as (Hb & Hnh & _ & Hco).
  assert (Hg0 : lgood reg h0).
  { apply new_lgood; [done|done|done|]. apply Hco. apply elem_of_app. right. by left. }
  assert (Hff : reg !! f = None).
  { destruct (reg !! f) as [[f1 k1]|] eqn:E; [|done].
    destruct (entry_dom L is_lam is_handle h reg (lg_reg _ _ _ _ _ Hg) _ _ _ E) as [[? ?] _]. congruence. }
  assert (Hh0 : ∀ x, is_Some (h !! x) → h0 !! x = h !! x).
  { intros x [n Hx]. unfold h0. rewrite lookup_insert_ne; [done|]. intros <-. congruence. }
  assert (Hc0 : ∀ x, is_Some (cores h !! x) → cores h0 !! x = cores h !! x).
  { intros x Hx. rewrite !cores_lookup. rewrite Hh0; [done|]. rewrite cores_lookup in Hx. by apply fmap_is_Some in Hx. }
  assert (Harg0 : ∀ k hd b, (k, hd, b) ∈ l → (b = true → k ∈ used_names l) ∧ k ≠ "_result"%string ∧
     reg !! hd = None ∧ ∃ ch p, cores h !! hd = Some ch ∧ is_handle (c_cls L ch) = true ∧
       c_dt L ch = ["x"%string] ∧ c_attr L ch !! "x"%string = Some (ARef p) ∧ is_Some (h !! p)).
  { intros k hd b Hin. split.
    - intros ->. unfold used_names. apply elem_of_list_omap. by exists (k, hd, true).
    - destruct (Hargs k hd) as (Hk & Hhd & ch & p & ? & ? & ? & ? & Hp).
      { rewrite <- El. apply elem_of_list_fmap. by exists (k, hd, b). }
      split_and!.
      + intros ->. apply Hk. by left.
      + by apply not_elem_of_dom in Hhd.
      + exists ch, p. split_and!; try done. apply elem_of_dom in Hp. rewrite cores_lookup in Hp.
        by apply fmap_is_Some in Hp. }
  set (nf0 := fresh_node L c (used_names l ++ ["_result"%string]) (lam_terms ++ ls_terms L ls)) in *.
  assert (Hf0 : h0 !! f = Some nf0) by apply lookup_insert.
  destruct (take_args_ok reg f l h0 (ls_terms L ls) nf0) as [Hg1 [T1 T2 T3 T4 T5 T6 T7]]; try done.
  { intros k hd b Hin. destruct (Harg0 k hd b Hin) as (Hu & _ & _ & ch & p & H1 & H2 & H3 & H4 & H5). split.
    - intros Hbt. apply elem_of_app. left. by apply Hu.
    - exists ch, p. split_and!; try done; [rewrite Hc0; eauto|]. rewrite Hh0; done. }
  assert (Eh0 : mark_args L (st_h (ls_st L ls)) result args = Some l) by exact Hm.
  unfold make_lambda. rewrite Eh0. fold h. fold nf0. fold h0. fold reg.
  destruct (take_args L is_lam f l h0 (ls_terms L ls)) as [h1 ts] eqn:Eta. simpl in Hg1, T1, T2, T3, T4, T5, T6, T7.
  destruct (T2 nf0 Hf0) as (nf1 & Hf1 & Hcls1 & Hdt1). simpl in Hcls1, Hdt1.
  set (h2 := set_attr L None h1 f "_result"%string (ARef result)).
  assert (Hg2 : lgood reg h2).
  { apply (set_lgood reg h1 f "_result"%string result nf1); try done.
    - by rewrite Hcls1.
    - left. rewrite Hdt1. apply elem_of_app. right. by left.
    - apply T1. apply elem_of_dom in Hres. assert (Hr2 : is_Some (h !! result)).
      { rewrite cores_lookup in Hres. by apply fmap_is_Some in Hres. } by rewrite Hh0. }
  assert (Hdom2 : ∀ x, is_Some (h2 !! x) ↔ is_Some (h1 !! x)) by (intros x; apply set_attr_dom).
  assert (Hc2f : cores h2 !! f = Some (write L "_result"%string (ARef result) (n_core L nf1))).
  { unfold h2. rewrite set_attr_cores, lookup_alter, (cores_Some _ _ _ _ Hf1). done. }
  assert (Hc2 : ∀ x, x ≠ f → cores h2 !! x = cores h1 !! x).
  { intros x Hx. unfold h2. by rewrite set_attr_cores, lookup_alter_ne. }
  assert (Hnames : NoDup (l.*1).*1) by (by rewrite El).
  assert (Hattr1 : ∀ k hd b, (k, hd, b) ∈ l → c_attr L (n_core L nf1) !! k = gattr (cores h) hd "x"%string).
  { intros k hd b Hin. pose proof (T7 Hnames k hd b Hin) as H. unfold LamSpec.gattr in H at 1.
    rewrite (cores_Some _ _ _ _ Hf1) in H. rewrite H.
    destruct (Harg0 k hd b Hin) as (_ & _ & _ & ch & p & Hch & _). unfold LamSpec.gattr. rewrite Hc0; eauto. }
  assert (Hnl : ∀ c, is_handle c = true → is_lam c = false).
  { intros c' Hc. destruct (is_lam c') eqn:E; [|done]. destruct (ll_lam _ _ _ Hll _ E) as (_ & ? & _). congruence. }
  assert (Hhd2 : ∀ k hd b, (k, hd, b) ∈ l → hd ≠ f ∧ cores h2 !! hd = cores h !! hd).
  { intros k hd b Hin. destruct (Harg0 k hd b Hin) as (_ & _ & _ & ch & p & Hch & Hh & _).
    assert (hd ≠ f) by (intros ->; congruence). split; [done|]. rewrite Hc2 by done. rewrite Hch.
    apply T3; [rewrite Hc0; eauto|by apply Hnl]. }
  assert (Hg3 : lgood (register f l reg) h2).
  { apply register_ok; [done|by rewrite El|]. intros k hd Hin.
    destruct (Harg0 k hd true Hin) as (Hu & Hkr & Hreg & ch & p & Hch & Hh & Hdt & Hx & Hp).
    destruct (Hhd2 k hd true Hin) as [Hne Ehd]. split_and!; [done| |].
    - apply (EntryOk _ _ _ _ _ _ _ ch (write L "_result"%string (ARef result) (n_core L nf1)) p p); try done.
      + congruence.
      + simpl. by rewrite Hcls1.
      + simpl. rewrite Hdt1. apply elem_of_app. left. by apply Hu.
      + simpl. rewrite lookup_insert_ne by done. rewrite (Hattr1 k hd true Hin). unfold LamSpec.gattr. by rewrite Hch.
      + assert (Hp2 : is_Some (h2 !! p)). { apply Hdom2, T1. by rewrite Hh0. }
        rewrite cores_lookup. by apply fmap_is_Some.
    - unfold LamSpec.gattr. rewrite Ehd, Hch, Hc2f. simpl. rewrite lookup_insert_ne by done.
      rewrite (Hattr1 k hd true Hin). unfold LamSpec.gattr. by rewrite Hch. }
  split; simpl.
  - done.
  - done.
  - exists (write L "_result"%string (ARef result) (n_core L nf1)). split_and!; [done|done| |].
    + simpl. by rewrite lookup_insert.
    + intros k hd b Hin. simpl. destruct (Harg0 k hd b Hin) as (_ & Hkr & _).
      rewrite lookup_insert_ne by done. by apply (Hattr1 k hd b).
  - intros x cx Hx. change (LamSpec.lattrs L ls) with (cores h) in Hx. assert (x ≠ f) by congruence.
    change (LamSpec.lattrs L _) with (cores h2).
    rewrite Hc2 by done. apply T4; [done|]. rewrite Hc0; eauto.
  - intros x Hx. change (is_Some (cores h2 !! x)) in Hx. change (x = f ∨ is_Some (cores h !! x)). destruct (decide (x = f)) as [->|Hne]; [by left|].
    right. rewrite cores_lookup in Hx. apply fmap_is_Some in Hx. apply Hdom2, T5 in Hx.
    unfold h0 in Hx. rewrite lookup_insert_ne in Hx by done. rewrite cores_lookup. by apply fmap_is_Some.
Qed.

(** Every call keeps the invariant. *)
Lemma lstep_lgood a ls : lgood (ls_reg L ls) (st_h (ls_st L ls)) → lop_ok L is_lam is_handle a ls →
  lgood (ls_reg L (lstep L is_lam a ls)) (st_h (ls_st L (lstep L is_lam a ls))).
Proof.
  intros Hg Hok. destruct a as [o c dt tm|o k v o'|n o|c f args result].
  - destruct Hok as [Hn Hco]. simpl. apply new_lgood; [done|done| |done].
    apply not_elem_of_dom in Hn. rewrite cores_lookup in Hn. by destruct (st_h (ls_st L ls) !! o).
  - destruct Hok as (Hok & Ho & c & Hc & Htr). apply not_elem_of_dom in Ho.
    apply cores_Some_inv in Hc as (no & Hno & <-). simpl.
    by apply (assign_lgood L is_lam is_handle Hlib Hll _ _ _ _ _ _ no).
  - simpl. by apply (read_l_ok L is_lam is_handle Hlib Hll).
  - destruct (mark_args L (st_h (ls_st L ls)) result args) as [l|] eqn:E.
    + by apply (make_ok c f args result ls l).
    + simpl. unfold make_lambda. by rewrite E.
Qed.

Lemma lstart_lgood : lgood (ls_reg L (lstart L)) (st_h (ls_st L (lstart L))).
Proof.
  assert (Hc : cores ∅ = ∅) by (unfold EngineModel.cores; by rewrite fmap_empty).
  split; simpl.
  - split; split; rewrite ?Hc; try done.
    intros p d x (c & Hx & _). by rewrite lookup_empty in Hx.
  - intros hd f k E. assert (E0 : (∅ : registry) !! hd = None) by apply lookup_empty.
    unfold registry in *. congruence.
  - intros hd f k nf E. assert (E0 : (∅ : registry) !! hd = None) by apply lookup_empty.
    unfold registry in *. congruence.
  - intros x nx v Hx. by rewrite lookup_empty in Hx.
Qed.

Lemma lvalid_lgood l : ∀ ls, lgood (ls_reg L ls) (st_h (ls_st L ls)) → lvalid_from L is_lam is_handle l ls →
  lgood (ls_reg L (lexec L is_lam l ls)) (st_h (ls_st L (lexec L is_lam l ls))).
Proof.
  induction l as [|a l IH]; intros ls Hg Hv; [done|]. destruct Hv as [Hok Hv]. simpl.
  apply IH; [by apply lstep_lgood|done].
Qed.
Lemma lafter_good l : lvalid L is_lam is_handle l →
  lgood (ls_reg L (lafter L is_lam l)) (st_h (ls_st L (lafter L is_lam l))).
Proof. intros Hv. apply lvalid_lgood; [apply lstart_lgood|done]. Qed.

(* ------------------------------------------------------------------ *)
(** The written-out body. *)
Section body.
Context (reg : registry) (g : graph) (f : oid) (R : oid → oid → Prop).
Context (Hr : reg_ok reg g) (HR : written_out L reg g f R).
Notation sg := (substituted reg g).

Lemma sub_handle hd k q : reg !! hd = Some (f, k) → gattr g f k = Some (ARef q) →
  ∀ n, eval L (S n) sg hd QR = eval L n sg q QR.
Proof.
  intros E Hq n. destruct (Hr _ _ _ E) as [ch cf p q' Hhd Hh Hdt Hx Hf Hl Hk Ha Hqd Hn].
  destruct (ll_handle _ _ _ Hll _ Hh) as [_ Hcr]. cbn [eval]. unfold LamSpec.substituted at 1.
  rewrite hand_lookup, Hhd. simpl. rewrite decide_True by (by apply elem_of_dom_2 in E).
  rewrite (entry_current _ _ _ _ _ _ E), Hq. simpl. rewrite Hcr. simpl. rewrite lookup_insert.
  by destruct (eval L n sg q QR).
Qed.

Lemma match_plain ca cb : (∀ k, attrs_match L R (c_attr L ca !! k) (c_attr L cb !! k)) → plain L ca = plain L cb.
Proof.
  intros H. apply map_eq; intros k. apply option_eq; intros t. rewrite !plain_lookup. specialize (H k).
  destruct (c_attr L ca !! k) as [[s|x]|], (c_attr L cb !! k) as [[s'|y]|]; simpl in H; naive_solver.
Qed.

Lemma body_eval n : ∀ a b v, R a b →
  (eval L n sg a QR = Some v → eval L n sg b QR = Some v) ∧
  (eval L n sg b QR = Some v → eval L (S n) sg a QR = Some v).
Proof.
  induction n as [|n IH]; intros a b v Hab.
  { split; [done|]. simpl. done. }
  destruct (HR a b Hab) as [->|[(k & E & Hq)|(Ea & Eb & ca & cb & Hca & Hcb & Hcls & Hm)]].
  - split; [done|]. apply eval_mono. lia.
  - split.
    + rewrite (sub_handle _ _ _ E Hq). apply eval_mono. lia.
    + by rewrite (sub_handle _ _ _ E Hq).
  - assert (Ha : sg !! a = Some ca) by (unfold LamSpec.substituted; by rewrite hand_free).
    assert (Hb : sg !! b = Some cb) by (unfold LamSpec.substituted; by rewrite hand_free).
    pose proof (match_plain ca cb Hm) as Hpl.
    split.
    + change (eval L (S n) sg a QR = Some v) with
        (match sg !! a with None => None | Some c => runp L (answer L (eval L n sg) a c)
           (compute_r L (c_cls L c) (plain L c)) end = Some v).
      change (eval L (S n) sg b QR = Some v) with
        (match sg !! b with None => None | Some c => runp L (answer L (eval L n sg) b c)
           (compute_r L (c_cls L c) (plain L c)) end = Some v).
      rewrite Ha, Hb, Hcls, Hpl. apply runp_mono. intros [|k|k] u; simpl.
      * by apply IH.
      * specialize (Hm k). destruct (c_attr L ca !! k) as [[s|x]|]; [done| |done].
        destruct (c_attr L cb !! k) as [[s'|y]|]; simpl in Hm; [done| |done]. by apply IH.
      * destruct n as [|n']; [done|]. simpl. rewrite Ha. by rewrite (ll_props _ _ _ Hll), lookup_empty.
    + change (eval L (S (S n)) sg a QR = Some v) with
        (match sg !! a with None => None | Some c => runp L (answer L (eval L (S n) sg) a c)
           (compute_r L (c_cls L c) (plain L c)) end = Some v).
      change (eval L (S n) sg b QR = Some v) with
        (match sg !! b with None => None | Some c => runp L (answer L (eval L n sg) b c)
           (compute_r L (c_cls L c) (plain L c)) end = Some v).
      rewrite Ha, Hb, Hcls, Hpl. apply runp_mono. intros [|k|k] u; cbn [answer].
      * by apply IH.
      * specialize (Hm k). destruct (c_attr L ca !! k) as [[s|x]|], (c_attr L cb !! k) as [[s'|y]|]; simpl in Hm; try done.
        by apply IH.
      * destruct n as [|n']; [done|]. simpl. rewrite Hb. by rewrite (ll_props _ _ _ Hll), lookup_empty.
Qed.

Lemma body_denotes a b v : R a b → denotes L sg a QR v ↔ denotes L sg b QR v.
Proof.
  intros Hab. split; intros [n Hn].
  - exists n. by apply (body_eval n a b v Hab).
  - exists (S n). by apply (body_eval n a b v Hab).
Qed.

Lemma lam_denotes cf r v : g !! f = Some cf → is_lam (c_cls L cf) = true → reg !! f = None →
  c_attr L cf !! "_result"%string = Some (ARef r) →
  denotes L sg f QR v ↔ denotes L sg r QR v.
Proof.
  intros Hf Hl Hfr Hres.
  assert (He : ∀ n, eval L (S n) sg f QR = eval L n sg r QR).
  { intros n. cbn [eval]. unfold LamSpec.substituted at 1. rewrite hand_free, Hf by done.
    destruct (ll_lam _ _ _ Hll _ Hl) as (_ & _ & Hcr & _). rewrite Hcr. simpl. rewrite Hres.
    by destruct (eval L n sg r QR). }
  split; intros [n Hn].
  - destruct n as [|n]; [done|]. exists n. by rewrite <- He.
  - exists (S n). by rewrite He.
Qed.
End body.

Lemma lam_free reg g f cf : reg_ok reg g → g !! f = Some cf → is_lam (c_cls L cf) = true → reg !! f = None.
Proof.
  intros Hr Hf Hl. destruct (reg !! f) as [[f1 k1]|] eqn:E; [|done].
  destruct (Hr _ _ _ E) as [ch cf' p q Hhd Hh Hdt Hx _ _ _ _ _ _]. rewrite Hf in Hhd. injection Hhd as <-.
  destruct (ll_lam _ _ _ Hll _ Hl) as (_ & ? & _). congruence.
Qed.

(** A lambda object reads like its body with the current arguments. *)
Lemma lambda_reads l f cf r y R v :
  lvalid L is_lam is_handle l →
  let ls := lafter L is_lam l in
  lattrs ls !! f = Some cf → is_lam (c_cls L cf) = true →
  c_attr L cf !! "_result"%string = Some (ARef r) →
  written_out L (ls_reg L ls) (lattrs ls) f R → R r y →
  safe (ls_reg L ls) (lattrs ls) f → safe (ls_reg L ls) (lattrs ls) y →
  reads_l L ls f v ↔ reads_l L ls y v.
Proof.
  intros Hv ls Hf Hl Hres HR Hry Hsf Hsy. pose proof (lafter_good l Hv) as Hg. fold ls in Hg.
  rewrite !(lgood_reads L is_lam is_handle Hlib Hll ls _ v Hg) by done.
  pose proof (lg_reg _ _ _ _ _ Hg) as Hr.
  rewrite (lam_denotes (ls_reg L ls) (lattrs ls) f cf r v Hf Hl (lam_free _ _ _ _ Hr Hf Hl) Hres).
  by apply (body_denotes (ls_reg L ls) (lattrs ls) f R).
Qed.

(** Assignments to one object do not change what others read that do not depend on it. *)
Lemma set_others l o k v o' x u : lvalid L is_lam is_handle l →
  let ls := lafter L is_lam l in let ls' := lstep L is_lam (LSet L o k v o') ls in
  lop_ok L is_lam is_handle (LSet L o k v o') ls →
  is_Some (lattrs ls !! x) → ¬ dep L (lattrs ls) x o →
  safe (ls_reg L ls) (lattrs ls) x → safe (ls_reg L ls') (lattrs ls') x →
  reads_l L ls x u ↔ reads_l L ls' x u.
Proof.
  intros Hv ls ls' Hok Hx Hn Hsx Hsx'. pose proof (lafter_good l Hv) as Hg. fold ls in Hg.
  pose proof (lstep_lgood _ ls Hg Hok) as Hg'. fold ls' in Hg'.
  rewrite (lgood_reads L is_lam is_handle Hlib Hll ls _ u Hg Hsx).
  rewrite (lgood_reads L is_lam is_handle Hlib Hll ls' _ u Hg' Hsx').
  destruct Hok as (Hok & Ho & c & Hc & Htr). apply not_elem_of_dom in Ho.
  assert (Ecs : lattrs ls' = gassign L (lattrs ls) (o, k, v, o')).
  { unfold LamSpec.lattrs, ls'. simpl. apply assign_cores; [done|]. by eapply assign_ok_fresh. }
  destruct (gassign_facts _ _ _ _ _ _ _ Hok Hc) as (w & _ & Hfr & _).
  change (ls_reg L ls') with (ls_reg L ls) in *.
  apply (substituted_frame L is_lam is_handle Hll (st_h (ls_st L ls)) (lattrs ls') (ls_reg L ls) o); try done.
  - apply Hg.
  - apply (lg_reg _ _ _ _ _ Hg).
  - apply (lg_reg _ _ _ _ _ Hg').
  - intros p Hp Hne. rewrite Ecs. apply Hfr; [|done]. rewrite cores_lookup. by apply fmap_is_Some.
  - unfold LamSpec.lattrs in Hx. rewrite cores_lookup in Hx. by apply fmap_is_Some in Hx.
Qed.

(** Reading one object does not change what others read. *)
Lemma read_others l n o x u : lvalid L is_lam is_handle l →
  let ls := lafter L is_lam l in let ls' := lstep L is_lam (LRead L n o) ls in
  safe (ls_reg L ls) (lattrs ls) o → safe (ls_reg L ls) (lattrs ls) x →
  safe (ls_reg L ls') (lattrs ls') x ∧ (reads_l L ls x u ↔ reads_l L ls' x u).
Proof.
  intros Hv ls ls' Hso Hsx. pose proof (lafter_good l Hv) as Hg. fold ls in Hg.
  pose proof (lstep_lgood (LRead L n o) ls Hg Hso) as Hg'. fold ls' in Hg'.
  destruct (read_l_ok L is_lam is_handle Hlib Hll (ls_reg L ls) n o (ls_st L ls) Hg Hso) as (_ & Hp & _).
  assert (Hsx' : safe (ls_reg L ls') (lattrs ls') x) by (by apply Hp).
  split; [done|].
  rewrite (lgood_reads L is_lam is_handle Hlib Hll ls _ u Hg Hsx).
  rewrite (lgood_reads L is_lam is_handle Hlib Hll ls' _ u Hg' Hsx').
  assert (E : substituted (ls_reg L ls') (lattrs ls') = substituted (ls_reg L ls) (lattrs ls)).
  { apply (passes_sub L is_lam is_handle Hll); [apply Hg|done]. }
  by rewrite E.
Qed.

(** Making a lambda object does not change what existing objects read, although it may
    add to the terms of other lambda objects. *)
Definition same_but_terms (c1 c2 : core L) : Prop :=
  c_cls L c1 = c_cls L c2 ∧ c_dt L c1 = c_dt L c2 ∧ c_attr L c1 = c_attr L c2.

Lemma eval_terms n g1 g2 : (∀ o, option_Forall2 same_but_terms (g1 !! o) (g2 !! o)) →
  ∀ o w, eval L n g1 o w = eval L n g2 o w.
Proof.
  intros H. induction n as [|n IH]; intros o w; [done|]. simpl. pose proof (H o) as Ho.
  inversion Ho as [c1 c2 (Hc & Hd & Ha) E1' E2'|]; [|done].
  assert (Hp : plain L c1 = plain L c2) by (unfold plain; by rewrite Ha).
  assert (Hans : ∀ q, answer L (eval L n g1) o c1 q = answer L (eval L n g2) o c2 q).
  { intros [|k|k]; simpl; [apply IH| |apply IH]. rewrite Ha. destruct (c_attr L c2 !! k) as [[]|]; auto. }
  rewrite Hc, Hp. destruct w as [|k]; [by apply runp_same|].
  destruct (prop_deps _ _ !! k); [by apply runp_same|done].
Qed.

Lemma made_others c f l result ls ls' x u :
  lgood (ls_reg L ls) (st_h (ls_st L ls)) → NoDup (l.*1).*2 → lattrs ls !! f = None →
  (∀ k hd b, (k, hd, b) ∈ l → ls_reg L ls !! hd = None ∧ is_Some (lattrs ls !! hd)) →
  made c f l result ls ls' → is_Some (lattrs ls !! x) → safe (ls_reg L ls) (lattrs ls) x →
  safe (ls_reg L ls') (lattrs ls') x ∧ (reads_l L ls x u ↔ reads_l L ls' x u).
Proof.
  intros Hg Hnd Hf Hargs [Hg' Ereg (cf & Hcf & _ & _ & Hattr) Hold Hdom] Hx Hs.
  set (g := lattrs ls) in *. set (g' := lattrs ls') in *.
  set (reg := ls_reg L ls) in *. set (reg' := ls_reg L ls') in *.
  assert (Hr : reg_ok reg g) by apply Hg. assert (Hr' : reg_ok reg' g') by apply Hg'.
  assert (Hgat : ∀ o k, is_Some (g !! o) → gattr g' o k = gattr g o k).
  { intros o k [co Hco]. destruct (Hold o co Hco) as [tm E]. unfold LamSpec.gattr. by rewrite E, Hco. }
  assert (Hent : ∀ hd f1 k1, reg' !! hd = Some (f1, k1) →
     (reg !! hd = Some (f1, k1) ∧ is_Some (g !! hd) ∧ is_Some (g !! f1)) ∨
     (is_Some (g !! hd) ∧ reg !! hd = None ∧ gattr g' f1 k1 = gattr g hd "x"%string)).
  { intros hd f1 k1 E. rewrite Ereg in E. apply register_back in E as [E|(k & Hin & [= -> ->])].
    - left. destruct (Hr _ _ _ E) as [ch cf' p q Hhd _ _ _ Hf' _ _ _ _ _]. split_and!; eauto.
    - right. destruct (Hargs k hd true Hin) as [H1 H2]. split_and!; [done|done|].
      unfold LamSpec.gattr at 1. rewrite Hcf. by apply (Hattr k hd true). }
  assert (Hb : ∀ hd, behind reg' g' hd → behind reg g hd).
  { intros hd (f1 & k1 & E & Hne). destruct (Hent _ _ _ E) as [(E' & H1 & H2)|(H1 & _ & H2)].
    - exists f1, k1. by rewrite <- !Hgat.
    - rewrite H2, Hgat in Hne by done. done. }
  assert (Hedge : ∀ o d y, is_Some (g !! o) → edge L g' o d y → edge L g o d y).
  { intros o d y [co Hco] (c' & Hc' & H1 & H2 & H3). destruct (Hold o co Hco) as [tm E].
    rewrite E in Hc'. injection Hc' as <-. by exists co. }
  assert (Hclosed : ∀ o d y, edge L g o d y → is_Some (g !! y)).
  { intros o d y He. destruct (lg_inv _ _ _ _ _ Hg) as [Hsi _].
    destruct (si_closed _ _ Hsi _ _ _ He) as [n Hn]. unfold g, LamSpec.lattrs. rewrite cores_lookup, Hn. by eexists. }
  assert (Hexp : ∀ hd y, is_Some (g !! y) → exposed reg' g' hd y → exposed reg g hd y).
  { intros hd y Hy He. induction He as [Hbh|y d z He Hd Hz IH]; [constructor; by apply Hb|].
    pose proof (Hedge _ _ _ Hy He) as He'. eapply ex_step; [done| |].
    - intros k E. apply (Hd k). pose proof (exposed_behind _ _ _ _ _ Hz) as (f1 & k1 & E1' & _).
      destruct (Hent _ _ _ E1') as [(E' & _)|(_ & E' & _)]; congruence.
    - apply IH. by eapply Hclosed. }
  assert (Hs' : safe reg' g' x) by (intros hd He; apply (Hs hd); by apply Hexp).
  split; [done|].
  rewrite (lgood_reads L is_lam is_handle Hlib Hll ls _ u Hg Hs).
  rewrite (lgood_reads L is_lam is_handle Hlib Hll ls' _ u Hg' Hs').
  change (denotes L (substituted reg g) x QR u ↔ denotes L (substituted reg' g') x QR u).
  set (fix_ := λ o (c : core L), Some (match substituted reg g !! o with
     | Some c0 => Core L (c_cls L c) (c_dt L c) (c_tm L c0) (c_attr L c) | None => c end)).
  set (g2 := map_imap fix_ (substituted reg' g')).
  assert (H2 : ∀ n, eval L n (substituted reg' g') x QR = eval L n g2 x QR).
  { intros n. apply eval_terms. intros o. unfold g2. rewrite map_lookup_imap.
    destruct (substituted reg' g' !! o) as [c'|]; [|constructor]. simpl. constructor. unfold fix_.
    by destruct (substituted reg g !! o). }
  assert (H1 : ∀ n, eval L n (substituted reg g) x QR = eval L n g2 x QR).
  { intros n. apply eval_frame.
    2:{ intros p c' _ Hc'. refine (hand_graph_ok L is_lam is_handle Hll reg _ _ Hr _ p c' Hc').
        apply (si_ok _ _ (proj1 (lg_inv _ _ _ _ _ Hg))). }
    intros p Hp. apply (dep_hand L is_lam is_handle Hll) in Hp; [|done|intros; apply Hs].
    assert (Hpd : is_Some (g !! p)).
    { clear -Hp Hx Hclosed. induction Hp as [|a b z [d He] _ IH]; [done|]. apply IH. by eapply Hclosed. }
    destruct Hpd as [cp Hcp]. destruct (Hold p cp Hcp) as [tm Ep].
    unfold gsim, g2. rewrite map_lookup_imap.
    unfold LamSpec.substituted at 1 2. rewrite !hand_lookup, Hcp, Ep. simpl. constructor. unfold fix_.
    unfold LamSpec.substituted. rewrite hand_lookup, Hcp. simpl.
    assert (Hcur : c_attr L (if decide (p ∈ dom reg') then put L (current L g' reg' p) (Core L (c_cls L cp) (c_dt L cp) tm (c_attr L cp))
        else Core L (c_cls L cp) (c_dt L cp) tm (c_attr L cp)) =
      c_attr L (if decide (p ∈ dom reg) then put L (current L g reg p) cp else cp)).
    { destruct (reg' !! p) as [[f1 k1]|] eqn:E.
      - rewrite decide_True by (by apply elem_of_dom_2 in E). rewrite (entry_current _ _ _ _ _ _ E).
        destruct (Hent _ _ _ E) as [(E' & Hd1 & Hd2)|(_ & E' & Heq)].
        + rewrite decide_True by (by apply elem_of_dom_2 in E'). rewrite (entry_current _ _ _ _ _ _ E').
          rewrite Hgat by done. by destruct (gattr g f1 k1).
        + rewrite decide_False by (by apply not_elem_of_dom). rewrite Heq.
          unfold LamSpec.gattr. rewrite Hcp. destruct (c_attr L cp !! "x"%string) as [v|] eqn:Ev; simpl; [|done].
          by apply insert_id.
      - assert (E' : reg !! p = None).
        { destruct (reg !! p) as [e|] eqn:E2'; [|done]. exfalso.
          assert (Hpl : p ∉ (l.*1).*2).
          { intros Hin. apply elem_of_list_fmap in Hin as ([k hd] & -> & Hin).
            apply elem_of_list_fmap in Hin as ([[k' hd'] b] & [= <- <-] & Hin).
            destruct (Hargs k hd b Hin) as [H0 _]. simpl in E2'. congruence. }
          rewrite Ereg, (register_other f l reg p Hpl) in E. congruence. }
        rewrite !decide_False by (by apply not_elem_of_dom). done. }
    split; simpl.
    - repeat case_decide; unfold put; repeat case_match; done.
    - repeat case_decide; unfold put; repeat case_match; done.
    - done.
    - intros k _. symmetry. by rewrite Hcur. }
  unfold denotes. setoid_rewrite H1. by setoid_rewrite H2.
Qed.

Lemma make_others l c f args result x u : lvalid L is_lam is_handle l →
  let ls := lafter L is_lam l in let ls' := lstep L is_lam (LMake L c f args result) ls in
  lop_ok L is_lam is_handle (LMake L c f args result) ls →
  is_Some (lattrs ls !! x) → safe (ls_reg L ls) (lattrs ls) x →
  safe (ls_reg L ls') (lattrs ls') x ∧ (reads_l L ls x u ↔ reads_l L ls' x u).
Proof.
  intros Hv ls ls' Hok Hx Hs. pose proof (lafter_good l Hv) as Hg. fold ls in Hg.
  unfold ls'. simpl. destruct (mark_args L (st_h (ls_st L ls)) result args) as [ml|] eqn:E.
  2:{ unfold make_lambda. rewrite E. done. }
  pose proof (make_ok c f args result ls ml Hg Hok E) as Hmade.
  destruct Hok as (Hf & Hl & Hres & Hnd1 & Hnd2 & Hargs). pose proof (mark_args_spec _ _ _ _ E) as El.
  apply (made_others c f ml result ls _ x u Hg); try done.
  - by rewrite El.
  - by apply not_elem_of_dom in Hf.
  - intros k hd b Hin. destruct (Hargs k hd) as (_ & Hhd & ch & p & Hch & _).
    { rewrite <- El. apply elem_of_list_fmap. by exists (k, hd, b). }
    split; [by apply not_elem_of_dom in Hhd|]. by eexists.
Qed.

(** Reading changes no attributes but those of handles. *)
Lemma read_attrs l n o x : lvalid L is_lam is_handle l →
  let ls := lafter L is_lam l in let ls' := lstep L is_lam (LRead L n o) ls in
  safe (ls_reg L ls) (lattrs ls) o → ls_reg L ls !! x = None → lattrs ls' !! x = lattrs ls !! x.
Proof.
  intros Hv ls ls' Hso Hx. pose proof (lafter_good l Hv) as Hg. fold ls in Hg.
  destruct (read_l_ok L is_lam is_handle Hlib Hll (ls_reg L ls) n o (ls_st L ls) Hg Hso) as (_ & Hp & _).
  by apply (passes_free L (ls_reg L ls)).
Qed.

(** What is read after a history. *)
Lemma lafter_reads l o v : lvalid L is_lam is_handle l → let ls := lafter L is_lam l in
  safe (ls_reg L ls) (lattrs ls) o →
  (reads_l L ls o v ↔ denotes L (substituted (ls_reg L ls) (lattrs ls)) o QR v).
Proof.
  intros Hv ls Hs. apply (lgood_reads L is_lam is_handle Hlib Hll ls o v); [|done]. by apply lafter_good.
Qed.

(** Which handles are recorded. *)
Lemma mark_args_in h r args (ml : margs) k hd : mark_args L h r args = Some ml → (k, hd) ∈ args →
  ∃ b, (k, hd, b) ∈ ml ∧ uses_arg L h r hd = Some b.
Proof.
  revert ml. induction args as [|[k0 hd0] args IH]; intros ml; simpl; [intros _ H; by apply elem_of_nil in H|].
  destruct (uses_arg L h r hd0) as [b0|] eqn:Eu; [|done]. destruct (mark_args L h r args) as [l'|]; [|done].
  intros [= <-] [[= -> ->]|H]%elem_of_cons.
  - exists b0. split; [by left|done].
  - destruct (IH l' eq_refl H) as (b & Hb & E). exists b. split; [by right|done].
Qed.
Lemma mark_args_total h r args : (∀ k hd, (k, hd) ∈ args → is_Some (uses_arg L h r hd)) →
  is_Some (mark_args L h r args).
Proof.
  induction args as [|[k0 hd0] args IH]; intros H; simpl; [by eexists|].
  destruct (H k0 hd0) as [b ->]; [by left|]. destruct IH as [l' ->].
  - intros k hd Hin. apply (H k). by right.
  - by eexists.
Qed.

Lemma inv_base h : inv L h → ∀ o c k p, cores h !! o = Some c → is_base L (c_cls L c) = true →
  k ∈ c_dt L c ∨ k ∈ c_tm L c → c_attr L c !! k ≠ Some (ARef p).
Proof.
  intros [Hs _] o c k p Ho Hb Hk. destruct (si_ok _ _ Hs o c Ho) as [Hco Hx].
  destruct Hk as [Hk|Hk]; [by apply Hx|]. destruct (co_base _ _ _ _ Hco Hb) as (_ & E & _).
  rewrite E in Hk. by apply elem_of_nil in Hk.
Qed.
Lemma inv_points h : inv L h → ∀ x y, points L (cores h) x y → y ∈ dom (cores h).
Proof.
  intros Hi x y (c & k & Hc & Hk & Ha). apply elem_of_dom. rewrite cores_lookup. apply fmap_is_Some.
  apply (si_closed _ _ (proj1 Hi) x k y). exists c. split_and!; try done.
  destruct (is_base L (c_cls L c)) eqn:Hb; [|done]. exfalso. apply (inv_base h Hi x c k y); auto.
Qed.

Lemma make_binds l c f args result : lvalid L is_lam is_handle l →
  let ls := lafter L is_lam l in let ls' := lstep L is_lam (LMake L c f args result) ls in
  lop_ok L is_lam is_handle (LMake L c f args result) ls →
  (acyclic (points L (lattrs ls)) → is_Some (lattrs ls' !! f)) ∧
  ∀ cf, lattrs ls' !! f = Some cf →
    c_cls L cf = c ∧ c_attr L cf !! "_result"%string = Some (ARef result) ∧
    ∀ k hd, (k, hd) ∈ args → c_attr L cf !! k = gattr (lattrs ls) hd "x"%string ∧
      (rtc (points L (lattrs ls)) result hd → ls_reg L ls' !! hd = Some (f, k)).
Proof.
  intros Hv ls ls' Hok. pose proof (lafter_good l Hv) as Hg. fold ls in Hg.
  set (h := st_h (ls_st L ls)) in *. change (lattrs ls) with (cores h) in *.
  pose proof Hok as (Hf & Hl & Hres & Hnd1 & Hnd2 & Hargs). fold h in Hf, Hres, Hargs. split.
  - intros Hac. assert (Hm : is_Some (mark_args L h result args)).
    { apply mark_args_total. intros k hd Hin. destruct (Hargs k hd Hin) as (_ & _ & ch & p & Hch & _ & _ & Hx & _).
      unfold uses_arg. rewrite attr_of_gattr. unfold LamSpec.gattr. rewrite Hch, Hx.
      destruct (is_dr_wrt_ends L (cores h) p (inv_points h (lg_inv _ _ _ _ _ Hg)) Hac (S (size h)) result) as [b Hb]; [|done|].
      - rewrite size_dom. assert (E : size (cores h) = size h) by apply map_size_fmap. rewrite E. lia.
      - by eexists. }
    destruct Hm as [ml Hm]. pose proof (make_ok c f args result ls ml Hg Hok Hm) as Hmade.
    destruct (md_f _ _ _ _ _ _ Hmade) as (cf & Hcf & _). by eexists.
  - intros cf Hcf. destruct (mark_args L h result args) as [ml|] eqn:Hm.
    2:{ exfalso. apply Hf. apply elem_of_dom. exists cf. unfold ls', lstep, make_lambda in Hcf. fold h in Hcf.
        rewrite Hm in Hcf. exact Hcf. }
    pose proof (make_ok c f args result ls ml Hg Hok Hm) as Hmade. fold ls' in Hmade.
    destruct (md_f _ _ _ _ _ _ Hmade) as (cf' & Hcf' & Hc & Hr & Hk).
    change (lattrs (make_lambda L is_lam c f args result ls)) with (lattrs ls') in Hcf'.
    rewrite Hcf in Hcf'. injection Hcf' as <-. split_and!; [done|done|].
    intros k hd Hin. destruct (mark_args_in _ _ _ _ _ _ Hm Hin) as (b & Hb & Hu). split; [by apply (Hk k hd b)|].
    intros Hreach. change (ls_reg L ls') with (ls_reg L (make_lambda L is_lam c f args result ls)).
    rewrite (md_reg _ _ _ _ _ _ Hmade). apply register_in; [by rewrite (mark_args_spec _ _ _ _ Hm)|].
    destruct b; [done|]. exfalso.
    destruct (Hargs k hd Hin) as (_ & _ & ch & p & Hch & _ & Hdt & Hx & _).
    unfold uses_arg in Hu. rewrite attr_of_gattr in Hu. unfold LamSpec.gattr in Hu. rewrite Hch, Hx in Hu.
    destruct (is_dr_wrt_says L _ _ _ _ _ (inv_base h (lg_inv _ _ _ _ _ Hg)) Hu) as [_ HH].
    discriminate HH. right. eapply tc_rtc_l; [exact Hreach|]. apply tc_once.
    exists ch, "x"%string. split_and!; [done| |done]. rewrite Hdt. by left.
Qed.

End make.
