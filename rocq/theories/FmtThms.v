(** Cached and converted derivatives stand for the same matrices. *)
From Coq Require Import Reals Lra.
From stdpp Require Import gmap list list_numbers relations.
From Verif Require Import ArrModel ArrThms RepModel RepSpec RepThms RepSum RepGraph RepDemo RepOpsSpec RepOps FmtModel FmtSpec.

Lemma densify_mat r n m A : is_mat r n m A → is_mat (densify r) n m A.
Proof.
  destruct r as [| |n' m' f|]; try done. intros (-> & -> & H). split; [done|]. intros i j Hi Hj. simpl.
  rewrite Nat.div_add_l, Nat.div_small, Nat.add_0_r by lia. rewrite Nat.add_comm, Nat.mod_add, Nat.mod_small by lia. by apply H.
Qed.
Lemma sparse_mat a n m A : is_mat (Arr a) n m A → ∃ r, to_sparse a = Some r ∧ is_sparse r = true ∧ is_mat r n m A.
Proof. intros [Hs Hd]. unfold to_sparse. rewrite Hs. eexists. split; [done|]. split; [done|]. by split_and!. Qed.
Lemma forward_none w nd f ps : foldl (add_forward w nd f) None ps = None.
Proof. by induction ps. Qed.
Lemma forward_grows w nd f ps l l' : foldl (add_forward w nd f) (Some l) ps = Some l' → ∃ k, l' = l ++ k.
Proof.
  revert l. induction ps as [|p ps IH]; intros l; cbn [foldl].
  - intros [= <-]. exists []. by rewrite app_nil_r.
  - destruct (add_forward w nd f (Some l) p) as [l1|] eqn:E; [|by rewrite forward_none].
    intros H. destruct (IH l1 H) as [k ->].
    assert (∃ k, l1 = l ++ k) as [k1 ->].
    { unfold add_forward in E. simpl in E. destruct (decide _); [injection E as <-; exists []; by rewrite app_nil_r|].
      destruct (f p) as [[d|]|]; [|injection E as <-; exists []; by rewrite app_nil_r|done]. simpl in E.
      destruct (jac nd p); [|injection E as <-; exists []; by rewrite app_nil_r].
      destruct (superdot _ _); [|done]. injection E as <-. by eexists. }
    exists (k1 ++ k). by rewrite app_assoc.
Qed.
Lemma forward_some w nd f p d ps l l' : p ∈ ps → p ≠ w → f p = Some (Some d) → is_Some (jac nd p) →
  foldl (add_forward w nd f) (Some l) ps = Some l' → l' ≠ [].
Proof.
  intros Hp Hw Hf [j Hj]. revert l. induction ps as [|q ps IH]; intros l; [by apply elem_of_nil in Hp|].
  cbn [foldl].
  destruct (add_forward w nd f (Some l) q) as [l1|] eqn:E; [|by rewrite forward_none].
  apply elem_of_cons in Hp as [<-|Hp]; [|by apply IH]. intros H. destruct (forward_grows _ _ _ _ _ _ H) as [k ->].
  unfold add_forward in E. simpl in E. rewrite decide_False, Hf, Hj in E by done. simpl in E. destruct (superdot _ _); [|done].
  injection E as <-. intros H1. apply app_eq_nil in H1 as [H1 _]. by destruct l.
Qed.
Lemma conclude_none l : conclude l = Some None → l = [].
Proof.
  unfold conclude, dsum. destruct l as [|d [|e l]]; [done| |].
  - simpl. by destruct (finish d).
  - destruct (existsb _ _).
    + destruct (shape2 d) as [[? ?]|]; [|done]. simpl. done.
    + destruct (rsum_reps _ _); [|done]. simpl. by destruct (finish _).
Qed.

Section graph.
Context (blank : option rep) (g : fgraph) (size : nat → nat) (w : nat) (J : nat → nat → mat) (T : nat → mat).
Hypothesis Hg : sound_graph (plain g).
Hypothesis HT : chain_rule (plain g) size w J T.
Hypothesis Hfine : fine (plain g) size w J.
Hypothesis Hfit : flags_fit g size w J.

(** What is cached and what is returned. *)
Definition good (o : nat) (res : option rep) : Prop :=
  right (plain g) size w J T o res ∧ (linked (plain g) w o → is_Some res).
Definition ok (c : cache) : Prop := ∀ o res, o ≠ w → c !! o = Some res → good o res.

Lemma convert_good o nd res res' : g !! o = Some nd → good o res → convert blank nd res = Some res' → good o res'.
Proof.
  intros Ho Hr. unfold convert.
  set (res1 := if dense nd then densify <$> res else res).
  assert (H1 : good o res1).
  { unfold res1. destruct (dense nd); [|done]. destruct Hr as [Hr Hl]. split; [|intros H; destruct (Hl H) as [r ->]; by eexists].
    destruct res as [r|]; [|done]. destruct Hr as [Hn Hr]. split.
    - intros H. apply Hn in H. by destruct r.
    - destruct Hr as [Hr|(Ha & Hs & c & Hc & Hx & HTc)]; [left; by apply densify_mat|].
      right. split_and!; [done..|]. exists c. split; [done|]. split; [|done]. by destruct r. }
  clearbody res1. clear Hr res. destruct (sparse nd) eqn:Es; [|by intros [= <-]].
  destruct (Hfit o nd Ho Es) as [Hl Ha]. destruct H1 as [Hr Hl1]. destruct (Hl1 Hl) as [r ->].
  destruct Hr as [Hn [Hr|(Hr & _)]]; [|done].
  destruct (is_sparse r) eqn:Esp; [intros [= <-]; split; [by split; [|left]|done]|].
  destruct r as [|a| |]; try done. simpl. destruct (sparse_mat a _ _ _ Hr) as (r' & -> & Es' & Hm). intros [= <-].
  split; [|by eexists]. split; [by destruct r'|by left].
Qed.
Lemma convert_total o nd res : g !! o = Some nd → good o res → (sparse nd = true → operator_free (plain g) size J o) →
  is_Some (convert blank nd res).
Proof.
  intros Ho Hr Hf. unfold convert. destruct (sparse nd) eqn:Es; [|by eexists].
  destruct (Hfit o nd Ho Es) as [Hl Ha]. destruct Hr as [Hr Hl1]. destruct (Hl1 Hl) as [r ->].
  destruct Hr as [Hn [Hr|(Hr & _)]]; [|done]. specialize (Hn (Hf eq_refl)).
  assert (Hk : ∃ r1, (if dense nd then densify <$> Some r else Some r) = Some r1 ∧ is_mat r1 (size o) (size w) (T o) ∧ no_lin r1 = true).
  { destruct (dense nd); [|by eexists]. exists (densify r). split; [done|]. split; [by apply densify_mat|]. by destruct r. }
  destruct Hk as (r1 & -> & Hm & Hn1). destruct r1 as [|a| |]; [done| |by eexists|done]. simpl.
  destruct (sparse_mat a _ _ _ Hm) as (r' & -> & _). by eexists.
Qed.

Lemma round_good o nd (m : gmap nat (option rep)) : o ≠ w → g !! o = Some nd → (∀ p res, p ≠ w → m !! p = Some res → good p res) →
  (∀ p, p ∈ ops (base nd) → p ≠ w → is_Some (m !! p)) →
  ∀ res, round w (base nd) (λ p, m !! p) = Some res → good o res.
Proof.
  intros Hne Ho Hm Hall res Hr.
  assert (Hb : plain g !! o = Some (base nd)) by (unfold plain; by rewrite lookup_fmap, Ho).
  split.
  - destruct (Hfine o) as [[Hp Hs]|Hh].
    + destruct (any_step (plain g) size w J T Hg HT (λ p, m !! p) o (base nd) Hne Hb Hp Hs) as [H _]; [|by apply H].
      intros p r Hp' E. by apply Hm.
    + destruct (any_handle (plain g) size w J T Hg HT (λ p, m !! p) o Hne Hh (base nd) Hb) as [H _]; [|by apply H].
      intros p r Hp' E. by apply Hm.
  - intros Hl. destruct res as [r|]; [by eexists|]. exfalso. unfold round in Hr.
    destruct (foldl _ _ _) as [l|] eqn:Ef; [|done]. simpl in Hr. apply conclude_none in Hr as ->.
    inversion Hl as [? nd' Hn' [j Hj]|? nd' p Hn' Hin Hpw Hj Hlp]; subst; rewrite Hb in Hn'; injection Hn' as <-.
    + rewrite Hj in Ef. destruct (forward_grows _ _ _ _ _ _ Ef) as [k E]. done.
    + destruct (Hall p Hin Hpw) as [rp Erp]. destruct (Hm p rp Hpw Erp) as [_ Hlp']. destruct (Hlp' Hlp) as [d ->].
      by apply (forward_some _ _ _ p d _ _ _ Hin Hpw Erp Hj Ef).
Qed.
Lemma round_total o nd (m : gmap nat (option rep)) : o ≠ w → g !! o = Some nd → (∀ p res, p ≠ w → m !! p = Some res → good p res) →
  (∀ p, p ∈ ops (base nd) → p ≠ w → is_Some (m !! p)) → (size o * size w ≠ 1 ∨ length (ops (base nd)) ≤ 1) →
  is_Some (round w (base nd) (λ p, m !! p)).
Proof.
  intros Hne Ho Hm Hall Hs1.
  assert (Hb : plain g !! o = Some (base nd)) by (unfold plain; by rewrite lookup_fmap, Ho).
  destruct (Hfine o) as [[Hp Hs]|Hh].
  - destruct (any_step (plain g) size w J T Hg HT (λ p, m !! p) o (base nd) Hne Hb Hp Hs) as [_ H]; [|by apply H].
    intros p r Hp' E. by apply Hm.
  - destruct (any_handle (plain g) size w J T Hg HT (λ p, m !! p) o Hne Hh (base nd) Hb) as [_ H]; [|by apply H].
    intros p r Hp' E. by apply Hm.
Qed.

Lemma visit_fold f ps : (∀ c p, ok c → p ≠ w → ok (f c p).1 ∧ ∀ res, (f c p).2 = Some res → good p res) →
  ∀ c (m : gmap nat (option rep)), ok c → (∀ p res, p ≠ w → m !! p = Some res → good p res) →
  ok (foldl (visit w f) (c, Some m) ps).1 ∧
  ∀ m', (foldl (visit w f) (c, Some m) ps).2 = Some m' →
    (∀ p res, p ≠ w → m' !! p = Some res → good p res) ∧
    ∀ p, p ≠ w → p ∈ ps ∨ is_Some (m !! p) → is_Some (m' !! p).
Proof.
  intros Hf. induction ps as [|p ps IH]; intros c m Hc Hm; cbn [foldl].
  - split; [done|]. intros m' [= <-]. split; [done|]. intros q _ [Hq|Hq]; [by apply elem_of_nil in Hq|done].
  - assert (Hn : ∀ c qs, foldl (visit w f) (c, None) qs = (c, None)) by (intros c' qs; by induction qs).
    simpl. destruct (decide (p = w)) as [->|Hp].
    + destruct (IH c m Hc Hm) as [H1 H2]. split; [done|]. intros m' E. destruct (H2 m' E) as [H3 H4]. split; [done|].
      intros q Hq Hin. apply H4; [done|]. destruct Hin as [Hin|Hin]; [|by right].
      apply elem_of_cons in Hin as [->|Hin]; [done|by left].
    + destruct (Hf c p Hc Hp) as [Hc' Hr]. destruct (f c p) as [c' [res|]]; simpl in *; [|by rewrite Hn].
      destruct (IH c' (<[p:=res]> m) Hc') as [H1 H2].
      { intros q r Hq. destruct (decide (q = p)) as [->|Hqp]; [rewrite lookup_insert; intros [= <-]; by apply Hr|].
        rewrite lookup_insert_ne by done. by apply Hm. }
      split; [done|]. intros m' E. destruct (H2 m' E) as [H3 H4]. split; [done|].
      intros q Hq Hin. apply H4; [done|]. destruct (decide (q = p)) as [->|Hqp]; [right; rewrite lookup_insert; by eexists|].
      destruct Hin as [Hin|Hin]; [|right; by rewrite lookup_insert_ne].
      apply elem_of_cons in Hin as [->|Hin]; [done|by left].
Qed.
Lemma visit_total f ps c m : (∀ c p, p ∈ ps → ok c → p ≠ w → ok (f c p).1 ∧ is_Some (f c p).2) → ok c →
  is_Some (foldl (visit w f) (c, Some m) ps).2.
Proof.
  revert c m. induction ps as [|p ps IH]; intros c m Hf Hc; cbn [foldl]; [by eexists|]. simpl.
  destruct (decide (p = w)) as [->|Hp]; [apply IH; [|done]; intros c' q Hq; apply Hf; by right|].
  destruct (Hf c p ltac:(left) Hc Hp) as [Hc' [res Er]]. destruct (f c p) as [c' r]. simpl in *. rewrite Er. simpl.
  apply IH; [|done]. intros c2 q Hq. apply Hf. by right.
Qed.

Lemma fdr_good n par : ∀ c o, ok c → o ≠ w →
  ok (fdr blank n g par w c o).1 ∧ ∀ res, (fdr blank n g par w c o).2 = Some res → good o res.
Proof.
  induction n as [|n IH]; intros c o Hc Hne; [done|]. cbn [fdr].
  destruct (c !! o) as [res|] eqn:Ec; [split; [done|]; intros r [= <-]; by apply (Hc o)|].
  destruct (g !! o) as [nd|] eqn:Ho; [|done].
  destruct (visit_fold (λ c p, fdr blank n g par w c p) (ops (base nd)) IH c ∅ Hc) as [H1 H2].
  { intros p res _ H. by rewrite lookup_empty in H. }
  destruct (foldl _ _ _) as [c1 [m|]]; simpl in H1, H2 |- *; [|done]. destruct (H2 m eq_refl) as [H3 H4].
  destruct (round w (base nd) (λ p, m !! p)) as [res|] eqn:Er; simpl; [|done].
  assert (Hgood : good o res) by (apply (round_good o nd m); [done..|by intros; apply H4; [done|left]|done]).
  split; [|intros r E; by apply (convert_good o nd res)].
  destruct (decide _); [done|]. intros q r Hq. destruct (decide (q = o)) as [->|Hqo]; [rewrite lookup_insert; by intros [= <-]|].
  rewrite lookup_insert_ne by done. by apply H1.
Qed.
Lemma fdr_total rank n par : (∀ o nd p, g !! o = Some nd → p ∈ ops (base nd) → rank p < rank o) →
  (∀ o nd, g !! o = Some nd → size o * size w ≠ 1 ∨ length (ops (base nd)) ≤ 1) →
  (∀ o nd, g !! o = Some nd → sparse nd = true → operator_free (plain g) size J o) →
  ∀ c o, ok c → is_Some (g !! o) → o ≠ w → rank o < n → is_Some (fdr blank n g par w c o).2.
Proof.
  intros Hrank Hs Hop. induction n as [|n IH]; intros c o Hc [nd Ho] Hne Hlt; [lia|]. cbn [fdr].
  destruct (c !! o) as [res|] eqn:Ec; [by eexists|]. rewrite Ho.
  assert (Hkid : ∀ p, p ∈ ops (base nd) → is_Some (g !! p)).
  { intros p Hp. destruct Hg as [H _]. destruct (H o (base nd)) as [_ H'].
    - unfold plain. by rewrite lookup_fmap, Ho.
    - specialize (H' p Hp). unfold plain in H'. rewrite lookup_fmap in H'. by apply fmap_is_Some in H'. }
  assert (H0 : ∀ p res, p ≠ w → (∅ : gmap nat (option rep)) !! p = Some res → good p res).
  { intros p res _ H. by rewrite lookup_empty in H. }
  destruct (visit_fold (λ c p, fdr blank n g par w c p) (ops (base nd)) (λ c p Hc Hp, fdr_good n par c p Hc Hp) c ∅ Hc H0) as [H1 H2].
  destruct (visit_total (λ c p, fdr blank n g par w c p) (ops (base nd)) c ∅) as [m Em]; [|done|].
  { intros c' p Hp Hc' Hpw. split; [by apply fdr_good|]. apply IH; [done|by apply Hkid|done|]. specialize (Hrank o nd p Ho Hp). lia. }
  destruct (foldl _ _ _) as [c1 kids]. simpl in Em, H1, H2 |- *. subst kids. destruct (H2 m eq_refl) as [H3 H4]. simpl.
  assert (Hall : ∀ p, p ∈ ops (base nd) → p ≠ w → is_Some (m !! p)) by (intros p Hp Hpw; apply H4; [done|by left]).
  destruct (round_total o nd m Hne Ho H3 Hall (Hs o nd Ho)) as [res Er]. rewrite Er. simpl.
  apply (convert_total o); [done|by apply (round_good o nd m)|by apply Hop].
Qed.

Lemma after_ok n h : Forall (other w) h → ok (after blank n g w h).
Proof.
  unfold after. assert (H0 : ok ∅) by (intros o res _ H; by rewrite lookup_empty in H). revert H0. generalize (∅ : cache).
  induction h as [|e h IH]; intros c Hc Hh; [done|]. cbn [foldl]. apply Forall_cons_1 in Hh as [He Hh]. apply IH; [|done].
  destruct e as [par o|os]; simpl.
  - by apply fdr_good.
  - clear He. induction os as [|x os IHo]; [done|]. simpl. intros o res Hne. rewrite lookup_delete_Some. intros [_ H]. by apply (IHo o).
Qed.
Lemma answer_right n h par o res : Forall (other w) h → o ≠ w → ¬ alias (plain g) size w J o →
  answer blank n g w h par o = Some res → result_is res (size o) (size w) (T o).
Proof.
  intros Hh Hne Ha Hr. destruct (fdr_good n par (after blank n g w h) o (after_ok n h Hh) Hne) as [_ H].
  destruct (H res Hr) as [Hres _]. destruct res as [r|]; [|done]. by destruct Hres as [_ [Hres|(Hres & _)]].
Qed.
Lemma answer_total rank n h par o : (∀ o nd p, g !! o = Some nd → p ∈ ops (base nd) → rank p < rank o) →
  (∀ o nd, g !! o = Some nd → size o * size w ≠ 1 ∨ length (ops (base nd)) ≤ 1) →
  (∀ o nd, g !! o = Some nd → sparse nd = true → operator_free (plain g) size J o) →
  Forall (other w) h → is_Some (g !! o) → o ≠ w → rank o < n → is_Some (answer blank n g w h par o).
Proof. intros Hr Hs Hop Hh Ho Hne Hn. apply (fdr_total rank); try done. by apply after_ok. Qed.
Lemma fdr_linked n par c o res : ok c → o ≠ w → linked (plain g) w o → (fdr blank n g par w c o).2 = Some res → is_Some res.
Proof. intros Hc Hne Hl Hr. destruct (fdr_good n par c o Hc Hne) as [_ H]. by apply (H res Hr). Qed.
End graph.

(** Formats of results that were not cached. *)
Lemma convert_asked blank nd res res' : (∀ r, blank = Some r → is_sparse r = true) → convert blank nd res = Some res' → as_asked nd res'.
Proof.
  intros Hb. unfold convert. destruct (sparse nd) eqn:Es.
  - set (res1 := if dense nd then densify <$> res else res). clearbody res1. destruct res1 as [r|].
    + destruct (is_sparse r) eqn:Er; [intros [= <-]; destruct r; simpl in *; by rewrite ?Es|].
      unfold csc. destruct (as_array r) as [a|]; [|done]. unfold to_sparse. destruct (sh a) as [|? [|? [|? ?]]]; intros [= <-]; simpl; by rewrite ?Es.
    + unfold csc. destruct blank as [b|]; [|done]. intros [= <-]. specialize (Hb b eq_refl). destruct b; simpl in *; by rewrite ?Es.
  - intros [= <-]. destruct (dense nd) eqn:Ed.
    + by destruct res as [[]|]; simpl; rewrite ?Es.
    + by destruct res as [[]|]; simpl; rewrite ?Ed, ?Es.
Qed.
Lemma fdr_asked blank n g par w c o nd res : (∀ r, blank = Some r → is_sparse r = true) → g !! o = Some nd → c !! o = None →
  (fdr blank n g par w c o).2 = Some res → as_asked nd res.
Proof.
  intros Hb Ho Hc. destruct n as [|n]; [done|]. cbn [fdr]. rewrite Hc, Ho. destruct (foldl _ _ _) as [c1 kids].
  destruct (m ← kids; _) as [r|]; [|done]. simpl. by apply convert_asked.
Qed.

(** Objects with one parent are never cached. *)
Lemma fdr_uncached blank n g par w o : par o = 1 → ∀ c q, c !! o = None → (fdr blank n g par w c q).1 !! o = None.
Proof.
  intros Hpar. induction n as [|n IH]; intros c q Hc; [done|]. cbn [fdr]. destruct (c !! q); [done|]. destruct (g !! q) as [nd|]; [|done].
  assert (Hv : ∀ ps c (m : option (gmap nat (option rep))), c !! o = None → (foldl (visit w (λ c p, fdr blank n g par w c p)) (c, m) ps).1 !! o = None).
  { induction ps as [|p ps IHp]; intros c' m Hc'; [done|]. cbn [foldl]. unfold visit at 2. destruct m as [m|]; [|by apply IHp].
    destruct (decide _); [by apply IHp|]. specialize (IH c' p Hc'). destruct (fdr _ _ _ _ _ _ _) as [c2 r]. by apply IHp. }
  specialize (Hv (ops (base nd)) c (Some ∅) Hc). destruct (foldl _ _ _) as [c1 kids]. simpl in Hv.
  destruct (m ← kids; _) as [r|]; [|done]. simpl. destruct (decide _); [done|]. rewrite lookup_insert_ne; [done|congruence].
Qed.
Lemma after_uncached blank n g w h o : Forall (single o) h → after blank n g w h !! o = None.
Proof.
  unfold after. assert (H0 : (∅ : cache) !! o = None) by apply lookup_empty. revert H0. generalize (∅ : cache).
  induction h as [|e h IH]; intros c Hc Hh; [done|]. cbn [foldl]. apply Forall_cons_1 in Hh as [He Hh]. apply IH; [|done].
  destruct e as [par q|os]; simpl; [by apply fdr_uncached|].
  clear He. induction os as [|x os IHo]; [done|]. simpl. apply lookup_delete_None. by right.
Qed.
Lemma single_asked blank n g w h par o nd res : (∀ r, blank = Some r → is_sparse r = true) → g !! o = Some nd →
  Forall (single o) h → answer blank n g w h par o = Some res → as_asked nd res.
Proof. intros Hb Ho Hh. apply fdr_asked; [done|done|]. by apply after_uncached. Qed.
