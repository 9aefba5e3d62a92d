(** The theorems about copies, assembled. *)
From stdpp Require Import gmap strings list relations.
From Verif Require Import EngineModel EngineSpec EngineClear EngineEval EngineSet EngineInv EngineOps
  EngineHist EngineThms GraphSpec GraphThms CopyModel CopySpec CopyThms CopyInv.

Section hist.
Context (L : lib).
Notation cores := (cores L).
Notation after l := (perform L l (init L)).
Notation graph_after l := (cores (st_h L (after l))).

Lemma after_fine l : lib_ok L → acts_ok L ∅ l (init L) → fine L (tags_after L l ∅) (after l).
Proof. intros Hlib Hok. apply fine_acts; [done|apply fine_init|done]. Qed.

Lemma after_reads l : lib_ok L → acts_ok L ∅ l (init L) → ∀ x w v,
  reads L (after l) x w v ↔ denotes L (graph_after l) x w v.
Proof. intros Hlib Hok x w v. destruct (after_fine l Hlib Hok) as [[Hi _ _] _]. by apply inv_reads. Qed.
Lemma after_reads_dr l : lib_ok L → acts_ok L ∅ l (init L) → ∀ x w j, not_view L (graph_after l) w →
  reads_dr L (after l) x w j ↔ dr_denotes L (graph_after l) x w j.
Proof. intros Hlib Hok x w j Hw. destruct (after_fine l Hlib Hok) as [[Hi _ _] _]. by apply inv_reads_dr. Qed.

Lemma walk_copy_ok l o (rank : oid → nat) rn :
  lib_ok L → acts_ok L ∅ l (init L) → o ∈ dom (graph_after l) →
  (∀ x p, reach L (graph_after l) o x → refers L (graph_after l) x p → rank p < rank x) →
  (∀ x, rn x ∉ dom (graph_after l)) → (∀ x y, rn x = rn y → x = y) →
  ∃ ord, copy_ok L (graph_after l) rn ord o (walk_order L (S (rank o)) (graph_after l) o []).
Proof.
  intros _ _ Ho Hrank Hnew Hinj. destruct (order_exists L (graph_after l)) as [ord Hord].
  exists ord. split; [done|]. split; [by apply walk_pickle|]. split; [done|]. split; auto.
Qed.

Lemma copy_raises l rn ord o out : lib_ok L → acts_ok L ∅ l (init L) →
  copy_ok L (graph_after l) rn ord o out →
  copy_state L rn ord out (after l) = None ↔ ¬ no_double L (graph_after l) out.
Proof.
  intros Hlib Hok Hc. pose proof (fine_copy L _ _ rn ord o out (after_fine l Hlib Hok) Hc) as H.
  destruct (copy_state L rn ord out (after l)) as [st'|]; [|done].
  split; [done|]. intros Hn. by destruct H as (_ & _ & Hd).
Qed.

Section copied.
Context (l : list (act L)) (rn : oid → oid) (ord : oid → list name) (o : oid) (out : list oid) (st' : state L).
Context (Hlib : lib_ok L) (Hok : acts_ok L ∅ l (init L)) (Hc : copy_ok L (graph_after l) rn ord o out).
Context (Hst : copy_state L rn ord out (after l) = Some st').

Lemma copied_facts : fine L (tags_after L l ∅) st' ∧
  linv L (st_h L (after l)) rn (λ q d, q ∈ out) out (st_h L st').
Proof.
  pose proof (fine_copy L _ _ rn ord o out (after_fine l Hlib Hok) Hc) as H. rewrite Hst in H.
  destruct H as (? & ? & _). done.
Qed.

Lemma copied_is : copied_graph L rn out (graph_after l) (cores (st_h L st')).
Proof.
  destruct copied_facts as [_ Hli]. destruct (after_fine l Hlib Hok) as [[Hi _ _] Hcl].
  by apply (co_graph L _ o out rn ord).
Qed.

Lemma copied_reads :
  (∀ x w v, x ∈ out → reads L st' (rn x) w v ↔ reads L (after l) x w v) ∧
  (∀ x w j, x ∈ out → w ∈ out → not_view L (graph_after l) w →
     reads_dr L st' (rn x) (rn w) j ↔ reads_dr L (after l) x w j).
Proof.
  destruct copied_facts as [[[Hi' _ _] _] Hli]. destruct (after_fine l Hlib Hok) as [[Hi _ _] Hcl].
  split.
  - intros x w v Hx. rewrite !inv_reads by done.
    split; intros [n Hn]; exists n; by rewrite (co_eval_new L _ o out rn ord _ Hcl Hc Hli) in *.
  - intros x w j Hx Hw Hv. rewrite !inv_reads_dr; try done.
    + split; intros [n Hn]; exists n; by rewrite (co_drval_new L _ o out rn ord _ Hcl Hc Hli) in *.
    + by apply (co_view_new L _ o out rn ord _ Hcl Hc Hli).
Qed.

Lemma originals_read :
  (∀ x w v, x ∈ dom (graph_after l) → reads L st' x w v ↔ reads L (after l) x w v) ∧
  (∀ x w j, x ∈ dom (graph_after l) → not_view L (graph_after l) w →
     reads_dr L st' x w j ↔ reads_dr L (after l) x w j).
Proof.
  destruct copied_facts as [[[Hi' _ _] _] Hli]. destruct (after_fine l Hlib Hok) as [[Hi _ _] Hcl].
  assert (Hd : ∀ x, x ∈ dom (graph_after l) → is_Some (st_h L (after l) !! x)).
  { intros x Hx. apply elem_of_dom in Hx as [c Hx]. apply cores_Some_inv in Hx as (n & ? & _). eauto. }
  split.
  - intros x w v Hx. rewrite !inv_reads by done.
    split; intros [n Hn]; exists n; rewrite (co_eval_old L _ o out rn ord _ Hi Hc Hli) in *; auto.
  - intros x w j Hx Hv. rewrite !inv_reads_dr; try done.
    + split; intros [n Hn]; exists n; rewrite (co_drval_old L _ o out rn ord _ Hi Hc Hli) in *; auto.
    + apply (co_not_view L _ o out rn ord _ Hc Hli); try done. destruct Hv as (c & Hv & _).
      apply Hd, elem_of_dom. eauto.
Qed.

Lemma the_copies_closed x p : the_copies rn out x → refers L (cores (st_h L st')) x p → the_copies rn out p.
Proof.
  destruct copied_facts as [_ Hli]. destruct (after_fine l Hlib Hok) as [[Hi _ _] Hcl].
  intros (y & Hy & ->) (c' & k & Hc' & Hk).
  rewrite (co_map L _ o out rn ord _ Hcl Hc Hli) in Hc' by done. apply fmap_Some in Hc' as (c & Hg & ->).
  apply ren_ref in Hk as (z & Hz & ->). exists z. split; [|done].
  apply (co_refs L (st_h L (after l)) o out rn ord Hc y); [done|]. by exists c, k.
Qed.

(** Later histories that touch only one side. *)
Lemma copies_independent l2 : acts_ok L (tags_after L l ∅) l2 st' →
  (∀ a, a ∈ l2 → avoids L (the_copies rn out) a) →
  (∀ x w v, x ∈ out → reads L (perform L l2 st') (rn x) w v ↔ reads L (after l) x w v) ∧
  (∀ x w j, x ∈ out → w ∈ out → not_view L (graph_after l) w →
     reads_dr L (perform L l2 st') (rn x) (rn w) j ↔ reads_dr L (after l) x w j).
Proof.
  intros Hok2 Hav. destruct copied_facts as [Hf Hli]. destruct copied_reads as [Hr Hd].
  destruct (after_fine l Hlib Hok) as [[Hi _ _] Hcl].
  destruct (keep_reads L (the_copies rn out) _ st' l2 Hlib Hf Hok2 Hav) as [K1 K2].
  - intros y (x & Hx & ->). apply elem_of_dom. rewrite (co_map L _ o out rn ord _ Hcl Hc Hli) by done.
    destruct (co_in L (st_h L (after l)) o out rn ord Hcl Hc x Hx) as [n Hn].
    rewrite (cores_Some _ _ _ _ Hn). simpl. eauto.
  - apply the_copies_closed.
  - split.
    + intros x w v Hx. rewrite <- Hr by done. apply K1. by exists x.
    + intros x w j Hx Hw Hv. rewrite <- Hd by done. apply K2; [by exists x|by exists w|].
      by apply (co_view_new L _ o out rn ord _ Hcl Hc Hli).
Qed.

Lemma originals_independent l2 : acts_ok L (tags_after L l ∅) l2 st' →
  (∀ a, a ∈ l2 → avoids L (the_originals out) a) →
  (∀ x w v, x ∈ out → reads L (perform L l2 st') x w v ↔ reads L (after l) x w v) ∧
  (∀ x w j, x ∈ out → w ∈ out → not_view L (graph_after l) w →
     reads_dr L (perform L l2 st') x w j ↔ reads_dr L (after l) x w j).
Proof.
  intros Hok2 Hav. destruct copied_facts as [Hf Hli]. destruct originals_read as [Hr Hd].
  destruct (after_fine l Hlib Hok) as [[Hi _ _] Hcl].
  assert (Hin : ∀ x, x ∈ out → x ∈ dom (graph_after l)).
  { intros x Hx. destruct (co_in L (st_h L (after l)) o out rn ord Hcl Hc x Hx) as [n Hn].
    apply elem_of_dom. rewrite (cores_Some _ _ _ _ Hn). eauto. }
  assert (Hsame : ∀ x, x ∈ dom (graph_after l) → cores (st_h L st') !! x = graph_after l !! x).
  { apply copied_is. }
  destruct (keep_reads L (the_originals out) _ st' l2 Hlib Hf Hok2 Hav) as [K1 K2].
  - intros x Hx. apply elem_of_dom. rewrite Hsame by auto. by apply elem_of_dom, Hin.
  - intros x p Hx (c & k & Hg & Hk). rewrite Hsame in Hg by auto.
    apply (co_refs L (st_h L (after l)) o out rn ord Hc x); [done|]. by exists c, k.
  - split.
    + intros x w v Hx. rewrite <- Hr by auto. by apply K1.
    + intros x w j Hx Hw Hv. rewrite <- Hd by auto. apply K2; try done.
      destruct Hv as (c & Hg & ?). exists c. rewrite Hsame by auto. done.
Qed.
End copied.

Lemma copied_log rn ord out st st' : copy_state L rn ord out st = Some st' → st_log L st' = st_log L st.
Proof. unfold copy_state. destruct (copies L rn ord out (st_h L st)); [|done]. by intros [= <-]. Qed.

Lemma copied_equal l rn ord o out st' :
  lib_ok L → acts_ok L ∅ l (init L) → copy_ok L (graph_after l) rn ord o out →
  copy_state L rn ord out (after l) = Some st' →
  copied_graph L rn out (graph_after l) (cores (st_h L st')) ∧
  (∀ x w v, x ∈ out → reads L st' (rn x) w v ↔ reads L (after l) x w v) ∧
  (∀ x w j, x ∈ out → w ∈ out → not_view L (graph_after l) w →
     reads_dr L st' (rn x) (rn w) j ↔ reads_dr L (after l) x w j) ∧
  (∀ x w v, x ∈ dom (graph_after l) → reads L st' x w v ↔ reads L (after l) x w v) ∧
  (∀ x w j, x ∈ dom (graph_after l) → not_view L (graph_after l) w →
     reads_dr L st' x w j ↔ reads_dr L (after l) x w j).
Proof.
  intros Hlib Hok Hc Hst. split; [by eapply copied_is|].
  destruct (copied_reads l rn ord o out st' Hlib Hok Hc Hst) as [H1 H2].
  destruct (originals_read l rn ord o out st' Hlib Hok Hc Hst) as [H3 H4]. done.
Qed.

Lemma after_all l : lib_ok L → acts_ok L ∅ l (init L) →
  (∀ x w v, reads L (after l) x w v ↔ denotes L (graph_after l) x w v) ∧
  (∀ x w j, not_view L (graph_after l) w →
     reads_dr L (after l) x w j ↔ dr_denotes L (graph_after l) x w j).
Proof. intros Hlib Hok. split; [by apply after_reads|intros x w j; by apply after_reads_dr]. Qed.

Lemma copied_independent l rn ord o out st' l2 :
  lib_ok L → acts_ok L ∅ l (init L) → copy_ok L (graph_after l) rn ord o out →
  copy_state L rn ord out (after l) = Some st' → acts_ok L (tags_after L l ∅) l2 st' →
  ((∀ a, a ∈ l2 → avoids L (the_copies rn out) a) →
   (∀ x w v, x ∈ out → reads L (perform L l2 st') (rn x) w v ↔ reads L (after l) x w v) ∧
   (∀ x w j, x ∈ out → w ∈ out → not_view L (graph_after l) w →
     reads_dr L (perform L l2 st') (rn x) (rn w) j ↔ reads_dr L (after l) x w j)) ∧
  ((∀ a, a ∈ l2 → avoids L (the_originals out) a) →
   (∀ x w v, x ∈ out → reads L (perform L l2 st') x w v ↔ reads L (after l) x w v) ∧
   (∀ x w j, x ∈ out → w ∈ out → not_view L (graph_after l) w →
     reads_dr L (perform L l2 st') x w j ↔ reads_dr L (after l) x w j)).
Proof.
  intros Hlib Hok Hc Hst Hok2. split.
  - by apply (copies_independent l rn ord o out st').
  - by apply (originals_independent l rn ord o out st').
Qed.
End hist.
