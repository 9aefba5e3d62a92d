(** Extrema of arrays with missing values: proofs, by encoding the values as real numbers. *)
From Coq Require Import Reals Lra FunctionalExtensionality.
From stdpp Require Import list list_numbers numbers gmap.
From Verif Require Import ArrModel Curve ArrThms ElemModel ElemSpec ElemThms ReorderModel ReorderSpec ReorderThms ReorderCache RedModel RedSpec RedThms ExtThms NanModel NanSpec.

(* ------------------------------------------------------------------ *)
(** An encoding that keeps the order; NaN goes to [w]. *)
Definition code (w : R) (e : ev) : R := match e with Num x => atan x | PInf => (PI / 2)%R | NInf => (- (PI / 2))%R | NaN => w end.
Definition bot (mx : bool) : R := if mx then (- (PI / 2))%R else (PI / 2)%R.
Definition top (mx : bool) : R := if mx then PI else (- PI)%R.
Definition mark (nan mx : bool) : R := if nan then bot mx else top mx.
Definition rel (mx : bool) (e f : ev) : Prop := if mx then below e f else below f e.

Lemma atan_lt x y : (x < y)%R ↔ (atan x < atan y)%R.
Proof.
  split; [apply atan_increasing|]. intros H. destruct (Rtotal_order x y) as [?|[->|Hgt]]; [done|lra|]. apply atan_increasing in Hgt. lra.
Qed.
Lemma atan_in x : (- (PI / 2) < atan x < PI / 2)%R.
Proof. pose proof (atan_bound x). lra. Qed.
Ltac bounds := repeat match goal with |- context [atan ?x] => lazymatch goal with H : (_ < atan x < _)%R |- _ => fail | _ => pose proof (atan_in x) end end; pose proof PI_RGT_0.
Lemma elt_code w x y : x ≠ NaN → y ≠ NaN → elt x y = bool_decide (code w x < code w y)%R.
Proof.
  intros Hx Hy. destruct x as [x| | |], y as [y| | |]; try done; simpl; symmetry; bounds.
  1: { apply bool_decide_ext. symmetry. apply atan_lt. }
  all: rewrite ?bool_decide_eq_true, ?bool_decide_eq_false; lra.
Qed.
Lemma code_inj w x y : x ≠ NaN → y ≠ NaN → code w x = code w y → x = y.
Proof.
  intros Hx Hy. destruct x as [x| | |], y as [y| | |]; try done; simpl; bounds; intros E; try lra.
  f_equal. destruct (Rtotal_order x y) as [Hlt|[?|Hgt]]; [apply atan_increasing in Hlt; lra|done|apply atan_increasing in Hgt; lra].
Qed.
Lemma below_code w x y : x ≠ NaN → y ≠ NaN → below x y ↔ (code w x <= code w y)%R.
Proof.
  intros Hx Hy. split.
  - destruct 1 as [x y [Hlt| ->]|[| | |]|[| | |]]; try done; simpl; bounds; try lra. apply atan_increasing in Hlt. lra.
  - destruct x as [x| | |], y as [y| | |]; try done; simpl; bounds; intros E; try lra; try by constructor.
    constructor. destruct (Rle_dec x y); [done|]. pose proof (atan_increasing y x ltac:(lra)). lra.
Qed.
Lemma rel_code w mx x y : x ≠ NaN → y ≠ NaN → rel mx x y ↔ geq mx (code w y) (code w x).
Proof. intros Hx Hy. destruct mx; simpl; rewrite (below_code w); done. Qed.
Lemma code_bot mx e : geq mx (code (bot mx) e) (bot mx).
Proof. destruct mx, e; simpl; bounds; lra. Qed.
Lemma code_top mx e : geq mx (top mx) (code (top mx) e).
Proof. destruct mx, e; simpl; bounds; lra. Qed.
Lemma code_top_eq mx e : code (top mx) e = top mx → e = NaN.
Proof. destruct mx, e; simpl; bounds; try done; lra. Qed.
Lemma code_hopeful mx e : e ≠ NaN → ¬ hopeless mx e → code (bot mx) e ≠ bot mx.
Proof. destruct mx, e; simpl; bounds; intros H1 H2; try done; lra. Qed.
Lemma ebeats_code w mx x y : x ≠ NaN → y ≠ NaN → ebeats mx x y = beats mx (code w x) (code w y).
Proof. intros. unfold ebeats, beats. destruct mx; rewrite (elt_code w); done. Qed.
Lemma abeats_code mx x y : abeats mx y x = beats mx (code (top mx) y) (code (top mx) x).
Proof.
  unfold abeats. destruct (is_nan x) eqn:Ex; [destruct x; try done; symmetry; rewrite beats_false; apply (code_top mx)|].
  assert (Hx : x ≠ NaN) by (by intros ->). destruct (is_nan y) eqn:Ey.
  - destruct y; try done. symmetry. rewrite beats_true. split; [apply code_top|]. intros E. by apply Hx, (code_top_eq mx).
  - assert (Hy : y ≠ NaN) by (by intros ->). by apply ebeats_code.
Qed.
Lemma patch_code mx e : code (top mx) (patch mx e) = code (bot mx) e.
Proof. by destruct mx, e. Qed.
Lemma arg_from_code mx x k i l : arg_from mx x k i l = argbest_from mx (code (top mx) x) k i (code (top mx) <$> l).
Proof.
  revert x k i. induction l as [|y l IH]; intros x k i; [done|]. simpl. rewrite abeats_code. destruct (beats _ _ _); apply IH.
Qed.
Lemma arg_code mx l : arg mx l = argbest mx (code (top mx) <$> l).
Proof. destruct l; [done|]. apply arg_from_code. Qed.
Lemma arg_patch_code mx l : arg mx (patch mx <$> l) = argbest mx (code (bot mx) <$> l).
Proof. rewrite arg_code. f_equal. rewrite <- list_fmap_compose. apply list_fmap_ext. intros. apply patch_code. Qed.
Lemma pick2_code nan mx x y : code (mark nan mx) (pick2 nan mx x y) = best mx (code (mark nan mx) x) (code (mark nan mx) y).
Proof.
  unfold pick2. rewrite best_beats. destruct (is_nan x) eqn:Ex; [destruct x; try done|destruct (is_nan y) eqn:Ey; [destruct y; try done|]].
  - destruct nan; simpl.
    + destruct (beats mx (code (bot mx) y) (bot mx)) eqn:E; [done|]. apply beats_false in E. pose proof (code_bot mx y). by apply (geq_antisym mx).
    + destruct (beats mx (code (top mx) y) (top mx)) eqn:E; [|done]. apply beats_true in E as [E1 E2]. pose proof (code_top mx y). exfalso. by apply E2, (geq_antisym mx).
  - destruct nan; simpl.
    + destruct (beats mx (bot mx) (code (bot mx) x)) eqn:E; [|done]. apply beats_true in E as [E1 E2]. pose proof (code_bot mx x). by apply (geq_antisym mx).
    + destruct (beats mx (top mx) (code (top mx) x)) eqn:E; [done|]. apply beats_false in E. pose proof (code_top mx x). by apply (geq_antisym mx).
  - assert (x ≠ NaN) by (by intros ->). assert (y ≠ NaN) by (by intros ->). rewrite (ebeats_code (mark nan mx)) by done. by destruct (beats _ _ _).
Qed.
Lemma pick_code nan mx l : l ≠ [] → code (mark nan mx) (pick nan mx l) = list_best mx (code (mark nan mx) <$> l).
Proof.
  destruct l as [|x l]; [done|]. intros _. simpl. revert x. induction l as [|y l IH]; intros x; [done|]. simpl. rewrite IH. by rewrite pick2_code.
Qed.
Lemma pick_known mx l e : e ∈ l → e ≠ NaN → pick true mx l ≠ NaN.
Proof.
  destruct l as [|x l]; [by intros ?%elem_of_nil|]. simpl. intros He Hn.
  assert (Hk : ∀ l x, x ≠ NaN → foldl (pick2 true mx) x l ≠ NaN).
  { clear. induction l as [|y l IH]; intros x Hx; [done|]. simpl. apply IH. unfold pick2. destruct x; try done; simpl; destruct y; try done; simpl; destruct (ebeats _ _ _); done. }
  apply elem_of_cons in He as [->|He]; [by apply Hk|]. revert x. induction l as [|y l IH]; intros x; [by apply elem_of_nil in He|]. simpl.
  apply elem_of_cons in He as [->|He]; [|by apply IH]. apply Hk. unfold pick2. destruct (is_nan x) eqn:Ex; [done|].
  destruct y; try done; simpl; destruct (ebeats _ _ _); try done; by destruct x.
Qed.
Lemma pick_all_nan mx l : l ≠ [] → (∀ e, e ∈ l → e = NaN) → pick true mx l = NaN.
Proof.
  destruct l as [|x l]; [done|]. intros _ H. simpl. rewrite (H x) by left. assert (Hl : ∀ e, e ∈ l → e = NaN) by (intros e He; apply H; by right). clear H.
  induction l as [|y l IH]; [done|]. simpl. rewrite (Hl y) by left. unfold pick2. simpl. apply IH. intros e He. apply Hl. by right.
Qed.
Lemma pick_nan mx l : NaN ∈ l → pick false mx l = NaN.
Proof.
  destruct l as [|x l]; [by intros ?%elem_of_nil|]. simpl. intros He.
  assert (Hk : ∀ l, foldl (pick2 false mx) NaN l = NaN) by (clear; induction l as [|y l IH]; done).
  apply elem_of_cons in He as [<-|He]; [apply Hk|]. revert x. induction l as [|y l IH]; intros x; [by apply elem_of_nil in He|]. simpl.
  apply elem_of_cons in He as [<-|He]; [|by apply IH]. unfold pick2. destruct x; apply Hk.
Qed.

(* ------------------------------------------------------------------ *)
(** The value. *)
Lemma e_r_fold nan mx ax a y : e_r nan mx ax a = Some y → np_fold (pick nan mx) ax a = Some y ∧ ∃ n, fold_count ax (sh a) = Some n ∧ n ≠ 0.
Proof. unfold e_r. intros (n & Hn & H)%bind_Some. destruct (decide (n = 0)); [done|]. split; [done|by exists n]. Qed.
Lemma gathers_ne ax s n i l : fold_count ax s = Some n → n ≠ 0 → (∀ out, reduced ax s out → i < size out) → gathers ax s i l → l ≠ [].
Proof.
  intros Hn Hn0 Hi Hl ->. destruct ax as [k|]; simpl in Hn.
  - apply bind_Some in Hn as (k' & Hk%naxis_is & Hn). specialize (Hi (delete k' s) ltac:(by exists k')).
    pose proof (gathers_perm _ _ _ _ _ Hl (slice_gathers k k' n s i Hk Hn Hi)) as H. apply Permutation_length in H.
    rewrite slice_length, (nth_of _ _ _ Hn) in H. simpl in H. lia.
  - injection Hn as <-. pose proof (gathers_perm _ _ _ _ _ Hl (all_gathers s i)) as H. apply Permutation_length in H. rewrite seq_length in H. simpl in H. lia.
Qed.
Lemma reduced_unique ax s o o' : reduced ax s o → reduced ax s o' → o = o'.
Proof.
  destruct ax as [k|]; simpl; [|congruence]. intros (a & [H1 H2] & ->) (b & [H3 H4] & ->). assert (a = b) as -> by lia. done.
Qed.
Lemma e_r_gathers nan mx ax a y i l : e_r nan mx ax a = Some y → i < asize y → gathers ax (sh a) i l →
  l ≠ [] ∧ ∃ l', l ≡ₚ l' ∧ l' ≠ [] ∧ dat y i = pick nan mx (dat a <$> l').
Proof.
  intros Hy Hi Hl. apply e_r_fold in Hy as (Hy & n & Hn & Hn0). destruct (np_fold_value _ _ _ _ Hy) as [Hred Hv].
  destruct (Hv i Hi) as (l' & Hl' & E).
  assert (Hne : ∀ l, gathers ax (sh a) i l → l ≠ []).
  { intros l0 Hl0. eapply gathers_ne; [done..| |done]. intros out Ho. by rewrite (reduced_unique _ _ _ _ Ho Hred). }
  split; [by apply Hne|]. exists l'. split_and!; [by eapply gathers_perm|by apply Hne|done].
Qed.
Lemma e_r_reduced nan mx ax a y : e_r nan mx ax a = Some y → reduced ax (sh a) (sh y).
Proof. intros (Hy & _)%e_r_fold. by apply np_fold_value in Hy as [? _]. Qed.
(** The value is that of any element the others do not surpass. *)
Lemma known_value mx ax a y i l p : e_r true mx ax a = Some y → i < asize y → gathers ax (sh a) i l → p ∈ l → dat a p ≠ NaN →
  (∀ q, q ∈ l → dat a q ≠ NaN → rel mx (dat a q) (dat a p)) → dat y i = dat a p.
Proof.
  intros Hy Hi Hl Hp Hn Hq. destruct (e_r_gathers true mx ax a y i l Hy Hi Hl) as (_ & l' & Hperm & Hne & E).
  assert (Hp' : p ∈ l') by (by rewrite <- Hperm). rewrite E. apply (code_inj (bot mx)); [|done|].
  - apply (pick_known mx _ (dat a p)); [|done]. apply elem_of_list_fmap. by exists p.
  - change (bot mx) with (mark true mx). rewrite pick_code by (destruct l'; done). apply list_best_is.
    + rewrite <- list_fmap_compose. apply elem_of_list_fmap. by exists p.
    + intros z (e & -> & (q & -> & Hq')%elem_of_list_fmap)%elem_of_list_fmap. destruct (is_nan (dat a q)) eqn:Eq.
      * destruct (dat a q) eqn:Ed; try done. apply (code_bot mx).
      * assert (Hqn : dat a q ≠ NaN) by (intros E'; by rewrite E' in Eq). apply rel_code; [done|done|]. apply Hq; [by rewrite Hperm|done].
Qed.
Lemma nan_value mx ax a y i l : e_r true mx ax a = Some y → i < asize y → gathers ax (sh a) i l → (∀ q, q ∈ l → dat a q = NaN) → dat y i = NaN.
Proof.
  intros Hy Hi Hl Hq. destruct (e_r_gathers true mx ax a y i l Hy Hi Hl) as (_ & l' & Hperm & Hne & ->). apply pick_all_nan; [by destruct l'|].
  intros e (q & -> & Hq')%elem_of_list_fmap. apply Hq. by rewrite Hperm.
Qed.
Lemma strict_value mx ax a y i l p : e_r false mx ax a = Some y → i < asize y → gathers ax (sh a) i l → p ∈ l →
  (∀ q, q ∈ l → dat a q ≠ NaN ∧ rel mx (dat a q) (dat a p)) → dat y i = dat a p.
Proof.
  intros Hy Hi Hl Hp Hq. destruct (e_r_gathers false mx ax a y i l Hy Hi Hl) as (_ & l' & Hperm & Hne & E).
  assert (Hp' : p ∈ l') by (by rewrite <- Hperm). rewrite E. set (e := pick _ _ _) in *.
  assert (Ec : code (top mx) e = code (top mx) (dat a p)).
  { unfold e. change (top mx) with (mark false mx). rewrite pick_code by (destruct l'; done). apply list_best_is.
    + rewrite <- list_fmap_compose. apply elem_of_list_fmap. by exists p.
    + intros z (e' & -> & (q & -> & Hq')%elem_of_list_fmap)%elem_of_list_fmap. rewrite <- Hperm in Hq'.
      apply rel_code; [by apply Hq|by apply (Hq p)|by apply Hq]. }
  destruct (Hq p Hp) as [Hn _]. destruct (is_nan e) eqn:En.
  - destruct e; try done. simpl in Ec. exfalso. by apply Hn, (code_top_eq mx).
  - apply (code_inj (top mx)); [intros E'; by rewrite E' in En|done|done].
Qed.
Lemma some_nan_value mx ax a y i l q : e_r false mx ax a = Some y → i < asize y → gathers ax (sh a) i l → q ∈ l → dat a q = NaN → dat y i = NaN.
Proof.
  intros Hy Hi Hl Hq Hn. destruct (e_r_gathers false mx ax a y i l Hy Hi Hl) as (_ & l' & Hperm & Hne & ->). apply pick_nan.
  apply elem_of_list_fmap. exists q. split; [done|by rewrite <- Hperm].
Qed.
(** There is a first extreme element. *)
Lemma extreme_exists mx (a : arr R) l : l ≠ [] → ∃ p, extreme mx a l p.
Proof.
  induction l as [|x l IH]; [done|]. intros _. destruct l as [|y l].
  { exists x. split; [left|]. intros q ->%elem_of_list_singleton. split; [destruct mx; lra|done]. }
  destruct (IH ltac:(done)) as (p & Hp & Hq). set (l' := y :: l) in *.
  destruct (decide (dat a x = dat a p)) as [E|E].
  - destruct (decide (x < p)).
    + exists x. split; [left|]. intros q [->|Hq']%elem_of_cons; [split; [destruct mx; lra|done]|]. rewrite E. destruct (Hq q Hq') as [H1 H2]. split; [done|].
      intros E'. specialize (H2 E'). lia.
    + exists p. split; [by right|]. intros q [->|Hq']%elem_of_cons; [split; [destruct mx; lra|lia]|by apply Hq].
  - destruct (beats mx (dat a x) (dat a p)) eqn:Eb.
    + apply beats_true in Eb as [Eb _]. exists x. split; [left|]. intros q [->|Hq']%elem_of_cons; [split; [destruct mx; lra|done]|].
      destruct (Hq q Hq') as [H1 H2]. split; [destruct mx; simpl in *; lra|]. intros E'. exfalso. apply E. apply (geq_antisym mx); [done|]. rewrite <- E'. exact H1.
    + apply beats_false in Eb. exists p. split; [by right|]. intros q [->|Hq']%elem_of_cons; [split; [exact Eb|done]|by apply Hq].
Qed.
Lemma known_exists mx a l q : q ∈ l → dat a q ≠ NaN → ∃ p, extreme_known mx a l p.
Proof.
  intros Hq Hn. set (l' := filter (λ q, is_nan (dat a q) = false) l).
  assert (Hl' : ∀ q, q ∈ l' ↔ q ∈ l ∧ dat a q ≠ NaN).
  { intros r. unfold l'. rewrite elem_of_list_filter. destruct (dat a r); simpl; naive_solver. }
  destruct (extreme_exists mx (amap (code 0) a) l') as (p & Hp & Hr).
  { intros E. assert (q ∈ l') as Hin by (by apply Hl'). rewrite E in Hin. by apply elem_of_nil in Hin. }
  apply Hl' in Hp as [Hp Hpn]. exists p. split_and!; [done|done|]. intros r Hr' Hrn. destruct (Hr r) as [H1 H2]; [by apply Hl'|]. simpl in *. split.
  - apply (rel_code 0 mx); done.
  - intros E. apply H2. by rewrite E.
Qed.
Lemma value_right mx ax a y : e_r true mx ax a = Some y → reduced ax (sh a) (sh y) ∧ ∀ i l, i < asize y → gathers ax (sh a) i l →
  ((∃ q, q ∈ l ∧ dat a q ≠ NaN) → ∃ p, extreme_known mx a l p ∧ dat y i = dat a p) ∧ ((∀ q, q ∈ l → dat a q = NaN) → dat y i = NaN).
Proof.
  intros Hy. split; [by eapply e_r_reduced|]. intros i l Hi Hl. split.
  - intros (q & Hq & Hn). destruct (known_exists mx a l q Hq Hn) as (p & Hp). exists p. split; [done|].
    destruct Hp as (H1 & H2 & H3). eapply known_value; [done..|]. intros r Hr Hrn. by destruct (H3 r Hr Hrn).
  - by apply nan_value with (ax := ax) (mx := mx).
Qed.
Lemma strict_right mx ax a y : e_r false mx ax a = Some y → reduced ax (sh a) (sh y) ∧ ∀ i l, i < asize y → gathers ax (sh a) i l →
  ((∃ q, q ∈ l ∧ dat a q = NaN) → dat y i = NaN) ∧ ((∀ q, q ∈ l → dat a q ≠ NaN) → ∃ p, extreme_known mx a l p ∧ dat y i = dat a p).
Proof.
  intros Hy. split; [by eapply e_r_reduced|]. intros i l Hi Hl. split.
  - intros (q & Hq & Hn). by eapply some_nan_value.
  - intros Hn. destruct (e_r_gathers false mx ax a y i l Hy Hi Hl) as [Hne _]. destruct l as [|q l]; [done|].
    destruct (known_exists mx a (q :: l) q ltac:(left) (Hn q ltac:(left))) as (p & Hp). exists p. split; [done|].
    destruct Hp as (H1 & H2 & H3). eapply strict_value; [done..|]. intros r Hr. split; [by apply Hn|]. destruct (H3 r Hr (Hn r Hr)) as [? _]. done.
Qed.

(* ------------------------------------------------------------------ *)
(** The Jacobian. *)
Lemma argf_known mx ax a y : e_r true mx ax a = Some y → some_known ax a (asize y) → argf true mx ax a = np_fold (λ l, arg mx (patch mx <$> l)) ax a.
Proof.
  intros Hy Hs. destruct (e_r_fold _ _ _ _ _ Hy) as (Hf & _). unfold argf.
  assert (Hm : ∃ mask, np_fold (forallb is_nan) ax a = Some mask ∧ sh mask = sh y).
  { destruct ax as [k|]; simpl in *; [|injection Hf as <-; by eexists]. apply bind_Some in Hf as (k' & -> & [= <-]). by eexists. }
  destruct Hm as (mask & Hm & Hsh). rewrite Hm. cbn [mbind option_bind]. destruct (existsb _ _) eqn:E; [|done]. exfalso.
  apply existsb_exists in E as (b & Hb & Hbt). apply elem_of_list_In, elem_of_list_fmap in Hb as (i & -> & Hi%elem_of_seq).
  assert (Hi' : i < asize y) by (unfold asize in *; rewrite Hsh in Hi; lia).
  destruct (np_fold_value _ _ _ _ Hm) as [_ Hv]. destruct (Hv i ltac:(lia)) as (l & Hl & El). destruct (Hs i l Hi' Hl) as (q & Hq & Hn).
  unfold Datatypes.id in Hbt. rewrite El in Hbt. rewrite forallb_forall in Hbt. specialize (Hbt (dat a q)).
  rewrite <- elem_of_list_In in Hbt. specialize (Hbt ltac:(apply elem_of_list_fmap; by exists q)). by destruct (dat a q).
Qed.
Lemma argf_raises mx ax a y i l : e_r true mx ax a = Some y → i < asize y → gathers ax (sh a) i l → (∀ q, q ∈ l → dat a q = NaN) → argf true mx ax a = None.
Proof.
  intros Hy Hi Hl Hq. destruct (e_r_fold _ _ _ _ _ Hy) as (Hf & _). unfold argf.
  assert (Hm : ∃ mask, np_fold (forallb is_nan) ax a = Some mask ∧ sh mask = sh y).
  { destruct ax as [k|]; simpl in *; [|injection Hf as <-; by eexists]. apply bind_Some in Hf as (k' & -> & [= <-]). by eexists. }
  destruct Hm as (mask & Hm & Hsh). rewrite Hm. cbn [mbind option_bind]. destruct (existsb _ _) eqn:E; [done|]. exfalso.
  destruct (np_fold_value _ _ _ _ Hm) as [_ Hv]. assert (Hi' : i < asize mask) by (unfold asize in *; by rewrite Hsh). destruct (Hv i Hi') as (l' & Hl' & El).
  assert (Ht : existsb Datatypes.id (elems mask) = true); [|by rewrite Ht in E]. apply existsb_exists. exists true. split; [|done].
  apply elem_of_list_In. apply elem_of_list_lookup. exists i. rewrite elems_lookup by done. rewrite El. f_equal. apply forallb_forall.
  intros e He. apply elem_of_list_In, elem_of_list_fmap in He as (q & -> & Hq'). rewrite (Hq q); [done|]. by rewrite (gathers_perm _ _ _ _ _ Hl Hl').
Qed.
Lemma e_jac_code nan mx ax a y : e_r nan mx ax a = Some y → (nan = true → some_known ax a (asize y)) →
  e_jac nan mx ax a = ext_jac mx ax (amap (code (mark nan mx)) a) ∧ ∃ y', ext_r mx ax (amap (code (mark nan mx)) a) = Some y' ∧ sh y' = sh y.
Proof.
  intros Hy Hs.
  assert (Hx : ∃ y', ext_r mx ax (amap (code (mark nan mx)) a) = Some y' ∧ sh y' = sh y).
  { unfold e_r in Hy. unfold ext_r. cbn [sh amap]. apply bind_Some in Hy as (n & -> & Hy). cbn [mbind option_bind]. destruct (decide (n = 0)); [done|].
    destruct ax as [k|]; simpl in *; [|injection Hy as <-; by eexists]. apply bind_Some in Hy as (k' & -> & [= <-]). by eexists. }
  split; [|done]. destruct Hx as (y' & Hy' & Hsh). unfold e_jac, ext_jac. rewrite Hy, Hy'. cbn [mbind option_bind].
  assert (Ha : argf nan mx ax a = np_fold (λ l, argbest mx (code (mark nan mx) <$> l)) ax a).
  { destruct nan.
    - rewrite (argf_known mx ax a y Hy (Hs eq_refl)). destruct ax as [k|]; simpl.
      + destruct (naxis _ _); [|done]. simpl. unfold fold_axis. do 2 f_equal. apply functional_extensionality. intros i. apply arg_patch_code.
      + do 2 f_equal. apply functional_extensionality. intros i. apply arg_patch_code.
    - simpl. destruct ax as [k|]; simpl.
      + destruct (naxis _ _); [|done]. simpl. unfold fold_axis. do 2 f_equal. apply functional_extensionality. intros i. apply arg_code.
      + do 2 f_equal. apply functional_extensionality. intros i. apply arg_code. }
  rewrite Ha. assert (Hst : stride_for_axis ax (amap num a) = stride_for_axis ax (amap (code (mark nan mx)) a)) by done. rewrite Hst.
  destruct (stride_for_axis ax (amap (code (mark nan mx)) a)) as [[mn stride]|]; [|done]. cbn [mbind option_bind].
  assert (Hf : np_fold (λ l, argbest mx (code (mark nan mx) <$> l)) ax a = np_fold (argbest mx) ax (amap (code (mark nan mx)) a)).
  { destruct ax as [k|]; simpl.
    - destruct (naxis _ _); [|done]. simpl. unfold fold_axis. cbn [sh amap]. do 2 f_equal. apply functional_extensionality. intros i. by rewrite <- list_fmap_compose.
    - unfold elems. by rewrite <- list_fmap_compose. }
  rewrite Hf. destruct (np_fold (argbest mx) ax (amap (code (mark nan mx)) a)); [|done]. cbn [mbind option_bind]. unfold asize at 1. rewrite <- Hsh. done.
Qed.
Lemma known_code mx a l p : extreme_known mx a l p → ¬ hopeless mx (dat a p) → extreme mx (amap (code (bot mx)) a) l p.
Proof.
  intros (Hp & Hn & Hq) Hh. split; [done|]. intros q Hq'. simpl. destruct (is_nan (dat a q)) eqn:E.
  - destruct (dat a q); try done. split; [apply (code_bot mx)|]. intros E'. simpl in E'. by pose proof (code_hopeful mx (dat a p) Hn Hh).
  - assert (Hqn : dat a q ≠ NaN) by (intros E'; by rewrite E' in E). destruct (Hq q Hq' Hqn) as [H1 H2]. split.
    + by apply (rel_code (bot mx) mx).
    + intros E'. apply H2. by apply (code_inj (bot mx)).
Qed.
Lemma strict_code mx a l p : (∀ q, q ∈ l → dat a q ≠ NaN) → extreme_known mx a l p → extreme mx (amap (code (top mx)) a) l p.
Proof.
  intros Hl (Hp & Hn & Hq). split; [done|]. intros q Hq'. simpl. destruct (Hq q Hq' (Hl q Hq')) as [H1 H2]. split.
  - apply (rel_code (top mx) mx); [by apply Hl|done|done].
  - intros E'. apply H2. apply (code_inj (top mx)); [by apply Hl|done|done].
Qed.
Lemma nan_code mx a l p : first_nan a l p → extreme mx (amap (code (top mx)) a) l p.
Proof.
  intros (Hp & Hn & Hq). split; [done|]. intros q Hq'. simpl. rewrite Hn. split; [apply (code_top mx)|]. intros E. apply Hq; [done|]. by apply (code_top_eq mx).
Qed.
(** What the rows of the Jacobian are. *)
Lemma jac_rows nan mx ax a y : e_r nan mx ax a = Some y → (nan = true → some_known ax a (asize y)) → ∃ J,
  e_jac nan mx ax a = Some J ∧ fits J (asize y) (asize a) ∧
  ∀ i l p, i < asize y → gathers ax (sh a) i l → extreme mx (amap (code (mark nan mx)) a) l p → ∀ v, mact J v i = v p.
Proof.
  intros Hy Hs. destruct (e_jac_code nan mx ax a y Hy Hs) as (-> & y' & Hy' & Hsh). assert (Hsz : asize y' = asize y) by (unfold asize; by rewrite Hsh).
  destruct (ext_jac_rows mx ax _ y' Hy') as (J & col & HJ & Hfit & Hact & _ & Hrow). rewrite Hsz in *. exists J. split_and!; [done|done|].
  intros i l p Hi Hl Hp v. rewrite Hact by done. f_equal. destruct (Hrow i Hi) as (l' & Hl' & Hc & _).
  pose proof (gathers_perm _ _ _ _ _ Hl' Hl) as Hperm. eapply extreme_unique; [|done]. by eapply extreme_perm.
Qed.
Lemma unit_if q p : unit_ q p = if decide (q = p) then 1%R else 0%R.
Proof. unfold unit_. destruct (decide (p = q)), (decide (q = p)); congruence. Qed.
Lemma known_jac mx ax a y : e_r true mx ax a = Some y → some_known ax a (asize y) → ∃ J, e_jac true mx ax a = Some J ∧ fits J (asize y) (asize a) ∧
  ∀ i l p q, i < asize y → gathers ax (sh a) i l → extreme_known mx a l p → ¬ hopeless mx (dat a p) → entry J i q = if decide (q = p) then 1%R else 0%R.
Proof.
  intros Hy Hs. destruct (jac_rows true mx ax a y Hy (λ _, Hs)) as (J & HJ & Hfit & Hrow). exists J. split_and!; [done|done|].
  intros i l p q Hi Hl Hp Hh. rewrite <- mact_unit. rewrite (Hrow i l p Hi Hl (known_code mx a l p Hp Hh)). apply unit_if.
Qed.
Lemma strict_jac mx ax a y : e_r false mx ax a = Some y → ∃ J, e_jac false mx ax a = Some J ∧ fits J (asize y) (asize a) ∧
  ∀ i l p q, i < asize y → gathers ax (sh a) i l → first_nan a l p ∨ ((∀ q, q ∈ l → dat a q ≠ NaN) ∧ extreme_known mx a l p) → entry J i q = if decide (q = p) then 1%R else 0%R.
Proof.
  intros Hy. destruct (jac_rows false mx ax a y Hy ltac:(done)) as (J & HJ & Hfit & Hrow). exists J. split_and!; [done|done|].
  intros i l p q Hi Hl Hp. rewrite <- mact_unit. rewrite (Hrow i l p Hi Hl); [apply unit_if|].
  destruct Hp as [Hp|[Hn Hp]]; [by apply nan_code|by apply strict_code].
Qed.
Lemma known_raises mx ax a y i l : e_r true mx ax a = Some y → i < asize y → gathers ax (sh a) i l → (∀ q, q ∈ l → dat a q = NaN) →
  dat y i = NaN ∧ e_jac true mx ax a = None.
Proof.
  intros Hy Hi Hl Hq. split; [by eapply nan_value|]. unfold e_jac. rewrite Hy. cbn [mbind option_bind].
  rewrite (argf_raises mx ax a y i l) by done. by destruct (stride_for_axis ax (amap num a)) as [[mn st]|].
Qed.

(* ------------------------------------------------------------------ *)
(** The derivative. *)
Lemma below_refl e : e ≠ NaN → below e e.
Proof. destruct e; intros H; try done; constructor; try done; lra. Qed.
Lemma alike_nan e f : alike e f → e = NaN ↔ f = NaN.
Proof. destruct e, f; simpl; intros H; split; intros; try done. Qed.
Lemma e_r_sh nan mx ax a x y : e_r nan mx ax a = Some y → sh x = sh a → ∃ z, e_r nan mx ax x = Some z ∧ sh z = sh y.
Proof.
  unfold e_r, np_fold. intros H Hx. rewrite Hx. destruct (fold_count ax (sh a)) as [n|]; [|done]. simpl in *.
  destruct (decide (n = 0)); [done|]. destruct ax as [k|]; [|injection H as <-; by eexists].
  destruct (naxis (length (sh a)) k); [|done]. simpl in *. injection H as <-. eexists. split; [done|]. simpl. by rewrite Hx.
Qed.
(** Near time 0 the other elements do not surpass the extreme one. *)
Lemma near_rel mx (x : R → arr ev) v a l p : x 0%R = a → emoves x v → (∀ q, q ∈ l → q < asize a) → extreme_known mx a l p →
  (∀ z q, dat a p = Num z → q ∈ l → q ≠ p → dat a q ≠ dat a p) →
  near (λ t, dat (x t) p ≠ NaN ∧ ∀ q, q ∈ l → dat (x t) q ≠ NaN → rel mx (dat (x t) q) (dat (x t) p)).
Proof.
  intros Hx [Hnear Hd] Hin (Hp & Hn & Hq) Hsole. subst a.
  assert (H1 : near (λ t, ∀ q, q ∈ l → geq mx (num (dat (x t) p)) (num (dat (x t) q)) ∨ ¬ (is_num (dat (x 0%R) p) = true ∧ is_num (dat (x 0%R) q) = true))).
  { apply near_list. intros q Hq'. destruct (dat (x 0%R) p) as [z| | |] eqn:Ep; try (apply near_always; intros t; right; by intros [? _]).
    destruct (dat (x 0%R) q) as [w| | |] eqn:Eq; try (apply near_always; intros t; right; by intros [_ ?]).
    destruct (decide (q = p)) as [->|Hne]; [apply near_always; intros t; left; apply geq_refl|].
    eapply near_mono; [intros t Ht; left; exact Ht|].
    apply (near_geq mx (λ t, num (dat (x t) p)) (λ t, num (dat (x t) q)) (v p) (v q)).
    - by apply (Hd p z); [apply Hin|].
    - by apply (Hd q w); [apply Hin|].
    - cbv beta. rewrite Ep, Eq. simpl. destruct (Hq q Hq') as [Hr _]; [by rewrite Eq|]. rewrite Eq in Hr. destruct mx; inversion Hr; done.
    - cbv beta. rewrite Ep, Eq. simpl. intros E. apply (Hsole z q eq_refl Hq' Hne). rewrite Eq. congruence. }
  eapply near_mono; [|exact (near_and _ _ Hnear H1)]. intros t [[Hsh Hal] Hg]. pose proof (Hal p (Hin p Hp)) as Hap. split.
  { intros E. apply Hn. by apply (alike_nan _ _ Hap). }
  intros q Hq' Hqn. pose proof (Hal q (Hin q Hq')) as Haq.
  assert (Hqn0 : dat (x 0%R) q ≠ NaN) by (intros E; by apply Hqn, (alike_nan _ _ Haq)).
  destruct (Hq q Hq' Hqn0) as [Hr _]. specialize (Hg q Hq').
  destruct (dat (x 0%R) p) as [z| | |] eqn:Ep, (dat (x 0%R) q) as [w| | |] eqn:Eq; try done;
    destruct (dat (x t) p) as [z'| | |] eqn:Ep', (dat (x t) q) as [w'| | |] eqn:Eq'; try done; simpl in *.
  - destruct Hg as [Hg|Hg]; [|by destruct Hg]. destruct mx; by constructor.
  - by destruct mx; inversion Hr; constructor.
  - by destruct mx; inversion Hr; constructor.
  - by destruct mx; inversion Hr; constructor.
  - by destruct mx; inversion Hr; constructor.
Qed.
Lemma gathers_in ax s i l q : gathers ax s i l → q ∈ l → q < size s.
Proof. intros [_ H] Hq. by apply H in Hq as [? _]. Qed.
Lemma gathers_exist nan mx ax a y i : e_r nan mx ax a = Some y → i < asize y → ∃ l, gathers ax (sh a) i l.
Proof. intros (Hy & _)%e_r_fold Hi. apply np_fold_value in Hy as [_ Hv]. destruct (Hv i Hi) as (l & Hl & _). by exists l. Qed.
(** Each element of the result is, near time 0, an element of the array. *)
Lemma ediff_intro (f : arr ev → arr ev) J a y : f a = y → 
  (∀ x v, x 0%R = a → emoves x v → near (λ t, sh (f (x t)) = sh y) ∧ ∀ i, i < asize y →
    (near (λ t, dat (f (x t)) i = NaN)) ∨
    ∃ p, p < asize a ∧ near (λ t, dat (f (x t)) i = dat (x t) p) ∧ (∀ z, dat a p = Num z → mact J v i = v p)) → ediff f J a.
Proof.
  intros Hf H x v Hx Hm. destruct (H x v Hx Hm) as [Hs Hi]. destruct Hm as [Hnear Hd].
  assert (H0 : f (x 0%R) = y) by (by rewrite Hx).
  assert (at0 : ∀ P, near P → P 0%R) by (intros P (d & Hd0 & HP); apply HP; by rewrite Rabs_R0).
  assert (HA : near (λ t, ∀ i, i ∈ seq 0 (asize y) → alike (dat y i) (dat (f (x t)) i))).
  { apply near_list. intros i Hi'%elem_of_seq. destruct (Hi i ltac:(lia)) as [Hn|(p & Hp & Hn & _)].
    - pose proof (at0 _ Hn) as Hn0. simpl in Hn0. eapply near_mono; [|exact Hn]. intros t Ht. simpl in Ht. rewrite H0 in Hn0. rewrite Hn0, Ht. done.
    - pose proof (at0 _ Hn) as Hn0. simpl in Hn0. eapply near_mono; [|exact (near_and _ _ Hn Hnear)]. intros t [Ht [_ Hal]]. rewrite H0, Hx in Hn0. rewrite Ht, Hn0.
      rewrite Hx in Hal. by apply Hal. }
  split.
  - eapply near_mono; [|exact (near_and _ _ Hs HA)]. intros t [Ht Ha]. rewrite H0. split; [done|]. intros i Hi'. apply Ha, elem_of_seq. lia.
  - rewrite H0. intros i z Hi' Hz. destruct (Hi i Hi') as [Hn|(p & Hp & Hn & Hv)].
    + pose proof (at0 _ Hn) as Hn0. simpl in Hn0. congruence.
    + pose proof (at0 _ Hn) as Hn0. simpl in Hn0. rewrite H0, Hx in Hn0. rewrite Hz in Hn0. rewrite (Hv z (eq_sym Hn0)).
      apply (deriv_near (λ t, num (dat (x t) p))); [eapply near_mono; [|exact Hn]; intros t Ht; by rewrite Ht|].
      apply (Hd p z); [by rewrite Hx|by rewrite Hx].
Qed.
Lemma known_diff mx ax a y J : e_r true mx ax a = Some y → some_known ax a (asize y) → sole_known mx ax a → e_jac true mx ax a = Some J →
  ediff (λ x, default x (e_r true mx ax x)) J a.
Proof.
  intros Hy Hs Hsole HJ. destruct (jac_rows true mx ax a y Hy (λ _, Hs)) as (J' & HJ' & _ & Hrow). rewrite HJ in HJ'. injection HJ' as <-.
  eapply ediff_intro; [by rewrite Hy|]. cbn [default from_option]. intros x v Hx Hm. split.
  { eapply near_mono; [|exact (proj1 Hm)]. intros t [Ht _]. rewrite Hx in Ht. destruct (e_r_sh true mx ax a (x t) y Hy Ht) as (z & -> & Hz). done. }
  intros i Hi. right. destruct (gathers_exist _ _ _ _ _ i Hy Hi) as (l & Hl). destruct (Hs i l Hi Hl) as (q & Hq & Hqn).
  destruct (known_exists mx a l q Hq Hqn) as (p & Hp). exists p. split; [by eapply gathers_in; [|apply Hp]|]. split.
  - eapply near_mono; [|exact (near_and _ _ (proj1 Hm) (near_rel mx x v a l p Hx Hm ltac:(intros; by eapply gathers_in) Hp ltac:(intros ????; by eapply Hsole)))].
    intros t [[Ht _] [Hn Hr]]. rewrite Hx in Ht. destruct (e_r_sh true mx ax a (x t) y Hy Ht) as (z & Ez & Hz). rewrite Ez. cbn [default from_option].
    apply (known_value mx ax (x t) z i l p Ez); [unfold asize in *; by rewrite Hz|by rewrite Ht|apply Hp|done|done].
  - intros z Hz. apply (Hrow i l p Hi Hl). apply known_code; [done|]. rewrite Hz; by destruct mx.
Qed.
Lemma strict_diff mx ax a y J : e_r false mx ax a = Some y → sole_known mx ax a → e_jac false mx ax a = Some J →
  ediff (λ x, default x (e_r false mx ax x)) J a.
Proof.
  intros Hy Hsole HJ. destruct (jac_rows false mx ax a y Hy ltac:(done)) as (J' & HJ' & _ & Hrow). rewrite HJ in HJ'. injection HJ' as <-.
  eapply ediff_intro; [by rewrite Hy|]. cbn [default from_option]. intros x v Hx Hm. split.
  { eapply near_mono; [|exact (proj1 Hm)]. intros t [Ht _]. rewrite Hx in Ht. destruct (e_r_sh false mx ax a (x t) y Hy Ht) as (z & -> & Hz). done. }
  intros i Hi. destruct (gathers_exist _ _ _ _ _ i Hy Hi) as (l & Hl).
  assert (Hin : ∀ q, q ∈ l → q < asize a) by (intros; by eapply gathers_in).
  destruct (decide (Exists (λ q, is_nan (dat a q) = true) l)) as [Hex|Hex].
  - left. apply Exists_exists in Hex as (q & Hq & Hqn). eapply near_mono; [|exact (proj1 Hm)]. intros t [Ht Hal]. rewrite Hx in Ht, Hal.
    destruct (e_r_sh false mx ax a (x t) y Hy Ht) as (z & Ez & Hz). rewrite Ez. cbn [default from_option].
    apply (some_nan_value mx ax (x t) z i l q Ez); [unfold asize in *; by rewrite Hz|by rewrite Ht|done|].
    specialize (Hal q (Hin q Hq)). by destruct (dat a q).
  - assert (Hn : ∀ q, q ∈ l → dat a q ≠ NaN).
    { intros q Hq E. apply Hex, Exists_exists. exists q. split; [done|]. by rewrite E. }
    destruct (e_r_gathers false mx ax a y i l Hy Hi Hl) as [Hne _]. destruct l as [|q0 l0]; [done|]. set (l := q0 :: l0) in *.
    destruct (known_exists mx a l q0 ltac:(left) (Hn q0 ltac:(left))) as (p & Hp). right. exists p. split; [by apply Hin, Hp|]. split.
    + eapply near_mono; [|exact (near_and _ _ (proj1 Hm) (near_rel mx x v a l p Hx Hm Hin Hp ltac:(intros ????; by eapply Hsole)))].
      intros t [[Ht Hal] [Hpn Hr]]. rewrite Hx in Ht, Hal. destruct (e_r_sh false mx ax a (x t) y Hy Ht) as (z & Ez & Hz). rewrite Ez. cbn [default from_option].
      apply (strict_value mx ax (x t) z i l p Ez); [unfold asize in *; by rewrite Hz|by rewrite Ht|apply Hp|].
      intros q Hq. assert (dat (x t) q ≠ NaN) by (intros E; apply (Hn q Hq); by apply (alike_nan _ _ (Hal q (Hin q Hq)))). split; [done|by apply Hr].
    + intros z Hz. apply (Hrow i l p Hi Hl). by apply strict_code.
Qed.

(* ------------------------------------------------------------------ *)
(** nan_to_num *)
Lemma n2n_jac_diag a : unary_shape (sh a) → n2n_jac a = Some (diags (elems (amap (λ e, if is_num e then 1%R else 0%R) a))).
Proof.
  intros Hs. unfold n2n_jac, elems, asize, atleast_2d. destruct a as [s d]. simpl in *.
  destruct s as [|n s]; [done|]. destruct Hs as [Hn|[Hs Hl]]; [by rewrite decide_True|].
  pose proof (size_1 _ Hs) as H1. inversion H1; subst. rewrite decide_False by lia.
  simpl in Hl. destruct s as [|m [|? ?]]; simpl in *; [done| |lia].
  inversion H3; subst. done.
Qed.
Lemma n2n_right a : unary_shape (sh a) → ∃ J, n2n_jac a = Some J ∧ fits J (asize a) (asize a) ∧
  (∀ i j, i < asize a → entry J i j = match dat a i with Num _ => if decide (j = i) then 1%R else 0%R | _ => 0%R end) ∧ ediff n2n_r J a.
Proof.
  intros Hs. eexists. split; [by apply n2n_jac_diag|]. set (d := amap _ a). split_and!.
  - pose proof (diags_fits (elems d)) as H. by rewrite elems_length in H.
  - intros i j Hi. rewrite <- mact_unit, mact_diags, elems_lookup by done. simpl. rewrite unit_if. destruct (dat a i); simpl; ring.
  - intros x v Hx [Hnear Hd]. subst a. split.
    + eapply near_mono; [|exact Hnear]. intros t [Ht Hal]. split; [exact Ht|]. intros i Hi. simpl. by destruct (dat (x 0%R) i), (dat (x t) i).
    + intros i z Hi _. rewrite mact_diags, elems_lookup by done. simpl. destruct (dat (x 0%R) i) as [w| | |] eqn:E; simpl.
      1: { replace (1 * v i)%R with (v i) by ring. apply (deriv_near (λ t, num (dat (x t) i))); [|by apply (Hd i w)].
           eapply near_mono; [|exact Hnear]. intros t [_ Hal]. specialize (Hal i Hi). rewrite E in Hal. by destruct (dat (x t) i). }
      all: replace (0 * v i)%R with 0%R by ring; apply (deriv_near (λ t, num (tame (dat (x 0%R) i)))); [|apply derivable_pt_lim_const];
        (eapply near_mono; [|exact Hnear]); intros t [_ Hal]; specialize (Hal i Hi); rewrite E in Hal |- *; by destruct (dat (x t) i).
Qed.
Lemma largest_is : largest = biggest_double.
Proof.
  unfold largest, biggest_double. replace (2 ^ 1024)%R with (2 ^ 53 * 2 ^ 971)%R by (symmetry; exact (pow_add 2 53 971)).
  generalize (2 ^ 53)%R, (2 ^ 971)%R. intros u v. ring.
Qed.
Lemma n2n_value a : sh (n2n_r a) = sh a ∧ ∀ i, match dat a i with
  | Num x => dat (n2n_r a) i = Num x
  | PInf => dat (n2n_r a) i = Num biggest_double
  | NInf => dat (n2n_r a) i = Num (- biggest_double)
  | NaN => dat (n2n_r a) i = Num 0
  end.
Proof. split; [done|]. intros i. rewrite <- largest_is. simpl. by destruct (dat a i). Qed.

(* ------------------------------------------------------------------ *)
(** Concrete arrays. *)
Lemma pair_gathers (i : nat) : gathers None [2] i [0; 1].
Proof. apply (all_gathers [2] i). Qed.
Lemma all_nan_case : let a := of_list NaN [2; 2] [NaN; NaN; Num 1; Num 2] in ∃ y, e_r true true (Some 1%Z) a = Some y ∧ asize y = 2 ∧
  gathers (Some 1%Z) [2; 2] 0 [0; 1] ∧ (∀ q, q ∈ [0; 1] → dat a q = NaN) ∧ dat y 1 ≠ NaN.
Proof.
  simpl. eexists. split; [reflexivity|]. split_and!; [done| | |].
  - apply (slice_gathers 1 1 2 [2; 2] 0); [split; simpl; lia|done|simpl; lia].
  - intros q Hq. apply (elem_of_seq 0 2 q) in Hq. do 2 (destruct q as [|q]; [done|]). lia.
  - simpl. unfold pick2. simpl. case_bool_decide; done.
Qed.
Definition two (x y : ev) : arr ev := of_list NaN [2] [x; y].
Lemma hopeless_case : ∃ y J, e_r true true None (two NaN NInf) = Some y ∧ dat y 0 = NInf ∧ e_jac true true None (two NaN NInf) = Some J ∧
  gathers None [2] 0 [0; 1] ∧ extreme_known true (two NaN NInf) [0; 1] 1 ∧ entry J 0 1 = 0%R ∧ entry J 0 0 = 1%R.
Proof.
  eexists _, _. split; [reflexivity|]. split; [done|]. split; [reflexivity|]. split_and!; [apply pair_gathers| | |].
  - split_and!; [by right; left|done|]. intros q Hq Hn. apply (elem_of_seq 0 2 q) in Hq. do 2 (destruct q as [|q]; [try done|]); [|lia].
    split; [by constructor|done].
  - done.
  - unfold entry. simpl. ring.
Qed.
Lemma known_case : let a := of_list NaN [2; 2] [NaN; Num 3; Num 5; Num 4] in ∃ y, e_r true true (Some 1%Z) a = Some y ∧ asize y = 2 ∧
  some_known (Some 1%Z) a 2 ∧ extreme_known true a [2; 3] 2 ∧ gathers (Some 1%Z) [2; 2] 1 [2; 3] ∧ ¬ hopeless true (dat a 2) ∧ sole_known true (Some 1%Z) a.
Proof.
  intros a. eexists. split; [reflexivity|].
  assert (H0 : gathers (Some 1%Z) [2; 2] 0 [0; 1]) by (apply (slice_gathers 1 1 2 [2; 2] 0); [split; simpl; lia|done|simpl; lia]).
  assert (H1 : gathers (Some 1%Z) [2; 2] 1 [2; 3]) by (apply (slice_gathers 1 1 2 [2; 2] 1); [split; simpl; lia|done|simpl; lia]).
  split_and!; [done| | |done|done|].
  - intros i l Hi Hl. destruct i as [|[|i]]; [| |lia].
    + exists 1. split; [|done]. rewrite (gathers_perm _ _ _ _ _ Hl H0). right; left.
    + exists 2. split; [|done]. rewrite (gathers_perm _ _ _ _ _ Hl H1). left.
  - split_and!; [left|done|]. intros q Hq _. apply (elem_of_seq 2 2 q) in Hq. destruct q as [|[|[|[|q]]]]; try lia; simpl.
    + split; [constructor; lra|done].
    + split; [constructor; lra|]. intros [= E]. lra.
  - intros i l p q x Hl (Hp & _) _ Hq Hne. pose proof (gathers_in _ _ _ _ _ Hl Hp) as Lp. pose proof (gathers_in _ _ _ _ _ Hl Hq) as Lq. simpl in Lp, Lq.
    unfold a. destruct p as [|[|[|[|p]]]], q as [|[|[|[|q]]]]; try lia; simpl; intros [= E]; lra.
Qed.
Lemma n2n_case : unary_shape (sh (two NaN (Num 2))).
Proof. left. simpl. lia. Qed.
Lemma strict_case : let a := two NaN (Num 2) in ∃ y, e_r false true None a = Some y ∧ first_nan a [0; 1] 0 ∧ gathers None [2] 0 [0; 1] ∧ sole_known true None a.
Proof.
  intros a. eexists. split; [reflexivity|]. split_and!; [|apply pair_gathers|].
  - split_and!; [left|done|]. intros; lia.
  - intros i l p q x Hl (Hp & _) _ Hq Hne. pose proof (gathers_in _ _ _ _ _ Hl Hp) as Lp. pose proof (gathers_in _ _ _ _ _ Hl Hq) as Lq. simpl in Lp, Lq.
    unfold a. destruct p as [|[|p]], q as [|[|q]]; try lia; done.
Qed.
