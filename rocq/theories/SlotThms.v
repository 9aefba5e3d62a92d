From Coq Require Import Reals Lra Lia FunctionalExtensionality.
From stdpp Require Import list.
From Verif Require Import SlotModel SlotSpec.

Definition total (fv : variables) : nat := foldr Nat.add 0 fv.*2.
Lemma assign_other e v l w : w ≠ v → assign e v l w = e w.
Proof. intros H. unfold assign. by rewrite decide_False. Qed.
Lemma assign_same e v l : assign e v l v = l.
Proof. unfold assign. by rewrite decide_True. Qed.
Lemma assign_comm e v w l k : v ≠ w → assign (assign e v l) w k = assign (assign e w k) v l.
Proof. intros H. apply functional_extensionality. intros u. unfold assign. destruct (decide (u = w)), (decide (u = v)); [congruence|done..]. Qed.
Lemma assign_twice e v l k : assign (assign e v l) v k = assign e v k.
Proof. apply functional_extensionality. intros u. unfold assign. by destruct (decide (u = v)). Qed.
Lemma change_other fv : ∀ e vs w l, w ∉ fv.*1 → changevars (assign e w l) fv vs = assign (changevars e fv vs) w l.
Proof.
  induction fv as [|[v n] fv IH]; intros e vs w l Hw; [done|]. cbn in *. apply not_elem_of_cons in Hw as [H1 H2]. rewrite assign_comm by congruence. by apply IH.
Qed.
Lemma change_entry fv : ∀ e vs, NoDup fv.*1 → length vs = total fv → ∀ k, k < length vs →
  ∃ v n j, (v, n) ∈ fv ∧ length (changevars e fv vs v) = n ∧ j < n ∧
    (∀ h, changevars e fv (alter h k vs) = assign (changevars e fv vs) v (alter h j (changevars e fv vs v))) ∧
    ∀ (lop : nat → env → option (list R)) e', (∀ x, x ∈ fv → ∃ g, lop x.1 e' = Some g ∧ length g = x.2) → ∃ g, lop v e' = Some g ∧ jacfunc lop e' fv !! k = Some <$> g !! j.
Proof.
  induction fv as [|[v n] fv IH]; intros e vs Hnd Hl k Hk; [cbn in Hl; lia|]. cbn [fmap list_fmap fst] in Hnd. apply NoDup_cons in Hnd as [Hv Hnd].
  unfold total in Hl. cbn [fmap list_fmap snd foldr] in Hl. fold (total fv) in Hl.
  cbn [changevars]. destruct (decide (k < n)) as [Hkn|Hkn].
  - exists v, n, k. rewrite change_other, assign_same by done. split_and!; [by left|rewrite take_length; lia|done| |].
    + intros h. rewrite assign_twice, change_other by done. f_equal.
      * f_equal. apply list_eq. intros i. rewrite !lookup_drop, list_lookup_alter_ne by lia. done.
      * apply list_eq. intros i. destruct (decide (i < n)) as [Hi|Hi].
        -- rewrite lookup_take by done. destruct (decide (i = k)) as [->|Hne]; [by rewrite !list_lookup_alter, lookup_take|]. by rewrite !list_lookup_alter_ne, lookup_take by done.
        -- rewrite !lookup_ge_None_2; [done|rewrite alter_length, take_length; lia|rewrite take_length; lia].
    + intros lop e' Hlop. destruct (Hlop (v, n)) as (g & Eg & Lg); [by left|]. exists g. split; [done|]. unfold jacfunc. cbn [mbind list_bind fst]. cbn in Eg. rewrite Eg.
      rewrite lookup_app_l by (rewrite fmap_length; cbn in Lg; lia). by rewrite list_lookup_fmap.
  - destruct (IH (assign e v (take n vs)) (drop n vs) Hnd) with (k := k - n) as (w & nw & j & Hw & Lw & Hj & Hc & Hg); [rewrite drop_length; lia|rewrite drop_length; lia|].
    exists w, nw, j. split_and!; [by right|done|done| |].
    + intros h. rewrite <- (Hc h). f_equal.
      * f_equal. apply list_eq. intros i. destruct (decide (i < n)) as [Hi|Hi]; [by rewrite !lookup_take, list_lookup_alter_ne by lia|]. rewrite !lookup_ge_None_2; [done|rewrite take_length; lia|rewrite take_length; lia].
      * apply list_eq. intros i. rewrite lookup_drop. destruct (decide (n + i = k)) as [<-|Hne].
        -- replace (n + i - n) with i by lia. by rewrite !list_lookup_alter, lookup_drop.
        -- rewrite !list_lookup_alter_ne by lia. by rewrite lookup_drop.
    + intros lop e' Hlop. destruct (Hg lop e') as (g & Eg & Ek); [intros x Hx; apply Hlop; by right|]. exists g. split; [done|]. rewrite <- Ek.
      destruct (Hlop (v, n)) as (g0 & E0 & L0); [by left|]. cbn in E0, L0. unfold jacfunc. cbn [mbind list_bind fst]. rewrite E0. rewrite lookup_app_r by (rewrite fmap_length; lia). rewrite fmap_length, L0. done.
Qed.
Lemma jac_length lop e fv : (∀ x, x ∈ fv → ∃ g, lop x.1 e = Some g ∧ length g = x.2) → length (jacfunc lop e fv) = total fv.
Proof.
  induction fv as [|[v n] fv IH]; intros H; [done|]. unfold jacfunc, total in *. cbn [mbind list_bind fst fmap list_fmap snd foldr]. destruct (H (v, n)) as (g & Eg & Lg); [by left|]. cbn in Eg, Lg.
  rewrite Eg, app_length, fmap_length, Lg. f_equal. apply IH. intros x Hx. apply H. by right.
Qed.
(** distinct variables that all have influence *)
Theorem gradient_lines_up f lop e fv vs : NoDup fv.*1 → length vs = total fv →
  (∀ x, x ∈ fv → length (changevars e fv vs x.1) = x.2 → ∃ g, lop x.1 (changevars e fv vs) = Some g ∧ length g = x.2 ∧ partials f (changevars e fv vs) x.1 g) →
  ∃ F G, scipy_problem f lop e fv = Some (F, G) ∧ lines_up F vs (G vs).
Proof.
  intros Hnd Hl Hp. eexists _, _. split; [done|]. set (e' := changevars e fv vs) in *.
  assert (Hlen : ∀ fv' e0 vs0, NoDup fv'.*1 → length vs0 = total fv' → ∀ x, x ∈ fv' → length (changevars e0 fv' vs0 x.1) = x.2).
  { clear. intros fv. induction fv as [|[v n] fv IH]; intros e0 vs0 Hnd Hl x Hx; [by apply elem_of_nil in Hx|]. cbn [fmap list_fmap fst] in Hnd. apply NoDup_cons in Hnd as [Hv Hnd].
    unfold total in Hl. cbn [fmap list_fmap snd foldr] in Hl. fold (total fv) in Hl. cbn [changevars]. apply elem_of_cons in Hx as [->|Hx]; [cbn; rewrite change_other, assign_same by done; rewrite take_length; lia|].
    apply IH; [done|rewrite drop_length; lia|done]. }
  assert (Hp' : ∀ x, x ∈ fv → ∃ g, lop x.1 e' = Some g ∧ length g = x.2) by (intros x Hx; destruct (Hp x Hx (Hlen fv e vs Hnd Hl x Hx)) as (g & ? & ? & _); by exists g).
  split; [rewrite jac_length by done; done|]. intros k Hk. destruct (change_entry fv e vs Hnd Hl k Hk) as (v & n & j & Hin & Ln & Hj & Hc & Hg).
  destruct (Hp (v, n) Hin Ln) as (g & Eg & Lg & HP). destruct (Hg lop e' Hp') as (g' & Eg' & Ek). cbn in Eg, Lg. rewrite Eg in Eg'. injection Eg' as <-.
  destruct (lookup_lt_is_Some_2 g j) as [d Hd]; [lia|]. rewrite Hd in Ek. exists d. split; [done|]. destruct HP as [_ HP]. pose proof (HP j d Hd) as D. cbn [fst] in D.
  eapply (derivable_pt_lim_ext _ (moved _ vs k)); [|exact D]. intros s. unfold moved. by rewrite Hc.
Qed.
(** the starting vector leaves the variables as they are, and vectors are read back *)
Lemma change_start fv : ∀ e, (∀ x, x ∈ fv → length (e x.1) = x.2) → changevars e fv (vector e fv) = e.
Proof.
  induction fv as [|[v n] fv IH]; intros e H; [done|]. unfold vector. cbn [changevars mbind list_bind fst]. assert (L : length (e v) = n) by (apply (H (v, n)); by left).
  rewrite take_app_alt, drop_app_alt by done. assert (A : assign e v (e v) = e) by (apply functional_extensionality; intros w; unfold assign; by destruct (decide (w = v)) as [->|]).
  rewrite A. apply IH. intros x Hx. apply H. by right.
Qed.
Lemma change_back fv : ∀ e vs, NoDup fv.*1 → length vs = total fv → vector (changevars e fv vs) fv = vs.
Proof.
  induction fv as [|[v n] fv IH]; intros e vs Hnd Hl; [cbn in *; symmetry; by apply nil_length_inv|]. cbn [fmap list_fmap fst] in Hnd. apply NoDup_cons in Hnd as [Hv Hnd].
  unfold total in Hl. cbn [fmap list_fmap snd foldr] in Hl. fold (total fv) in Hl. unfold vector. cbn [changevars mbind list_bind fst]. fold (vector (changevars (assign e v (take n vs)) fv (drop n vs)) fv).
  rewrite (IH (assign e v (take n vs)) (drop n vs)); [|done|rewrite drop_length; lia]. rewrite change_other, assign_same by done. apply take_drop.
Qed.
