(** Reductions: which elements go where, and their Jacobians. *)
From Coq Require Import Reals Lra.
From stdpp Require Import list list_numbers numbers gmap.
From Verif Require Import ArrModel Curve ArrThms ElemModel ElemSpec ElemThms ReorderModel ReorderSpec ReorderThms ReorderCache RedModel RedSpec.

(* ------------------------------------------------------------------ *)
(** Linear functions are their own derivatives. *)
Lemma linear_diff (f : arr R → arr R) J a s : nrow J = size s → in_range J →
  (∀ x, sh x = sh a → sh (f x) = s ∧ ∀ i, i < size s → dat (f x) i = mact J (elem x) i) → diff1 f J a.
Proof.
  intros Hn Hr Hf y v H0 Hm. apply (amoves_intro _ _ s).
  - eapply near_mono; [|exact (amoves_shape _ _ Hm)]. intros t Ht. apply Hf. by rewrite Ht, H0.
  - intros i Hi. eapply (deriv_near (λ t, mact J (elem (y t)) i)).
    + eapply near_mono; [|exact (amoves_shape _ _ Hm)]. intros t Ht. symmetry. apply Hf; [by rewrite Ht, H0|done].
    + unfold mact. apply (deriv_rsum (λ (e : nat * nat * R) t, (e.2 * elem (y t) e.1.2)%R)). intros e _. apply deriv_scal. apply Hm.
  - intros i Hi. apply mact_out; [done|lia].
Qed.

(* ------------------------------------------------------------------ *)
(** Inserting and deleting coordinates. *)
Lemma delete_insert_at k j (ix : list nat) : k ≤ length ix → delete k (insert_at k j ix) = ix.
Proof.
  revert ix. induction k as [|k IH]; intros [|i ix] H; simpl in *; try lia; unfold insert_at in *; simpl in *; [done|done|].
  f_equal. apply IH. lia.
Qed.
Lemma insert_at_delete k j (jx : list nat) : jx !! k = Some j → insert_at k j (delete k jx) = jx.
Proof.
  revert jx. induction k as [|k IH]; intros [|i jx] H; simpl in *; try done; unfold insert_at in *; simpl in *; [rewrite drop_0; congruence|].
  f_equal. by apply IH.
Qed.
Lemma insert_at_lookup k j (ix : list nat) : k ≤ length ix → insert_at k j ix !! k = Some j.
Proof.
  revert ix. induction k as [|k IH]; intros [|i ix] H; simpl in *; try lia; unfold insert_at in *; simpl in *; [done|done|].
  apply IH. lia.
Qed.
Lemma insert_at_inside k j d (s ix : list nat) : s !! k = Some d → j < d → inside (delete k s) ix → inside s (insert_at k j ix).
Proof.
  unfold inside. revert s ix. induction k as [|k IH]; intros [|e s] ix Hk Hj Hin; simpl in *; try done.
  - injection Hk as ->. unfold insert_at. simpl. rewrite drop_0. by constructor.
  - inversion Hin as [|i e' ix' s' Hi Hin']; subst. unfold insert_at in *. simpl. constructor; [done|]. by apply IH.
Qed.
Lemma delete_inside k (s jx : list nat) : inside s jx → inside (delete k s) (delete k jx).
Proof.
  unfold inside. revert s jx. induction k as [|k IH]; intros s jx H; destruct H as [|i d ix s' Hi H]; simpl; try by constructor.
  - done.
  - constructor; [done|]. by apply IH.
Qed.
Lemma size_delete k d (s : shp) : s !! k = Some d → size s = d * size (delete k s).
Proof.
  revert s. induction k as [|k IH]; intros [|e s] H; simpl in *; try done; [congruence|]. rewrite (IH s H). simpl. lia.
Qed.

(* ------------------------------------------------------------------ *)
(** The elements reduced into element [i] along axis [k]. *)
Definition slice (k : nat) (s : shp) (i : nat) : list nat :=
  (λ j, ravel s (insert_at k j (unravel (delete k s) i))) <$> seq 0 (nth k s 0).
Lemma fold_axis_dat {T U} (f : list T → U) k (a : arr T) i : dat (fold_axis f k a) i = f (dat a <$> slice k (sh a) i).
Proof. unfold slice. rewrite <- list_fmap_compose. done. Qed.
Lemma slice_length k s i : length (slice k s i) = nth k s 0.
Proof. unfold slice. by rewrite fmap_length, seq_length. Qed.
Lemma slice_in k d s i p : s !! k = Some d → i < size (delete k s) →
  p ∈ slice k s i ↔ p < size s ∧ delete k (unravel s p) = unravel (delete k s) i.
Proof.
  intros Hk Hi. unfold slice. rewrite elem_of_list_fmap. rewrite (nth_of _ _ _ Hk).
  pose proof (unravel_inside _ _ Hi) as Hin. pose proof (lookup_lt_Some _ _ _ Hk) as Hlt.
  assert (Hlen : k ≤ length (unravel (delete k s) i)) by (rewrite unravel_length, length_delete by done; lia).
  split.
  - intros (j & -> & Hj%elem_of_seq). assert (Hj' : j < d) by lia.
    pose proof (insert_at_inside k j d s _ Hk Hj' Hin) as Hs. split; [by apply ravel_lt|].
    rewrite unravel_ravel by done. by apply delete_insert_at.
  - intros [Hp E]. pose proof (unravel_inside _ _ Hp) as Hs. destruct (inside_some _ _ _ _ Hs Hk) as (j & Hj & Hjd).
    exists j. split; [|apply elem_of_seq; lia]. rewrite <- E, insert_at_delete by done. by rewrite ravel_unravel.
Qed.
Lemma slice_nodup k d s i : s !! k = Some d → i < size (delete k s) → NoDup (slice k s i).
Proof.
  intros Hk Hi. unfold slice. rewrite (nth_of _ _ _ Hk). pose proof (unravel_inside _ _ Hi) as Hin. pose proof (lookup_lt_Some _ _ _ Hk) as Hlt.
  assert (Hlen : k ≤ length (unravel (delete k s) i)) by (rewrite unravel_length, length_delete by done; lia).
  apply NoDup_fmap_2_strong; [|apply NoDup_seq_]. intros x y Hx%elem_of_seq Hy%elem_of_seq E.
  apply (inside_ravel_eq s) in E; [|eapply insert_at_inside; [done|lia|done]..].
  pose proof (insert_at_lookup k x _ Hlen) as H1. rewrite E, insert_at_lookup in H1 by done. congruence.
Qed.
Lemma slice_gathers k a d s i : axis_is (length s) k a → s !! a = Some d → i < size (delete a s) → gathers (Some k) s i (slice a s i).
Proof.
  intros Hk Ha Hi. split; [by eapply slice_nodup|]. intros p. rewrite (slice_in a d s i p Ha Hi). simpl. split.
  - intros [? ?]. split; [done|]. eauto.
  - intros (? & b & Hb & E). by rewrite (axis_is_unique _ _ _ _ Hk Hb).
Qed.
Lemma all_gathers s i : gathers None s i (seq 0 (size s)).
Proof. split; [apply NoDup_seq_|]. intros p. rewrite elem_of_seq. simpl. split; [split; [lia|done]|intros [? _]; lia]. Qed.

(** Every reduction applies its function to the elements it gathers. *)
Lemma np_fold_value {T U} (f : list T → U) ax (a : arr T) y : np_fold f ax a = Some y →
  reduced ax (sh a) (sh y) ∧ ∀ i, i < asize y → ∃ l, gathers ax (sh a) i l ∧ dat y i = f (dat a <$> l).
Proof.
  destruct ax as [k|]; simpl.
  - intros (k' & Hk%naxis_is & [= <-])%bind_Some. split; [exists k'; done|]. intros i Hi.
    destruct (axis_dim _ _ _ Hk) as [d Hd]. exists (slice k' (sh a) i). split; [by eapply slice_gathers|]. apply fold_axis_dat.
  - intros [= <-]. split; [done|]. intros i _. exists (seq 0 (size (sh a))). split; [apply all_gathers|done].
Qed.
Lemma gathers_perm ax s i l l' : gathers ax s i l → gathers ax s i l' → l ≡ₚ l'.
Proof. intros [H1 H2] [H3 H4]. apply NoDup_Permutation; [done|done|]. intros p. by rewrite H2, H4. Qed.

(* ------------------------------------------------------------------ *)
(** The index arrays of sum and mean. *)
Lemma rollaxis_front (s : shp) k a d : axis_is (length s) k a → s !! a = Some d → ∃ pre,
  reorder 0 (Rollaxis k 0) (arange s) = Some pre ∧ sh pre = d :: delete a s ∧
  ∀ q, q < d * size (delete a s) →
    dat pre q = ravel s (insert_at a (q / size (delete a s)) (unravel (delete a s) (q mod size (delete a s)))).
Proof.
  intros Hk Hd. unfold reorder. cbn [sh arange]. unfold plan_of. rewrite (proj2 (naxis_is _ _ _) Hk). cbn [mbind option_bind].
  rewrite (decide_False (P := (0 < 0)%Z)) by lia. rewrite decide_True by lia. rewrite (decide_False (P := a < _)) by (simpl; lia).
  change (Z.to_nat 0) with 0. cbn [take drop app]. rewrite drop_0. cbn [fmap option_fmap option_map].
  set (ax := a :: delete a (seq 0 (length s))). eexists. split; [reflexivity|].
  pose proof (lookup_lt_Some _ _ _ Hd) as Ha.
  destruct (rolled_axes_facts (length s) a 0 Ha ltac:(lia)) as (Hnd & Hl & Hlt & H0 & Hdel). 
  rewrite take_0, drop_0 in *. change ([] ++ a :: delete a (seq 0 (length s))) with ax in *.
  assert (Hsh : (permute_axes s ax).1 = d :: delete a s).
  { unfold permute_axes, ax. cbn [fst]. rewrite fmap_cons, (nth_of _ _ _ Hd). f_equal. apply list_eq. intros i.
    rewrite list_lookup_fmap. destruct (decide (i < a)).
    - rewrite !lookup_delete_lt by done. rewrite lookup_seq_lt by lia. simpl.
      destruct (lookup_lt_is_Some_2 s i) as [e He]; [lia|]. by rewrite He, (nth_of _ _ _ He).
    - rewrite !lookup_delete_ge by lia. destruct (decide (S i < length s)).
      + rewrite lookup_seq_lt by lia. simpl. destruct (lookup_lt_is_Some_2 s (S i)) as [e He]; [lia|]. by rewrite He, (nth_of _ _ _ He).
      + rewrite lookup_seq_ge by lia. simpl. symmetry. apply lookup_ge_None_2. lia. }
  split; [exact Hsh|]. intros q Hq. unfold moved. cbn [dat].
  change ([] ++ ax) with ax. rewrite Hsh. set (rest := delete a s) in *.
  assert (Hin : inside (d :: rest) (unravel (d :: rest) q)) by (by apply unravel_inside).
  destruct (permute_axes_spec s ax (unravel (d :: rest) q) Hnd Hl Hlt) as (_ & jx & Hjx & Hins & Hcoord); [by rewrite Hsh|].
  rewrite Hjx. unfold at_. cbn [sh arange dat]. f_equal.
  assert (Hja : jx !! a = Some (q / size rest)) by (rewrite <- (Hcoord 0 a H0); done).
  rewrite <- (insert_at_delete a _ _ Hja). f_equal.
  change (unravel rest (q mod size rest)) with (delete 0 (unravel (d :: rest) q)). symmetry.
  eapply (delete_by_lookup (unravel (d :: rest) q) jx ax a 0 (length s)); try done.
  - rewrite unravel_length. simpl. unfold rest. rewrite length_delete by done. lia.
  - by apply inside_len.
  - lia.
Qed.
Lemma mul_ones (l : shp) : zip_with Nat.mul l (replicate (length l) 1) = l.
Proof. induction l as [|x l IH]; [done|]. simpl. rewrite IH, Nat.mul_1_r. done. Qed.
Lemma mod_inside s ix : inside s ix → zip_with Nat.modulo ix s = ix.
Proof. induction 1 as [|i d ix s Hi H IH]; [done|]. simpl. by rewrite IH, Nat.mod_small. Qed.
Lemma tile_rows d (rest : shp) n : n = S (length rest) → ∃ post,
  reorder 0 (Tile (d :: replicate (n - 1) 1)) (arange (sh (atleast_1d (Arr_ rest (λ _ : nat, 0))))) = Some post ∧
  asize post = d * size rest ∧ ∀ q, q < d * size rest → dat post q = q mod size rest.
Proof.
  intros ->. simpl. rewrite Nat.sub_0_r. destruct rest as [|e rest].
  - unfold atleast_1d. simpl. unfold reorder. cbn [sh arange plan_of length Nat.max fmap option_fmap option_map].
    eexists. split; [reflexivity|]. unfold pad1. simpl. split; [unfold asize; simpl; lia|]. intros q Hq. lia.
  - unfold atleast_1d. cbn [sh]. set (r := e :: rest) in *. unfold reorder. cbn [sh arange plan_of]. rewrite cons_length, replicate_length.
    replace (S (length r) `max` length r) with (S (length r)) by lia. unfold pad1. rewrite cons_length, replicate_length.
    replace (S (length r) - S (length r)) with 0 by lia. replace (S (length r) - length r) with 1 by lia. cbn [replicate app zip_with fmap option_fmap option_map].
    eexists. split; [reflexivity|]. unfold moved, asize. cbn [sh dat fst snd].
    rewrite mul_ones. rewrite Nat.mul_1_l. split; [done|]. intros q Hq.
    cbn [unravel zip_with drop]. rewrite drop_0. unfold at_. cbn [sh dat arange].
    assert (size r ≠ 0) by (intros E; rewrite E in Hq; lia).
    assert (Hlt : q mod size r < size r) by (by apply Nat.mod_upper_bound).
    rewrite mod_inside by (by apply unravel_inside). by apply ravel_unravel.
Qed.

(** Sums by blocks. *)
Lemma rsum_blocks (f : nat → R) d m :
  rsum (f <$> seq 0 (d * m)) = rsum ((λ j, rsum ((λ i, f (j * m + i)) <$> seq 0 m)) <$> seq 0 d).
Proof.
  induction d as [|d IH]; [done|]. rewrite seq_S, fmap_app, rsum_app. replace (S d * m) with (d * m + m) by lia.
  rewrite seq_app, fmap_app, rsum_app, IH. f_equal. cbn [fmap list_fmap]. rewrite rsum_cons. simpl. rewrite Rplus_0_r.
  f_equal.
  assert (E : ∀ n, seq (d * m) n = (λ i, d * m + i) <$> seq 0 n).
  { intros n. rewrite fmap_add_seq. f_equal. lia. }
  rewrite E, <- list_fmap_compose. done.
Qed.
Lemma rsum_pick (f : nat → R) m i : i < m → rsum ((λ x, if decide (x = i) then f x else 0%R) <$> seq 0 m) = f i.
Proof.
  intros Hi. rewrite (rsum_single _ _ i); [by rewrite decide_True|apply NoDup_seq_|apply elem_of_seq; lia|].
  intros x _ Hne. by rewrite decide_False.
Qed.

Lemma at1_sh2 {T U} (a : arr T) (b : arr U) : sh a = sh b → sh (atleast_1d a) = sh (atleast_1d b).
Proof. unfold atleast_1d. intros E. rewrite <- E. destruct (sh a) eqn:H; [done|]. by rewrite H, <- E. Qed.
Lemma elems_fun {T} (a : arr T) (f : nat → T) n : asize a = n → (∀ i, i < n → dat a i = f i) → elems a = f <$> seq 0 n.
Proof. intros <- H. unfold elems. apply list_fmap_ext_ne. intros i Hi%elem_of_seq. apply H. lia. Qed.
Lemma coo_fun n r c (w : R) (f g : nat → nat) : trip (coo r c (replicate n w) (f <$> seq 0 n) (g <$> seq 0 n)) = (λ q, (f q, g q, w)) <$> seq 0 n.
Proof.
  unfold coo. cbn [trip]. assert (E : replicate n w = (λ _, w) <$> seq 0 n).
  { generalize 0. induction n as [|n IH]; intros k; [done|]. simpl. f_equal. apply IH. }
  by rewrite E, !zip_fmap_same.
Qed.
Lemma red_jac_axis m k k' d (a : arr R) : axis_is (length (sh a)) k k' → sh a !! k' = Some d → ∃ J,
  red_jac m (Some k) a = Some J ∧ fits J (size (delete k' (sh a))) (asize a) ∧
  ∀ v i, i < size (delete k' (sh a)) → mact J v i = rsum ((λ p, (weight m d * v p)%R) <$> slice k' (sh a) i).
Proof.
  intros Hk Hd. unfold red_jac, red_r, np_fold. pose proof (proj2 (naxis_is _ _ _) Hk) as Hk'. rewrite Hk'. cbn [mbind option_bind fmap option_fmap option_map].
  destruct (rollaxis_front _ _ _ _ Hk Hd) as (pre & -> & Hpre & Hpred). cbn [mbind option_bind]. rewrite Hpre. cbn [nth length].
  pose proof (lookup_lt_Some _ _ _ Hd) as Hlt. set (rest := delete k' (sh a)) in *. set (m' := size rest) in *.
  destruct (tile_rows d rest (S (length rest)) eq_refl) as (post & Hpost & Hpsz & Hpd).
  rewrite (at1_sh2 (fold_axis (f_red m) k' a) (Arr_ rest (λ _, 0)) eq_refl), Hpost. cbn [mbind option_bind].
  rewrite (nth_of _ _ _ Hd). eexists. split; [reflexivity|]. rewrite at1_size. change (asize (fold_axis (f_red m) k' a)) with m'.
  rewrite (elems_fun post (λ q, q mod m') (d * m') Hpsz Hpd).
  assert (Hpres : asize pre = d * m') by (unfold asize; rewrite Hpre; done).
  rewrite (elems_fun pre _ (d * m') Hpres Hpred), Hpsz. fold m'.
  set (g := λ q, ravel (sh a) (insert_at k' (q / m') (unravel rest (q mod m')))).
  split.
  - split_and!; [done|done|]. unfold in_range. rewrite coo_fun. apply list.Forall_forall. intros e (q & -> & Hq%elem_of_seq)%elem_of_list_fmap.
    cbn [fst snd nrow ncol coo]. assert (Hm0 : m' ≠ 0) by (intros E; rewrite E in Hq; lia).
    assert (Hmod : q mod m' < m') by (by apply Nat.mod_upper_bound). split; [done|].
    apply ravel_lt. eapply insert_at_inside; [exact Hd| |by apply unravel_inside]. apply Nat.div_lt_upper_bound; [done|]. lia.
  - intros v i Hi. rewrite mact_alt, coo_fun. rewrite <- list_fmap_compose. unfold compose. cbn [fst snd].
    rewrite (rsum_blocks (λ q, if decide (q mod m' = i) then (weight m d * v (g q))%R else 0%R) d m').
    unfold slice. fold rest. rewrite <- list_fmap_compose, (nth_of _ _ _ Hd). apply rsum_ext. intros j Hj%elem_of_seq. unfold compose.
    rewrite <- (rsum_pick (λ x, (weight m d * v (ravel (sh a) (insert_at k' j (unravel rest x))))%R) m' i Hi).
    apply rsum_ext. intros x Hx%elem_of_seq.
    assert (E1 : (j * m' + x) mod m' = x) by (rewrite Nat.add_comm, Nat.mod_add by lia; apply Nat.mod_small; lia).
    assert (E2 : (j * m' + x) / m' = j) by (rewrite Nat.div_add_l by lia; rewrite Nat.div_small by lia; lia).
    unfold g. rewrite E1, E2. done.
Qed.
(** Over all elements. *)
Lemma red_jac_all m (a : arr R) : (m = Fmean → nth 0 (sh a) 0 = asize a) → ∃ J,
  red_jac m None a = Some J ∧ fits J 1 (asize a) ∧ ∀ v, mact J v 0 = rsum ((λ p, (weight m (asize a) * v p)%R) <$> seq 0 (asize a)).
Proof.
  intros Hm. destruct m; simpl.
  - eexists. split; [done|]. split; [split_and!; [done..|apply dense_range]|]. intros v. by rewrite mact_dense, decide_True by lia.
  - rewrite (Hm eq_refl). eexists. split; [done|]. split; [split_and!; [done..|apply dense_range]|]. intros v. by rewrite mact_dense, decide_True by lia.
Qed.
(** Both ways. *)
Lemma f_red_weight m (l : list R) : f_red m l = rsum ((λ x, (weight m (length l) * x)%R) <$> l).
Proof.
  rewrite (rsum_scal _ (λ x, x)). rewrite list_fmap_id. destruct m; simpl; [ring|]. unfold Rdiv. ring.
Qed.
Lemma red_right m ax a y : red_r m ax a = Some y → (m = Fmean → ax = None → nth 0 (sh a) 0 = asize a) → ∃ J,
  red_jac m ax a = Some J ∧ fits J (asize y) (asize a) ∧
  (∀ i, i < asize y → ∃ l, gathers ax (sh a) i l ∧ ∀ v, mact J v i = rsum ((λ p, (weight m (length l) * v p)%R) <$> l)) ∧
  (∀ x, sh x = sh a → ∃ z, red_r m ax x = Some z ∧ sh z = sh y ∧ ∀ i, i < asize y → dat z i = mact J (elem x) i).
Proof.
  intros Hy Hm. destruct ax as [k|].
  - unfold red_r, np_fold in Hy. apply bind_Some in Hy as (k' & Hk%naxis_is & [= <-]). destruct (axis_dim _ _ _ Hk) as [d Hd].
    destruct (red_jac_axis m k k' d a Hk Hd) as (J & HJ & Hfit & Hact). exists J. split_and!; [done|done| |].
    + intros i Hi. exists (slice k' (sh a) i). split; [by eapply slice_gathers|]. intros v. rewrite slice_length, (nth_of _ _ _ Hd). by apply Hact.
    + intros x Hx. unfold red_r, np_fold. rewrite Hx, (proj2 (naxis_is _ _ _) Hk). cbn [mbind option_bind]. eexists. split; [done|].
      split; [simpl; by rewrite Hx|]. intros i Hi. rewrite (fold_axis_dat (f_red m)), f_red_weight, fmap_length, Hx, slice_length, (nth_of _ _ _ Hd), Hact by done.
      rewrite <- list_fmap_compose. apply rsum_ext. intros p Hp. unfold compose.
      apply (slice_in k' d) in Hp as [Hp _]; [|done|done]. rewrite elem_in; [done|]. unfold asize. by rewrite Hx.
  - injection Hy as <-. destruct (red_jac_all m a) as (J & HJ & Hfit & Hact); [intros E; by apply Hm|]. exists J. split_and!; [done|done| |].
    + intros i Hi. exists (seq 0 (size (sh a))). split; [apply all_gathers|]. intros v. rewrite seq_length.
      assert (i = 0) as -> by (unfold asize in Hi; simpl in Hi; lia). apply Hact.
    + intros x Hx. eexists. split; [done|]. split; [done|]. intros i Hi. assert (i = 0) as -> by (unfold asize in Hi; simpl in Hi; lia).
      rewrite Hact. simpl. rewrite f_red_weight, elems_length. unfold elems. unfold asize. rewrite Hx. rewrite <- list_fmap_compose. apply rsum_ext.
      intros p Hp%elem_of_seq. unfold compose. rewrite elem_in; [done|]. unfold asize. rewrite Hx. lia.
Qed.
Lemma red_jacobian m ax a y : red_r m ax a = Some y → (m = Fmean → ax = None → nth 0 (sh a) 0 = asize a) → ∃ J,
  red_jac m ax a = Some J ∧ fits J (asize y) (asize a) ∧
  (∀ i, i < asize y → ∃ l, gathers ax (sh a) i l ∧ ∀ p, entry J i p = if decide (p ∈ l) then weight m (length l) else 0%R) ∧
  diff1 (λ x, default x (red_r m ax x)) J a.
Proof.
  intros Hy Hm. destruct (red_right m ax a y Hy Hm) as (J & HJ & Hfit & Hrow & Hval). exists J. split_and!; [done|done| |].
  - intros i Hi. destruct (Hrow i Hi) as (l & Hl & Hact). exists l. split; [done|]. intros p. rewrite <- mact_unit, Hact.
    destruct (decide (p ∈ l)) as [Hp|Hp].
    + rewrite (rsum_single _ _ p); [unfold unit_; rewrite decide_True by done; ring|by apply Hl|done|].
      intros q _ Hq. unfold unit_. rewrite decide_False by congruence. ring.
    + apply rsum_zero. intros q Hq. unfold unit_. rewrite decide_False; [ring|]. intros ->. done.
  - destruct Hfit as (H1 & H2 & H3). apply (linear_diff _ J a (sh y)); [done|done|]. intros x Hx.
    destruct (Hval x Hx) as (z & -> & Hs & Hz). simpl. done.
Qed.
