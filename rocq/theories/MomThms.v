(** Moments: values, derivatives, and where they are wrong. *)
From Coq Require Import Reals Lra.
From stdpp Require Import list list_numbers numbers gmap.
From Verif Require Import ArrModel Curve ArrThms ElemModel ElemSpec ElemThms ReorderModel ReorderSpec ReorderThms ReorderCache DotThms2
  RedModel RedSpec RedThms RedThms2 PinvJac ProtoThms HelpModel HelpSpec HelpThms MomModel MomSpec.

(* ------------------------------------------------------------------ *)
(** Which mean is subtracted from which element. *)
Lemma delete_insert1 j (s : shp) (x : nat) : delete j (<[j:=x]> s) = delete j s.
Proof. revert j. induction s as [|d s IH]; intros [|j]; simpl; try done. f_equal. apply IH. Qed.
Lemma clamp_delete j s ix : delete j (clamp s ix) = clamp (delete j s) (delete j ix).
Proof.
  unfold clamp. revert j ix. induction s as [|d s IH]; intros [|j] [|i ix]; simpl; try done.
  - by destruct s.
  - f_equal. apply IH.
Qed.
Lemma bsh_rev_insert r j : bsh_rev r (<[j:=1]> r) = Some r.
Proof.
  revert j. induction r as [|d r IH]; intros [|j]; cbn [bsh_rev insert list_insert]; [done..| |].
  - rewrite bsh_rev_same. cbn [mbind option_bind]. repeat case_decide; subst; try done.
  - change (list_insert j 1 r) with (<[j:=1]> r). rewrite IH. cbn [mbind option_bind]. by rewrite decide_True.
Qed.
Lemma reverse_insert (s : shp) j : j < length s → reverse (<[j:=1]> s) = <[length s - S j:=1]> (reverse s).
Proof.
  intros Hj. apply list_eq. intros i. destruct (decide (i < length s)) as [Hi|Hi].
  - rewrite reverse_lookup by (by rewrite insert_length). rewrite insert_length.
    destruct (decide (i = length s - S j)) as [->|Hne].
    + rewrite list_lookup_insert by (rewrite reverse_length; lia). apply list_lookup_insert_Some. left. lia.
    + rewrite !list_lookup_insert_ne by lia. by rewrite reverse_lookup.
  - rewrite !lookup_ge_None_2; [done|rewrite insert_length, reverse_length; lia|rewrite reverse_length, insert_length; lia].
Qed.
Lemma bshape_keep s j : j < length s → bshape s (<[j:=1]> s) = Some s.
Proof. intros Hj. unfold bshape. rewrite reverse_insert by done. rewrite bsh_rev_insert. cbn. by rewrite reverse_involutive. Qed.
Lemma bidx_keep s j p : j < length s → p < size s → bidx (<[j:=1]> s) s p = ravel (delete j s) (delete j (unravel s p)).
Proof.
  intros Hj Hp. pose proof (unravel_inside s p Hp) as Hin. unfold bidx. rewrite insert_length, Nat.sub_diag, drop_0.
  assert (Hc : inside (<[j:=1]> s) (clamp (<[j:=1]> s) (unravel s p))).
  { eapply clamp_inside; [|exact Hin]. apply Forall2_same_length_lookup_2; [by rewrite insert_length|].
    intros i d o Hd Ho. destruct (decide (i = j)) as [->|Hne].
    - rewrite list_lookup_insert in Hd by done. right. congruence.
    - rewrite list_lookup_insert_ne in Hd by done. left. congruence. }
  destruct (ravel_delete _ j _ Hc) as [<- _]; [by rewrite list_lookup_insert|].
  rewrite delete_insert1, clamp_delete, delete_insert1. f_equal. apply clamp_same. by apply delete_inside.
Qed.

(* ------------------------------------------------------------------ *)
(** The parts. *)
Lemma mean_r_axis ax a j : axis_is (length (sh a)) ax j → mean_r ax a = Some (atleast_1d (fold_axis (f_red Fmean) j a)).
Proof. intros Hj. unfold mean_r, red_r, np_fold. by rewrite (proj2 (naxis_is _ _ _) Hj). Qed.
Lemma delete_ne (s : shp) j : 2 ≤ length s → delete j s ≠ [].
Proof. destruct s as [|d [|e s]]; simpl; try lia. by destruct j as [|[|j]]. Qed.
Lemma mn_axis ax a j : 2 ≤ length (sh a) → axis_is (length (sh a)) ax j →
  mn_r ax a = Some (Arr_ (<[j:=1]> (sh a)) (dat (fold_axis (f_red Fmean) j a))).
Proof.
  intros H2 Hj. unfold mn_r. rewrite (mean_r_axis _ _ _ Hj). cbn [mbind option_bind].
  rewrite at1_id by (by apply delete_ne).
  assert (Hlt : j < length (sh a)) by (destruct Hj; lia).
  set (m := fold_axis _ _ _). assert (Hm : sh m = delete j (sh a)) by done.
  assert (Hl : S (length (delete j (sh a))) = length (sh a)).
  { rewrite length_delete; [lia|]. by apply lookup_lt_is_Some. }
  unfold view_r, expand_shape. rewrite Hm, Hl, (proj2 (naxis_is _ _ _) Hj). cbn [mbind option_bind].
  replace (take j (delete j (sh a)) ++ 1 :: drop j (delete j (sh a))) with (<[j:=1]> (sh a)).
  2:{ rewrite insert_take_drop by done. rewrite delete_take_drop. f_equal.
      - rewrite take_app_le by (rewrite take_length; lia). rewrite take_take. f_equal. lia.
      - f_equal. rewrite drop_app_ge by (rewrite take_length; lia). rewrite take_length, Nat.min_l by lia. by rewrite Nat.sub_diag, drop_0. }
  rewrite reshaped_nat.
  2:{ unfold asize. rewrite Hm. rewrite (size_delete j 1) by (by apply list_lookup_insert). rewrite delete_insert1. lia. }
  cbn [fmap option_fmap option_map]. f_equal. apply at1_id. cbn [sh]. intros E. apply (f_equal length) in E. rewrite insert_length in E. simpl in E. lia.
Qed.
(** a - mn *)
Definition dev (j : nat) (a : arr R) : arr R :=
  Arr_ (sh a) (λ p, dat a p - average (dat a <$> slice j (sh a) (ravel (delete j (sh a)) (delete j (unravel (sh a) p)))))%R.
Lemma minus_axis ax a j mn : 2 ≤ length (sh a) → axis_is (length (sh a)) ax j → mn_r ax a = Some mn →
  ∃ d, minus_r a mn = Some d ∧ aeq d (dev j a).
Proof.
  intros H2 Hj. rewrite (mn_axis _ _ _ H2 Hj). intros [= <-]. assert (Hlt : j < length (sh a)) by (destruct Hj; lia).
  unfold minus_r. cbn [sh]. rewrite bshape_keep by done. eexists. split; [done|]. unfold binary. split.
  - apply (bop_sh _ _ _ (sh a)). by apply bshape_keep.
  - intros p. unfold asize. rewrite (bop_sh _ _ _ (sh a)) by (by apply bshape_keep). intros Hp. rewrite (bop_dat _ _ _ (sh a)) by (by apply bshape_keep).
    cbn [sh dat]. rewrite bidx_same, bidx_keep by done. unfold b_f.
    unfold dev. cbn [dat]. unfold slice. rewrite <- list_fmap_compose. done.
Qed.
Lemma pow_dat k d : sh d ≠ [] → sh (pow_r k d) = sh d ∧ ∀ p, p < asize d → dat (pow_r k d) p = (dat d p ^ k)%R.
Proof.
  intros Hne. assert (Hb : bshape (sh d) (sh (full [1] (INR k))) = Some (sh d)).
  { cbn [sh full]. rewrite bshape_comm. by apply bshape_one. }
  unfold pow_r, binary. split; [by apply bop_sh|]. intros p Hp. rewrite (bop_dat _ _ _ _ _ Hb). rewrite bidx_same by done. cbn [dat full]. apply npower_nat.
Qed.

(* ------------------------------------------------------------------ *)
(** The value along an axis of an array of two or more dimensions. *)
Lemma slice_ravel j d s i p : s !! j = Some d → i < size (delete j s) → p ∈ slice j s i → ravel (delete j s) (delete j (unravel s p)) = i ∧ p < size s.
Proof.
  intros Hd Hi Hp. apply (slice_in j d) in Hp as [Hp E]; [|done|done]. split; [|done]. rewrite E. by apply ravel_unravel.
Qed.
Lemma central_axis k ax a j : 2 ≤ length (sh a) → axis_is (length (sh a)) ax j → ∃ y, central_r k ax a = Some y ∧
  sh y = delete j (sh a) ∧ ∀ i, i < asize y → dat y i = central k (dat a <$> slice j (sh a) i).
Proof.
  intros H2 Hj. destruct (axis_dim _ _ _ Hj) as [d Hd].
  assert (Hmn := mn_axis _ _ _ H2 Hj). destruct (minus_axis _ _ _ _ H2 Hj Hmn) as (c & Hc & Hs & Hv).
  unfold central_r. rewrite Hmn. cbn [mbind option_bind]. rewrite Hc. cbn [mbind option_bind].
  cbn [sh dev] in Hs. assert (Hne : sh c ≠ []) by (rewrite Hs; intros E; rewrite E in H2; simpl in H2; lia).
  destruct (pow_dat k c Hne) as [Hps Hpd].
  rewrite (mean_r_axis _ _ j) by (by rewrite Hps, Hs).
  rewrite at1_id by (cbn [sh fold_axis]; rewrite Hps, Hs; by apply delete_ne).
  eexists. split; [done|]. cbn [sh fold_axis]. rewrite Hps, Hs. split; [done|]. intros i Hi. unfold asize in Hi. cbn [sh fold_axis] in Hi. rewrite Hps, Hs in Hi.
  rewrite fold_axis_dat, Hps, Hs. unfold central, average. cbn [f_red]. rewrite !fmap_length. f_equal. f_equal. rewrite <- list_fmap_compose.
  apply list_fmap_ext_ne. intros p Hp. destruct (slice_ravel j d _ i p Hd Hi Hp) as [Hr Hlt]. unfold compose.
  rewrite Hpd by (unfold asize; by rewrite Hs). rewrite Hv by (unfold asize; by rewrite Hs). unfold dev. cbn [dat]. rewrite Hr. unfold average. by rewrite ?fmap_length.
Qed.

(* ------------------------------------------------------------------ *)
(** The first moment is zero. *)
Lemma rsum_minus (l : list R) c : rsum ((λ x, x - c)%R <$> l) = (rsum l - INR (length l) * c)%R.
Proof. induction l as [|x l IH]; [simpl; unfold rsum; simpl; ring|]. rewrite fmap_cons. cbn [rsum foldr length]. fold (rsum l). fold (rsum ((λ x, x - c)%R <$> l)). rewrite IH, S_INR. ring. Qed.
Lemma central_1 l : central 1 l = 0%R.
Proof.
  unfold central. rewrite (list_fmap_ext _ (λ x, x - average l)%R) by (intros; ring). unfold average at 1. rewrite fmap_length, rsum_minus.
  destruct (decide (length l = 0)) as [E|E].
  - destruct l; [|done]. unfold Rdiv, rsum. simpl. ring.
  - unfold average. assert (INR (length l) ≠ 0%R) by (by apply not_0_INR). field. done.
Qed.
Lemma moment_value k ax a j : 2 ≤ length (sh a) → axis_is (length (sh a)) ax j → ∃ y, moment_r k ax a = Some (Obj y) ∧ is_moment k ax a y.
Proof.
  intros H2 Hj. destruct (axis_dim _ _ _ Hj) as [d Hd]. pose proof (delete_ne _ j H2) as Hne. unfold moment_r. destruct (decide (k = 1)) as [->|Hk].
  - rewrite (proj2 (naxis_is _ _ _) Hj). cbn [mbind option_bind]. destruct (delete j (sh a)) as [|e s] eqn:E; [done|].
    eexists. split; [done|]. exists j, (e :: s). split_and!; [done|by rewrite E|done|]. intros i Hi. exists (slice j (sh a) i).
    split; [eapply slice_gathers; [done..|]; by rewrite E|]. rewrite central_1. done.
  - destruct (central_axis k ax a j H2 Hj) as (y & -> & Hs & Hv). exists y. split; [done|]. exists j, (delete j (sh a)).
    split_and!; [done|done|by rewrite decide_False|]. intros i Hi. exists (slice j (sh a) i). split; [by eapply slice_gathers|].
    apply Hv. unfold asize. by rewrite Hs.
Qed.
Lemma moment_raises k ax a : (∀ j, ¬ axis_is (length (sh a)) ax j) → moment_r k ax a = None.
Proof.
  intros H. assert (E : naxis (length (sh a)) ax = None).
  { destruct (naxis (length (sh a)) ax) as [j|] eqn:E; [|done]. apply naxis_is in E. by destruct (H j). }
  unfold moment_r. rewrite E. case_decide; [done|]. unfold central_r, mn_r, mean_r, red_r, np_fold. by rewrite E.
Qed.
Lemma central_perm k (l l' : list R) : l ≡ₚ l' → central k l = central k l'.
Proof.
  intros H. assert (Ha : ∀ u v : list R, u ≡ₚ v → average u = average v).
  { intros u v Huv. unfold average. rewrite (Permutation_length Huv). f_equal. by apply rsum_perm. }
  unfold central. rewrite (Ha _ _ H). apply Ha. by apply fmap_Permutation.
Qed.
Lemma moment_unique k ax a y z : is_moment k ax a y → is_moment k ax a z → aeq y z.
Proof.
  intros (j & s & Hj & -> & Hs & Hy) (j' & s' & Hj' & -> & Hs' & Hz). assert (j' = j) as -> by (destruct Hj, Hj'; lia).
  split; [by rewrite Hs|]. intros i Hi. assert (Hlt : i < size (delete j (sh a))).
  { unfold asize in Hi. rewrite Hs in Hi. case_decide as E; [rewrite E; simpl in *; lia|done]. }
  destruct (Hy i Hlt) as (l & Hl & ->), (Hz i Hlt) as (l' & Hl' & ->). apply central_perm, fmap_Permutation. by eapply gathers_perm.
Qed.

(* ------------------------------------------------------------------ *)
(** Vectors. *)
Lemma vector_axis ax : ax = 0%Z ∨ ax = (-1)%Z → axis_is 1 ax 0 ∧ axis_is 2 ax (if decide (ax = 0%Z) then 0 else 1).
Proof. intros [-> | ->]; split; split; simpl; lia. Qed.
Lemma vector_mn ax n (d : nat → R) : ax = 0%Z ∨ ax = (-1)%Z →
  ∃ mn, mn_r ax (Arr_ [n] d) = Some mn ∧ sh mn = [1; 1] ∧ ∀ i, dat mn i = average (d <$> seq 0 n).
Proof.
  intros Hax. destruct (vector_axis ax Hax) as [Hj Hj2].
  unfold mn_r. rewrite (mean_r_axis ax (Arr_ [n] d) 0 Hj). cbn [mbind option_bind].
  set (m := atleast_1d _). assert (Hm : sh m = [1]) by done.
  assert (Hd : ∀ i, dat m i = average (d <$> seq 0 n)).
  { intros i. unfold m. rewrite at1_dat. cbn [dat fold_axis f_red sh]. unfold average. cbn [delete list_delete unravel nth]. f_equal; [f_equal|rewrite !fmap_length; done].
    apply list_fmap_ext_ne. intros j _. unfold at_, insert_at. cbn [sh dat take drop app ravel]. f_equal. simpl. lia. }
  unfold view_r, expand_shape. rewrite Hm. change (S (length [1])) with 2. rewrite (proj2 (naxis_is _ _ _) Hj2). cbn [mbind option_bind].
  assert (E : take (if decide (ax = 0%Z) then 0 else 1) [1] ++ 1 :: drop (if decide (ax = 0%Z) then 0 else 1) [1] = [1; 1]) by (by case_decide).
  rewrite E, reshaped_nat by (unfold asize; by rewrite Hm). cbn [fmap option_fmap option_map]. eexists. split; [done|]. split; [done|]. intros i. rewrite at1_dat. apply Hd.
Qed.
Lemma bshape_row n : bshape [n] [1; 1] = Some [1; n].
Proof. unfold bshape. cbn. repeat case_decide; subst; done. Qed.
Lemma bidx_row n i : i < n → bidx [n] [1; n] i = i.
Proof.
  intros Hi. unfold bidx. simpl length. simpl Nat.sub. cbn [unravel drop size foldr]. rewrite Nat.mul_1_r, Nat.div_1_r. cbn [clamp zip_with ravel size foldr].
  rewrite Nat.mod_small by done. case_decide; lia.
Qed.
Lemma vector_central k ax n d : ax = 0%Z ∨ ax = (-1)%Z → ∃ y, central_r k ax (Arr_ [n] d) = Some y ∧
  let dv i := ((d i - average (d <$> seq 0 n)) ^ k)%R in
  if decide (ax = 0%Z) then sh y = [n] ∧ ∀ i, i < n → dat y i = dv i
  else sh y = [1] ∧ dat y 0 = average (dv <$> seq 0 n).
Proof.
  intros Hax. destruct (vector_axis ax Hax) as [Hj Hj2]. destruct (vector_mn ax n d Hax) as (mn & Hmn & Hms & Hmd).
  unfold central_r. rewrite Hmn. cbn [mbind option_bind]. unfold minus_r. cbn [sh]. rewrite Hms, bshape_row. cbn [mbind option_bind].
  assert (Hb : bshape (sh (Arr_ [n] d)) (sh mn) = Some [1; n]) by (cbn [sh]; rewrite Hms; apply bshape_row).
  set (c := binary Bsubtract (Arr_ [n] d) mn).
  assert (Hcs : sh c = [1; n]) by (by apply bop_sh).
  assert (Hcd : ∀ i, i < n → dat c i = (d i - average (d <$> seq 0 n))%R).
  { intros i Hi. unfold c, binary. rewrite (bop_dat _ _ _ _ _ Hb). rewrite Hmd. cbn [sh dat b_f]. by rewrite bidx_row. }
  destruct (pow_dat k c) as [Hps Hpd]; [by rewrite Hcs|]. rewrite Hcs in Hps.
  rewrite (mean_r_axis ax (pow_r k c) _ ltac:(rewrite Hps; exact Hj2)). eexists. split; [done|]. cbv zeta.
  assert (Hpn : ∀ i, i < n → dat (pow_r k c) i = ((d i - average (d <$> seq 0 n)) ^ k)%R).
  { intros i Hi. rewrite Hpd, Hcd; [done|done|]. unfold asize. rewrite Hcs. simpl. lia. }
  destruct (decide (ax = 0%Z)) as [->|Hne].
  - split; [rewrite at1_id; cbn [sh fold_axis]; rewrite Hps; done|]. intros i Hi. rewrite at1_dat, fold_axis_dat, Hps. unfold slice.
    cbn [nth seq fmap list_fmap delete list_delete unravel size foldr]. unfold insert_at. cbn [take drop app ravel size foldr f_red length].
    rewrite Nat.div_1_r.
    replace (0 * (n * 1) + (i * 1 + 0)) with i by lia. rewrite <- Hpn by done. unfold rsum. simpl. field.
  - split; [rewrite at1_id; cbn [sh fold_axis]; rewrite Hps; done|]. rewrite at1_dat, fold_axis_dat, Hps. unfold slice. cbn [f_red]. unfold average.
    rewrite !fmap_length. f_equal. f_equal. rewrite <- list_fmap_compose. cbn [nth]. apply list_fmap_ext_ne. intros i Hi%elem_of_seq. unfold compose, insert_at.
    cbn [delete list_delete unravel size foldr]. change (0 / 1) with 0. cbn [take drop app ravel size foldr]. replace (0 * (n * 1) + (i * 1 + 0)) with i by lia.
    rewrite Hpn by lia. unfold average. by rewrite ?fmap_length.
Qed.
Lemma vector_gathers ax n : ax = 0%Z ∨ ax = (-1)%Z → gathers (Some ax) [n] 0 (seq 0 n).
Proof.
  intros Hax. destruct (vector_axis ax Hax) as [Hj _]. replace (seq 0 n) with (slice 0 [n] 0); [by eapply slice_gathers; [done|done|simpl; lia]|].
  unfold slice. cbn [delete list_delete unravel nth]. transitivity ((λ i : nat, i) <$> seq 0 n); [|apply list_fmap_id].
  apply list_fmap_ext_ne. intros i _. unfold insert_at. cbn [take drop app ravel size foldr]. lia.
Qed.
Lemma vector_last k n d : k ≠ 1 → ∃ y, moment_r k (-1) (Arr_ [n] d) = Some (Obj y) ∧ is_moment k (-1) (Arr_ [n] d) y.
Proof.
  intros Hk. destruct (vector_central k (-1) n d) as (y & Hy & Hs & Hd); [by right|]. unfold moment_r. rewrite decide_False, Hy by done. exists y. split; [done|].
  exists 0, []. split_and!; [split; simpl; lia|done|done|]. intros i Hi. assert (i = 0) as -> by (simpl in Hi; lia). exists (seq 0 n). split; [apply vector_gathers; by right|].
  rewrite Hd. unfold central. by rewrite <- list_fmap_compose.
Qed.
Lemma vector_first k n d : k ≠ 1 → n ≠ 1 → ∃ y, moment_r k 0 (Arr_ [n] d) = Some (Obj y) ∧ sh y = [n] ∧
  (∀ i, i < n → dat y i = ((d i - average (d <$> seq 0 n)) ^ k)%R) ∧ ¬ is_moment k 0 (Arr_ [n] d) y.
Proof.
  intros Hk Hn. destruct (vector_central k 0 n d) as (y & Hy & Hs & Hd); [by left|]. unfold moment_r. rewrite decide_False, Hy by done. exists y. split_and!; try done.
  intros (j & s & [Hj _] & -> & Hsy & _). simpl in Hj. assert (j = 0) as -> by lia. rewrite Hs in Hsy. simpl in Hsy. congruence.
Qed.
Lemma vector_one ax n d : ax = 0%Z ∨ ax = (-1)%Z → moment_r 1 ax (Arr_ [n] d) = Some (Plain 0).
Proof. intros [-> | ->]; done. Qed.

(* ------------------------------------------------------------------ *)
(** The derivative. *)
Lemma diff1_at1 f J a : diff1 f J a → diff1 (λ x, atleast_1d (f x)) J a.
Proof. intros H y v H0 Hm. apply amoves_at1. by apply H. Qed.
Lemma mean_right ax a m : mean_r ax a = Some m → ∃ J, red_jac Fmean (Some ax) a = Some J ∧ fits J (asize m) (asize a) ∧
  diff1 (λ x, default x (mean_r ax x)) J a ∧ (∀ x, sh x = sh a → ∃ z, mean_r ax x = Some z ∧ sh z = sh m) ∧
  ∀ j i, axis_is (length (sh a)) ax j → i < asize m → ∀ v, mact J v i = average (v <$> slice j (sh a) i).
Proof.
  intros (u & Hu & ->)%fmap_Some. destruct (red_right Fmean (Some ax) a u Hu) as (J & HJ & Hf & Hrow & Hval); [done|].
  destruct (red_jacobian Fmean (Some ax) a u Hu) as (J' & HJ' & _ & _ & Hd); [done|]. assert (J' = J) as -> by congruence.
  exists J. rewrite at1_size. split_and!; [done|done| | |].
  - assert (Hs : ∀ x, sh x = sh a → ∃ z, red_r Fmean (Some ax) x = Some z) by (intros x Hx; destruct (Hval x Hx) as (z & ? & _); by exists z).
    intros y v H0 Hm. eapply amoves_near; [|apply (diff1_at1 _ _ _ Hd y v H0 Hm)].
    eapply near_mono; [|exact (amoves_shape _ _ Hm)]. intros t Ht. rewrite H0 in Ht. destruct (Hs _ Ht) as (z & Hz). unfold mean_r. by rewrite Hz.
  - intros x Hx. destruct (Hval x Hx) as (z & Hz & Hzs & _). exists (atleast_1d z). unfold mean_r. rewrite Hz. split; [done|]. by apply at1_sh.
  - intros j i Hj Hi v. destruct (Hrow i Hi) as (l & Hl & ->). destruct (axis_dim _ _ _ Hj) as [d Hdm].
    assert (Hu' : asize u = size (delete j (sh a))).
    { unfold red_r, np_fold in Hu. rewrite (proj2 (naxis_is _ _ _) Hj) in Hu. cbn in Hu. by injection Hu as <-. }
    assert (Hp : l ≡ₚ slice j (sh a) i). { eapply gathers_perm; [done|]. eapply slice_gathers; [done..|]. by rewrite <- Hu'. }
    rewrite (rsum_scal _ v). unfold average. rewrite fmap_length, <- (Permutation_length Hp). cbn [weight]. rewrite (rsum_perm (v <$> l) (v <$> slice j (sh a) i)) by (by apply fmap_Permutation).
    unfold Rdiv. ring.
Qed.
Lemma out_ne s t out : t ≠ [] → bshape s t = Some out → out ≠ [].
Proof.
  intros Ht H. destruct (bshape_r _ _ _ H) as (ld & tl & -> & Hf). intros E. apply app_eq_nil in E as [-> ->].
  apply Forall2_nil_inv_r in Hf. done.
Qed.
Lemma view_some ns (z m mn : arr R) : sh z = sh m → view_r (Some ns) m = Some mn → ∃ u, view_r (Some ns) z = Some u.
Proof.
  intros Hs. unfold view_r, reshaped, asize. cbn [mbind option_bind]. rewrite Hs. destruct (fill_shape (size (sh m)) ns); [|done]. intros _. cbn. by eexists.
Qed.
Lemma minus_meet a b : meet b_dom Bsubtract a b.
Proof. by intros. Qed.
Lemma central_right k ax a y : central_r k ax a = Some y → ∃ J, central_jac k ax a = Some J ∧ fits J (asize y) (asize a) ∧
  diff1 (λ x, default x (central_r k ax x)) J a.
Proof.
  intros Hy. unfold central_r in Hy. apply bind_Some in Hy as (mn & Hmn & Hy). apply bind_Some in Hy as (d & Hd & Hy).
  unfold mn_r in Hmn. apply bind_Some in Hmn as (m & Hm & Hv). destruct (expand_shape ax (sh m)) as [ns|] eqn:Hns; [|done].
  unfold minus_r in Hd. destruct (bshape (sh a) (sh mn)) as [out|] eqn:Hb; [|done]. injection Hd as <-.
  set (d := binary Bsubtract a mn) in *.
  assert (Hds : sh d = out) by (by apply bop_sh).
  assert (Hmne : sh mn ≠ []).
  { unfold view_r in Hv. cbn [mbind option_bind] in Hv. apply fmap_Some in Hv as (u & _ & ->). apply at1_ne. }
  assert (Hdne : sh d ≠ []) by (rewrite Hds; by eapply out_ne).
  assert (Hpb : bshape (sh d) (sh (full [1] (INR k))) = Some (sh d)) by (cbn [sh full]; rewrite bshape_comm; by apply bshape_one).
  destruct (mean_right ax a m Hm) as (Jm & HJm & Hfm & Hdm & Hvm & _).
  destruct (view_right ns m mn Hv) as (Hfr & Hdr & _).
  destruct (binary_right Bsubtract a mn out [] [] Hb (minus_meet a mn)) as (Ja & Jb & HJa & HJb & Hfa & Hfb & Hdab).
  destruct (power_nat_right d (full [1] (INR k)) (sh d) [] Hpb) as (Jp & HJp & Hfp & Hdp); [intros i _; by exists k|].
  destruct (mean_right ax (pow_r k d) y Hy) as (Js & HJs & Hfs & Hdsy & Hvs & _).
  assert (Hps : sh (pow_r k d) = sh d) by (by apply pow_dat).
  exists (mmul Js (mmul Jp (madd Ja (mmul Jb (mmul (reshape_jac m) Jm))))). split_and!.
  - unfold central_jac, mn_r. rewrite Hm. cbn [mbind option_bind]. rewrite HJm. cbn [mbind option_bind]. rewrite Hns, Hv. cbn [mbind option_bind].
    unfold minus_r. rewrite Hb. cbn [mbind option_bind]. fold d. change no_templates with (after_calls []). rewrite HJa, HJb, HJp. cbn [mbind option_bind]. rewrite HJs. done.
  - assert (Hpsz : asize (pow_r k d) = asize d) by (unfold asize; by rewrite Hps).
    assert (Hdsz : asize d = size out) by (unfold asize; by rewrite Hds).
    apply (mmul_fits _ _ _ (asize d)); [by rewrite Hpsz in Hfs|]. apply (mmul_fits _ _ _ (asize d)); [done|].
    rewrite Hdsz. apply madd_fits; [done|]. apply (mmul_fits _ _ _ (asize mn)); [done|]. by apply (mmul_fits _ _ _ (asize m)).
  - intros Y v H0 HY.
    set (M t := default (Y t) (mean_r ax (Y t))). set (N t := default (M t) (view_r (Some ns) (M t))).
    set (D t := binary Bsubtract (Y t) (N t)). set (P t := pow_r k (D t)).
    assert (M0 : M 0%R = m) by (unfold M; by rewrite H0, Hm).
    assert (N0 : N 0%R = mn) by (unfold N; by rewrite M0, Hv).
    assert (D0 : D 0%R = d) by (unfold D; by rewrite H0, N0).
    assert (P0 : P 0%R = pow_r k d) by (unfold P; by rewrite D0).
    assert (HM : amoves M (mact Jm v)) by (by apply Hdm).
    assert (HN : amoves N (mact (reshape_jac m) (mact Jm v))) by (by apply (Hdr M)).
    assert (HD : amoves D (λ i, mact Ja v i + mact Jb (mact (reshape_jac m) (mact Jm v)) i)%R) by (by apply (Hdab Y v N)).
    assert (HP : amoves P (mact Jp (λ i, mact Ja v i + mact Jb (mact (reshape_jac m) (mact Jm v)) i)%R)) by (by apply (Hdp D)).
    eapply amoves_ext; [|eapply amoves_near; [|apply (Hdsy P _ P0 HP)]].
    + intros i. rewrite mact_mmul. apply mact_ext. intros q. rewrite mact_mmul. apply mact_ext. intros r.
      rewrite mact_madd, mact_mmul. f_equal. apply mact_ext. intros u. by rewrite mact_mmul.
    + eapply near_mono; [|apply (near_and _ _ (amoves_shape _ _ HY) (near_and _ _ (amoves_shape _ _ HM) (near_and _ _ (amoves_shape _ _ HN) (amoves_shape _ _ HP))))].
      cbv beta. intros t (Ht & HtM & HtN & HtP). rewrite H0 in Ht. rewrite M0 in HtM. rewrite N0 in HtN. rewrite P0 in HtP.
      destruct (Hvm _ Ht) as (z & Hz & Hzs). unfold central_r, mn_r. rewrite Hz. cbn [mbind option_bind].
      assert (HMz : M t = z) by (unfold M; by rewrite Hz).
      rewrite Hzs, Hns. destruct (view_some ns z m mn Hzs Hv) as (u & Hu). rewrite Hu. cbn [mbind option_bind].
      assert (HNu : N t = u) by (unfold N; by rewrite HMz, Hu).
      unfold minus_r. rewrite Ht. rewrite HNu in HtN. rewrite HtN, Hb. cbn [mbind option_bind].
      assert (HDt : binary Bsubtract (Y t) u = D t) by (unfold D; by rewrite HNu). rewrite HDt. fold (P t).
      destruct (Hvs _ HtP) as (w & Hw & _). by rewrite Hw.
Qed.

(* ------------------------------------------------------------------ *)
(** std and gamma *)
Lemma variance_central l : variance l = central 2 l.
Proof. unfold variance, central. f_equal. apply list_fmap_ext. intros _ x _. ring. Qed.
Lemma std_value ax a y : sh a ≠ [] → std_r ax a = Some y → ∃ s, reduced ax (sh a) s ∧ sh y = (if decide (s = []) then [1] else s) ∧
  ∀ i, i < size s → ∃ l, gathers ax (sh a) i l ∧
    dat y i = R_sqrt.sqrt (central 2 (dat a <$> l) + average (dat a <$> l) * average (dat a <$> l))%R.
Proof.
  intros Hne (z & Hz & ->)%fmap_Some. apply fmap_Some in Hz as (u & Hu & ->). destruct (var_value ax a u Hne Hu) as [Hs Hv].
  exists (sh u). split_and!; [done| |].
  - unfold unary, amap. cbn [sh]. unfold atleast_1d. destruct (sh u) as [|e s] eqn:E; [done|]. by rewrite E.
  - intros i Hi. destruct (Hv i Hi) as (l & Hl & E). exists l. split; [done|]. change (dat (unary Usqrt (atleast_1d u)) i) with (R_sqrt.sqrt (dat (atleast_1d u) i)). rewrite at1_dat, E. by rewrite variance_central.
Qed.
Lemma std_wrong : ∃ a y, std_r None a = Some y ∧ dat y 0 ≠ R_sqrt.sqrt (central 2 (elems a)).
Proof.
  exists (of_list 0%R [1] [1]%R). eexists. split; [reflexivity|].
  assert (E1 : central 2 (elems (of_list 0%R [1] [1]%R)) = 0%R).
  { unfold central, average. cbn. unfold rsum. simpl. field. }
  assert (E2 : npower 1 2 = 1%R). { change 2%R with (INR 2). rewrite npower_nat. simpl. ring. }
  rewrite E1, sqrt_0. simpl. unfold rsum. simpl. rewrite E2. replace ((1 + 0) / 1)%R with 1%R by field. rewrite sqrt_1. lra.
Qed.
Lemma gamma_right G psi a : (∀ i, i < asize a → derivable_pt_lim G (dat a i) (psi (dat a i) * G (dat a i))%R) →
  sh (gamma_r G a) = sh a ∧ (∀ i, dat (gamma_r G a) i = G (dat a i)) ∧ fits (gamma_jac G psi a) (asize a) (asize a) ∧
  (∀ i j, i < asize a → entry (gamma_jac G psi a) i j = if decide (j = i) then (psi (dat a i) * G (dat a i))%R else 0%R) ∧
  diff1 (gamma_r G) (gamma_jac G psi a) a.
Proof.
  intros H. assert (Hl : ∀ i, i < asize a → ((λ x, psi x * G x)%R <$> elems a) !! i = Some (psi (dat a i) * G (dat a i))%R).
  { intros i Hi. rewrite list_lookup_fmap, elems_lookup by done. done. }
  assert (Hn : length ((λ x, psi x * G x)%R <$> elems a) = asize a) by (by rewrite fmap_length, elems_length).
  split_and!; [done|done| | |].
  - unfold gamma_jac. rewrite <- Hn. apply diags_fits.
  - intros i j Hi. rewrite <- mact_unit. unfold gamma_jac. rewrite mact_diags, Hl by done. unfold unit_.
    destruct (decide (j = i)) as [->|]; [rewrite decide_True by done; ring|]. rewrite decide_False by congruence. ring.
  - intros y v <- Hy. apply (amoves_intro _ _ (sh (y 0%R))).
    + exact (amoves_shape _ _ Hy).
    + intros i Hi. unfold gamma_jac. rewrite mact_diags, Hl by done. cbn [dat gamma_r].
      apply (derivable_pt_lim_comp (λ t, dat (y t) i) G); [by apply amoves_dat|by apply H].
    + intros i Hi. unfold gamma_jac. rewrite mact_diags. rewrite lookup_ge_None_2; [done|]. rewrite Hn. done.
Qed.
Lemma moment_right k ax a y : k ≠ 1 → moment_r k ax a = Some (Obj y) →
  ∃ J, central_jac k ax a = Some J ∧ fits J (asize y) (asize a) ∧ diff1 (λ x, default x (central_r k ax x)) J a ∧ central_r k ax a = Some y.
Proof.
  intros Hk. unfold moment_r. rewrite decide_False by done. intros (z & Hz & [= ->])%fmap_Some.
  destruct (central_right k ax a z Hz) as (J & H1 & H2 & H3). by exists J.
Qed.
Lemma first_plain ax n d : ax = 0%Z ∨ ax = (-1)%Z → moment_r 1 ax (Arr_ [n] d) = Some (Plain 0) ∧
  ∀ y, moment_r 1 ax (Arr_ [n] d) ≠ Some (Obj y).
Proof. intros H. rewrite (vector_one _ _ _ H). done. Qed.
