(** Matrix products. *)
From Coq Require Import Reals Lra.
From stdpp Require Import list list_numbers numbers gmap.
From Verif Require Import ArrModel Curve ArrThms ElemModel ElemSpec ElemThms ReorderModel ReorderSpec ReorderThms ReorderCache IndexThms DotModel DotSpec.

Lemma ravel_app s t ix jx : length ix = length s → ravel (s ++ t) (ix ++ jx) = ravel s ix * size t + ravel t jx.
Proof.
  revert ix. induction s as [|d s IH]; intros [|i ix] H; try done. cbn [app ravel]. rewrite IH by (by injection H). rewrite size_app. nia.
Qed.
Lemma inside_app s t ix jx : inside s ix → inside t jx → inside (s ++ t) (ix ++ jx).
Proof. intros H1 H2. by apply Forall2_app. Qed.
Lemma inside_one n i : i < n → inside [n] [i].
Proof. intros H. by repeat constructor. Qed.
Lemma div_mod_eq i n p j : j < p → i = n * p + j → i / p = n ∧ i mod p = j.
Proof. intros Hj ->. split; [by rewrite Nat.div_add_l, Nat.div_small, Nat.add_0_r by lia|rewrite Nat.add_comm, Nat.mod_add by lia; by apply Nat.mod_small]. Qed.

(* ------------------------------------------------------------------ *)
(** Kronecker products. *)
Lemma kron_range a b : in_range a → in_range b → in_range (kron a b).
Proof.
  unfold in_range. rewrite !list.Forall_forall. intros Ha Hb e He. cbn [trip kron] in He.
  apply elem_of_list_bind in He as (x & He & Hx). apply elem_of_list_bind in He as (y & He & Hy).
  apply elem_of_list_singleton in He as ->. destruct (Ha x Hx), (Hb y Hy). cbn [fst snd nrow ncol kron]. nia.
Qed.
Lemma kron_act a b v p q : in_range b → q < nrow b →
  mact (kron a b) v (p * nrow b + q) = mact a (λ c, mact b (λ d, v (c * ncol b + d)) q) p.
Proof.
  intros Hb Hq. rewrite !mact_alt. cbn [trip kron]. rewrite rsum_bind. apply rsum_ext. intros e He.
  rewrite rsum_bind. destruct (decide (e.1.1 = p)) as [<-|Hp].
  - rewrite mact_alt, <- rsum_scal. apply rsum_ext. intros f Hf. cbn [fmap list_fmap fst snd]. rewrite rsum_cons, rsum_nil.
    destruct (decide (f.1.1 = q)) as [<-|Hfq].
    + rewrite decide_True by done. ring.
    + rewrite decide_False by lia. ring.
  - apply rsum_zero. intros f Hf. cbn [fmap list_fmap fst snd]. rewrite rsum_cons, rsum_nil. rewrite decide_False; [ring|].
    intros E. apply Hp. unfold in_range in Hb. rewrite list.Forall_forall in Hb. destruct (Hb f Hf) as [Hr _].
    destruct (div_mod_eq (p * nrow b + q) p (nrow b) q Hq eq_refl) as [E1 _].
    destruct (div_mod_eq (p * nrow b + q) e.1.1 (nrow b) f.1.1 Hr (eq_sym E)) as [E2 _]. congruence.
Qed.
Lemma eye_act n v i : i < n → mact (eye n) v i = v i.
Proof. intros Hi. unfold eye. rewrite mact_diags, lookup_replicate_2 by done. ring. Qed.
Lemma eye_fits n : fits (eye n) n n.
Proof. unfold eye. pose proof (diags_fits (replicate n 1%R)) as H. by rewrite replicate_length in H. Qed.
Lemma dense_fits r c f : fits (dense r c f) r c.
Proof. split_and!; [done|done|apply dense_range]. Qed.
Lemma kron_fits a b r c r' c' : fits a r c → fits b r' c' → fits (kron a b) (r * r') (c * c').
Proof. intros (<- & <- & Ha) (<- & <- & Hb). split_and!; [done|done|by apply kron_range]. Qed.

(* ------------------------------------------------------------------ *)
(** The value. *)
Lemma a_parts_is s sa n : a_parts s = Some (sa, n) ↔ s = sa ++ [n].
Proof.
  unfold a_parts. destruct (reverse s) as [|x l] eqn:E.
  - apply (f_equal reverse) in E. rewrite reverse_involutive in E. subst. split; [done|]. by destruct sa.
  - apply (f_equal reverse) in E. rewrite reverse_involutive, reverse_cons in E. subst. split; [by intros [= <- <-]|].
    intros [H1 H2]%app_inj_2; [|done]. by injection H2 as ->; subst.
Qed.
Lemma b_parts_is s sb n sp : b_parts s = Some (sb, n, sp) ↔ (s = [n] ∧ sb = [] ∧ sp = []) ∨ ∃ p, sp = [p] ∧ s = sb ++ [n; p].
Proof.
  unfold b_parts. destruct (reverse s) as [|x l] eqn:E; apply (f_equal reverse) in E; rewrite reverse_involutive in E.
  - subst. split; [done|]. intros [[? _]|(p & _ & H)]; [done|by destruct sb].
  - rewrite reverse_cons in E. destruct l as [|n' l].
    + simpl in E. subst. split.
      * intros [= <- <- <-]. by left.
      * intros [(E & -> & ->)|(p & -> & E)]; [by injection E as ->|]. destruct sb as [|? [|]]; done.
    + rewrite reverse_cons in E. rewrite <- app_assoc in E. simpl in E. subst. split.
      * intros [= <- <- <-]. right. by exists x.
      * intros [(E & -> & ->)|(p & -> & E)].
        { destruct (reverse l) as [|? [|]]; done. }
        apply app_inj_2 in E as [E1 E2]; [|done]. injection E2 as -> ->. by rewrite E1.
Qed.
Lemma np_dot_inv a b y : np_dot a b = Some y → ∃ sa n sb sp, sh a = sa ++ [n] ∧ b_parts (sh b) = Some (sb, n, sp) ∧ sh y = sa ++ sb ++ sp ∧
  ∀ o, dat y o = rsum ((λ l, dat a (o / size sp / size sb * n + l) * dat b (((o / size sp) mod size sb * n + l) * size sp + o mod size sp))%R <$> seq 0 n).
Proof.
  unfold np_dot. intros ([sa n] & Ha & H)%bind_Some. apply bind_Some in H as ([[sb n'] sp] & Hb & H).
  destruct (decide (n = n')) as [<-|]; [|done]. injection H as <-. apply a_parts_is in Ha. by exists sa, n, sb, sp.
Qed.
Lemma np_dot_some a b : is_Some (np_dot a b) ↔ dot_shapes (sh a) (sh b).
Proof.
  split.
  - intros [y Hy]. destruct (np_dot_inv a b y Hy) as (sa & n & sb & sp & Ha & Hb & _). exists sa, n. split; [done|].
    apply b_parts_is in Hb as [(-> & _)|(p & _ & ->)]; [by left|right; by exists sb, p].
  - intros (sa & n & Ha & Hb). unfold np_dot. rewrite (proj2 (a_parts_is _ _ _) Ha). cbn [mbind option_bind].
    assert (∃ sb sp, b_parts (sh b) = Some (sb, n, sp)) as (sb & sp & ->).
    { destruct Hb as [Hb|(sb & p & Hb)]; [exists [], []|exists sb, [p]]; apply b_parts_is; [by left|right; by exists p]. }
    cbn [mbind option_bind]. by rewrite decide_True.
Qed.
Lemma np_dot_value a b y : np_dot a b = Some y → is_dot a b y.
Proof.
  intros Hy. destruct (np_dot_inv a b y Hy) as (sa & n & sb & sp & Ha & Hb & Hsy & Hd). exists sa, n. split; [done|].
  apply b_parts_is in Hb as [(Hb & -> & ->)|(p & -> & Hb)].
  - left. rewrite app_nil_r in Hsy. split_and!; [done|done|]. intros ix Hix. unfold at_ at 1. rewrite Hd, Hsy. apply rsum_ext. intros l [_ Hl]%elem_of_seq.
    cbn [size foldr]. rewrite !Nat.div_1_r, !Nat.mod_1_r. unfold at_. rewrite Ha, Hb. rewrite ravel_app by (by apply inside_len). simpl.
    f_equal; f_equal; lia.
  - right. exists sb, p. rewrite Hsy. split_and!; [done|done|]. intros ix jx j Hix Hjx Hj. unfold at_ at 1. rewrite Hd, Hsy.
    rewrite !ravel_app by (by apply inside_len). assert (Hp : size [p] = p) by (cbn; lia). rewrite size_app, Hp. cbn [ravel]. change (size []) with 1.
    pose proof (ravel_lt sb jx Hjx) as Hlt.
    destruct (div_mod_eq (ravel sa ix * (size sb * p) + (ravel sb jx * p + (j * 1 + 0))) (ravel sa ix * size sb + ravel sb jx) p j Hj) as [E1 E2]; [nia|].
    rewrite E1, E2. destruct (div_mod_eq (ravel sa ix * size sb + ravel sb jx) (ravel sa ix) (size sb) (ravel sb jx) Hlt eq_refl) as [E3 E4].
    rewrite E3, E4. apply rsum_ext. intros l [_ Hl]%elem_of_seq. unfold at_. rewrite Ha, Hb.
    rewrite !ravel_app by (by apply inside_len). cbn. f_equal; f_equal; nia.
Qed.

(* ------------------------------------------------------------------ *)
(** The Jacobians, for a vector or a matrix on the right. *)
Lemma fill_left n c : c ≠ 0 → (∃ m, n = m * c) → fill_shape n [(-1)%Z; Z.of_nat c] = Some [n / c; c].
Proof.
  intros Hc (m & ->). unfold fill_shape.
  assert (E : filter (λ d, d ≠ -1)%Z [(-1)%Z; Z.of_nat c] = [Z.of_nat c]).
  { rewrite filter_cons_False by (intros H; by apply H). rewrite filter_cons_True by lia. by rewrite filter_nil. }
  assert (E2 : filter (λ d, d = -1)%Z [(-1)%Z; Z.of_nat c] = [(-1)%Z]).
  { rewrite filter_cons_True by done. rewrite filter_cons_False by lia. by rewrite filter_nil. }
  rewrite E, E2. cbn [fmap list_fmap size foldr length].
  rewrite (decide_True (P := (-1 = -1)%Z)) by done. rewrite (decide_False (P := (Z.of_nat c = -1)%Z)) by lia. rewrite Nat2Z.id, !Nat.mul_1_r. rewrite !Nat.div_mul by done. cbv zeta. rewrite decide_True; [done|].
  split_and!; [lia|repeat constructor; lia| |right; lia]. simpl. lia.
Qed.
Lemma fill_right n c : c ≠ 0 → (∃ m, n = m * c) → fill_shape n [Z.of_nat c; (-1)%Z] = Some [c; n / c].
Proof.
  intros Hc (m & ->). unfold fill_shape.
  assert (E : filter (λ d, d ≠ -1)%Z [Z.of_nat c; (-1)%Z] = [Z.of_nat c]).
  { rewrite filter_cons_True by lia. rewrite filter_cons_False by (intros H; by apply H). by rewrite filter_nil. }
  assert (E2 : filter (λ d, d = -1)%Z [Z.of_nat c; (-1)%Z] = [(-1)%Z]).
  { rewrite filter_cons_False by lia. rewrite filter_cons_True by done. by rewrite filter_nil. }
  rewrite E, E2. cbn [fmap list_fmap size foldr length].
  rewrite (decide_False (P := (Z.of_nat c = -1)%Z)) by lia. rewrite (decide_True (P := (-1 = -1)%Z)) by done. rewrite Nat2Z.id, !Nat.mul_1_r. rewrite !Nat.div_mul by done. cbv zeta. rewrite decide_True; [done|].
  split_and!; [lia|repeat constructor; lia| |right; lia]. simpl. lia.
Qed.
Lemma dot_ar_is a sa n : sh a = sa ++ [n] → 0 < n → dot_ar a = Some (Arr_ [size sa; n] (dat a)).
Proof.
  intros Ha Hn. unfold dot_ar, reshaped.
  assert (Hs : asize a = size sa * n) by (unfold asize; rewrite Ha, size_app; cbn; lia).
  destruct (decide (length (sh a) < 2)) as [Hl|Hl].
  - rewrite Ha, app_length in Hl. simpl in Hl. destruct sa; [|simpl in Hl; lia].
    change [1; -1]%Z with [Z.of_nat 1; (-1)%Z]. rewrite (fill_right _ 1) by (try lia; exists (asize a); lia).
    rewrite Nat.div_1_r, Hs. cbn. by rewrite Nat.add_0_r.
  - rewrite Ha, last_snoc. cbn [default]. rewrite (fill_left _ n) by (try lia; by exists (size sa)). rewrite Hs, Nat.div_mul by lia. done.
Qed.
Lemma dot_br_is b n sp : b_parts (sh b) = Some ([], n, sp) → 0 < n → dot_br b = Some (Arr_ [n; size sp] (dat b)).
Proof.
  intros Hb Hn. apply b_parts_is in Hb as [(Hb & _ & ->)|(p & -> & Hb)]; unfold dot_br, reshaped, asize; rewrite Hb; simpl length.
  - rewrite decide_True by lia. change [-1; 1]%Z with [(-1)%Z; Z.of_nat 1].
    rewrite (fill_left _ 1) by (try lia; exists n; cbn; lia). rewrite Nat.div_1_r. cbn. by rewrite Nat.mul_1_r.
  - simpl app. rewrite decide_False by (simpl; lia). cbn [nth]. rewrite (fill_right _ n) by (try lia; exists p; cbn; lia). cbn. rewrite !Nat.mul_1_r. rewrite (Nat.mul_comm n p), Nat.div_mul by lia. done.
Qed.
Lemma d1_act m n p (b : arr R) v i j : i < m → j < p →
  mact (kron (eye m) (mat_T n p b)) v (i * p + j) = rsum ((λ l, (dat b (l * p + j)%nat * v (i * n + l)%nat)%R) <$> seq 0 n).
Proof.
  intros Hi Hj. change p with (nrow (mat_T n p b)) at 2. rewrite kron_act by (try done; apply dense_range). rewrite eye_act by done.
  unfold mat_T. rewrite mact_dense, decide_True by done. done.
Qed.
Lemma d2_act m n p (a : arr R) v i j : i < m → j < p →
  mact (kron (mat m n a) (eye p)) v (i * p + j) = rsum ((λ l, (dat a (i * n + l)%nat * v (l * p + j)%nat)%R) <$> seq 0 n).
Proof.
  intros Hi Hj. destruct (eye_fits p) as (E1 & E2 & E3). rewrite <- E1 at 2. rewrite kron_act by (rewrite ?E1; done).
  unfold mat. rewrite mact_dense, decide_True by done. apply rsum_ext. intros l _. rewrite eye_act by done. by rewrite E2.
Qed.
Lemma deriv_mult f g l1 l2 : derivable_pt_lim f 0%R l1 → derivable_pt_lim g 0%R l2 → derivable_pt_lim (λ t, f t * g t)%R 0%R (l1 * g 0 + f 0 * l2)%R.
Proof. intros H1 H2. apply (derivable_pt_lim_mult f g 0%R l1 l2 H1 H2). Qed.
Lemma dot_right a b y : np_dot a b = Some y → length (sh b) ≤ 2 → 0 < nth 0 (sh b) 0 →
  ∃ Ja Jb, dot_jac true false a b = Some (Some Ja) ∧ dot_jac false true a b = Some (Some Jb) ∧
    fits Ja (asize y) (asize a) ∧ fits Jb (asize y) (asize b) ∧ diff2 (λ u v, default u (np_dot u v)) Ja Jb a b ∧
    (∀ sa n, sh a = sa ++ [n] → ∀ i j, i < size sa → j < asize b / n → let p := asize b / n in
      (∀ v, mact Ja v (i * p + j) = rsum ((λ l, (dat b (l * p + j)%nat * v (i * n + l)%nat)%R) <$> seq 0 n)) ∧
      (∀ v, mact Jb v (i * p + j) = rsum ((λ l, (dat a (i * n + l)%nat * v (l * p + j)%nat)%R) <$> seq 0 n))).
Proof.
  intros Hy Hlb Hpos. destruct (np_dot_inv a b y Hy) as (sa & n & sb & sp & Ha & Hb & Hsy & Hd).
  assert (sb = []) as ->.
  { apply b_parts_is in Hb as [(_ & -> & _)|(p & _ & Hb)]; [done|]. rewrite Hb, app_length in Hlb. simpl in Hlb. destruct sb; [done|simpl in Hlb; lia]. }
  assert (Hn : 0 < n).
  { apply b_parts_is in Hb as [(Hb & _ & _)|(p & _ & Hb)]; rewrite Hb in Hpos; done. }
  assert (Hasz : asize a = size sa * n) by (unfold asize; rewrite Ha, size_app; cbn; lia).
  assert (Hbsz : asize b = n * size sp).
  { unfold asize. apply b_parts_is in Hb as [(Hb & _ & ->)|(p & -> & Hb)]; rewrite Hb; cbn; lia. }
  assert (Hysz : asize y = size sa * size sp) by (unfold asize; rewrite Hsy, app_nil_l, size_app; done).
  set (m := size sa) in *. set (p := size sp) in *.
  assert (Hd' : ∀ o, dat y o = rsum ((λ l, dat a (o / p * n + l) * dat b (l * p + o mod p))%R <$> seq 0 n)).
  { intros o. rewrite Hd. apply rsum_ext. intros l _. cbn [size foldr]. rewrite Nat.div_1_r, Nat.mod_1_r. f_equal. }
  exists (kron (eye m) (mat_T n p b)), (kron (mat m n a) (eye p)). unfold dot_jac, dot_d1, dot_d2.
  rewrite (dot_ar_is a sa n Ha Hn), (dot_br_is b n sp Hb Hn). fold m p. split_and!; [done|done| | | |].
  - rewrite Hysz, Hasz. apply (kron_fits _ _ m m p n); [apply eye_fits|apply dense_fits].
  - rewrite Hysz, Hbsz. apply (kron_fits _ _ m n p p); [apply dense_fits|apply eye_fits].
  - intros u v z w Hu Hz Hmu Hmz.
    pose proof (curve_shape2 _ _ _ _ Hmu Hmz) as Hn2. rewrite Hu, Hz in Hn2.
    assert (Hnear : near (λ t, ∃ y', np_dot (u t) (z t) = Some y' ∧ sh y' = sh y ∧
      ∀ o, dat y' o = rsum ((λ l, dat (u t) (o / p * n + l) * dat (z t) (l * p + o mod p))%R <$> seq 0 n))).
    { eapply near_mono; [|exact Hn2]. intros t (_ & H2 & H3).
      assert (Hs : is_Some (np_dot (u t) (z t))) by (apply np_dot_some; rewrite H2, H3; apply np_dot_some; by exists y).
      destruct Hs as [y' Hy']. exists y'. split; [done|]. destruct (np_dot_inv _ _ _ Hy') as (sa' & n' & sb' & sp' & Ha' & Hb' & Hsy' & Hd2).
      rewrite H2, Ha in Ha'. apply app_inj_2 in Ha' as [<- [= <-]]; [|done]. rewrite H3, Hb in Hb'. injection Hb' as <- <-.
      split; [congruence|]. intros o. rewrite Hd2. apply rsum_ext. intros l _. cbn [size foldr]. rewrite Nat.div_1_r, Nat.mod_1_r. f_equal. }
    apply (amoves_intro _ _ (sh y)).
    + eapply near_mono; [|exact Hnear]. intros t (y' & -> & Hs & _). done.
    + intros o Ho. change (size (sh y)) with (asize y) in Ho. rewrite Hysz in Ho.
      assert (Hp : p ≠ 0) by (intros E; rewrite E in Ho; lia). pose proof (Nat.div_mod_eq o p) as Eo.
      assert (Hi : o / p < m) by (apply Nat.div_lt_upper_bound; lia). assert (Hj : o mod p < p) by (by apply Nat.mod_upper_bound).
      replace (mact (kron (eye m) (mat_T n p b)) v o) with (rsum ((λ l, (dat b (l * p + o mod p)%nat * v (o / p * n + l)%nat)%R) <$> seq 0 n)).
      2:{ rewrite <- d1_act with (m := m) by done. f_equal. lia. }
      replace (mact (kron (mat m n a) (eye p)) w o) with (rsum ((λ l, (dat a (o / p * n + l)%nat * w (l * p + o mod p)%nat)%R) <$> seq 0 n)).
      2:{ rewrite <- d2_act with (m := m) by done. f_equal. lia. }
      rewrite <- rsum_plus.
      apply (deriv_near (λ t, rsum ((λ l, dat (u t) (o / p * n + l) * dat (z t) (l * p + o mod p))%R <$> seq 0 n))).
      { eapply near_mono; [|exact Hnear]. intros t (y' & Hy' & _ & E). by rewrite Hy', <- E. }
      apply (deriv_rsum (λ l t, dat (u t) (o / p * n + l) * dat (z t) (l * p + o mod p))%R). intros l [_ Hl]%elem_of_seq.
      assert (Hui : o / p * n + l < asize (u 0%R)) by (rewrite Hu, Hasz; nia).
      assert (Hzi : l * p + o mod p < asize (z 0%R)) by (rewrite Hz, Hbsz; nia).
      pose proof (deriv_mult _ _ _ _ (amoves_dat _ _ _ Hmu Hui) (amoves_dat _ _ _ Hmz Hzi)) as D. cbv beta in D. rewrite Hu, Hz in D.
      refine (lim_eq _ _ _ _ _ D). ring.
    + intros o Ho. change (size (sh y)) with (asize y) in Ho. rewrite Hysz in Ho.
      destruct (kron_fits _ _ m m p n (eye_fits m) (dense_fits p n (λ i j, dat b (j * p + i)%nat))) as (R1 & _ & R2).
      destruct (kron_fits _ _ m n p p (dense_fits m n (λ i j, dat a (i * n + j)%nat)) (eye_fits p)) as (R3 & _ & R4).
      unfold mat_T, mat. rewrite (mact_out _ v _ R2) by (rewrite R1; done). rewrite (mact_out _ w _ R4) by (rewrite R3; done). ring.
  - intros sa' n' Ha' i j Hi Hj. rewrite Ha in Ha'. apply app_inj_2 in Ha' as [<- [= <-]]; [|done]. fold m in Hi. cbv zeta.
    assert (E : asize b / n = p) by (rewrite Hbsz, Nat.mul_comm; by apply Nat.div_mul; lia). rewrite E in *.
    split; intros v; [by apply d1_act|by apply d2_act].
Qed.
