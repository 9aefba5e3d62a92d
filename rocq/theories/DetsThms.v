(** Determinants of several matrices. *)
From Coq Require Import Reals Lra.
From stdpp Require Import list list_numbers numbers gmap.
From Verif Require Import ArrModel Curve ArrThms ElemModel ElemThms ReorderModel ReorderThms DotModel DotThms DotThms2 LinModel LinSpec LinThms LinJac LinOps ConcModel DetsModel.

Lemma dets_some a pre n : sh a = pre ++ [n; n] → np_dets a = Some (Arr_ pre (λ t, detn n (blk a n t))).
Proof. intros H%squares_is. unfold np_dets. by rewrite H. Qed.
Lemma dets_shape a d : np_dets a = Some d → ∃ pre n, sh a = pre ++ [n; n] ∧ d = Arr_ pre (λ t, detn n (blk a n t)).
Proof.
  unfold np_dets. destruct (squares (sh a)) as [[pre n]|] eqn:E; [|done]. apply squares_is in E. intros [= <-]. by exists pre, n.
Qed.
Lemma determinant_is n F A : is_determinant n F → F A = detn n A.
Proof. intros (HF & H1). rewrite (alternating_det n F _ HF). change (F delta = 1%R) in H1. rewrite H1. ring. Qed.
Lemma det_is_determinant n : is_determinant n (detn n).
Proof. split; [apply det_alternating|]. by apply (det_one n). Qed.
Lemma det_at a pre n ix F : sh a = pre ++ [n; n] → inside pre ix → is_determinant n F → F (matrix_at a ix) = detn n (blk a n (ravel pre ix)).
Proof.
  intros Hs Hix HF. rewrite (determinant_is n F _ HF). apply det_ext. intros i j _ _. apply matrix_blk; [done|]. by apply Forall2_length in Hix.
Qed.

Theorem dets_value a : (∀ d, np_dets a = Some d → ∃ pre n, sh a = pre ++ [n; n] ∧ sh d = pre ∧ (∃ F, is_determinant n F) ∧
    ∀ F ix, is_determinant n F → inside pre ix → at_ d ix = F (matrix_at a ix)) ∧
  ((∃ pre n, sh a = pre ++ [n; n]) → is_Some (np_dets a)).
Proof.
  split.
  - intros d Hd. destruct (dets_shape a d Hd) as (pre & n & Hs & ->). exists pre, n. split_and!; [done|done|exists (detn n); apply det_is_determinant|].
    intros F ix HF Hix. rewrite (det_at a pre n ix F) by done. done.
  - intros (pre & n & Hs). rewrite (dets_some a pre n Hs). by eexists.
Qed.

Lemma logs_some a pre n : sh a = pre ++ [n; n] → (∀ t, t < size pre → detn n (blk a n t) ≠ 0%R) →
  np_logdets a = Some (of_list 0%R pre ((λ t, ln (Rabs (detn n (blk a n t)))) <$> seq 0 (size pre))).
Proof.
  intros Hs HD. unfold np_logdets. rewrite (proj2 (squares_is _ _ _) Hs). cbn [mbind option_bind].
  assert (E : mapM (λ t, if Req_EM_T (detn n (blk a n t)) 0 then None else Some (ln (Rabs (detn n (blk a n t))))) (seq 0 (size pre)) =
    Some ((λ t, ln (Rabs (detn n (blk a n t)))) <$> seq 0 (size pre))).
  { apply mapM_Some, Forall2_same_length_lookup. rewrite fmap_length. split; [done|]. intros k x y Hx Hy. rewrite list_lookup_fmap, Hx in Hy. injection Hy as <-.
    apply lookup_seq in Hx as [-> Hk]. cbv zeta. destruct (Req_EM_T _ _) as [E|]; [by destruct (HD _ Hk)|]. done. }
  by rewrite E.
Qed.
Lemma logs_inv a d : np_logdets a = Some d → ∃ pre n, sh a = pre ++ [n; n] ∧ ∀ t, t < size pre → detn n (blk a n t) ≠ 0%R.
Proof.
  unfold np_logdets. destruct (squares (sh a)) as [[pre n]|] eqn:E; [|done]. cbn [mbind option_bind]. intros H.
  exists pre, n. split; [by apply squares_is|]. intros t Ht Z. destruct (mapM _ _) as [X|] eqn:EX; [|done].
  destruct (mapM_lookup _ _ _ EX) as [_ HX]. destruct (HX t t) as (Y & _ & EY); [by apply lookup_seq|]. cbv zeta in EY. destruct (Req_EM_T _ _); done.
Qed.
Theorem logs_value a : (∀ d, np_logdets a = Some d → ∃ pre n, sh a = pre ++ [n; n] ∧ sh d = pre ∧ (∃ F, is_determinant n F) ∧
    ∀ F ix, is_determinant n F → inside pre ix → F (matrix_at a ix) ≠ 0%R ∧ at_ d ix = ln (Rabs (F (matrix_at a ix)))) ∧
  (∀ pre n F, sh a = pre ++ [n; n] → is_determinant n F → (∀ ix, inside pre ix → F (matrix_at a ix) ≠ 0%R) → is_Some (np_logdets a)).
Proof.
  split.
  - intros d Hd. destruct (logs_inv a d Hd) as (pre & n & Hs & HD). rewrite (logs_some a pre n Hs HD) in Hd. injection Hd as <-.
    exists pre, n. split_and!; [done|done|exists (detn n); apply det_is_determinant|].
    intros F ix HF Hix. rewrite (det_at a pre n ix F) by done. pose proof (ravel_lt pre ix Hix) as Hlt. split; [by apply HD|].
    unfold at_. simpl. by rewrite nth_lookup, list_lookup_fmap, lookup_seq_lt.
  - intros pre n F Hs HF H. rewrite (logs_some a pre n Hs); [by eexists|]. intros t Ht.
    rewrite <- (ravel_unravel pre t Ht). rewrite <- (det_at a pre n _ F) by (done || by apply unravel_inside). apply H. by apply unravel_inside.
Qed.

(** The Jacobians have one row. *)
Theorem one_row a J : dets_jac a = Some J ∨ logdets_jac a = Some J → nrow J = 1.
Proof.
  unfold dets_jac, logdets_jac. destruct (np_dets a) as [r|], (np_inv a) as [X|]; cbn [mbind option_bind]; try (intros [?|?]; done).
  - destruct (turned X) as [T|]; [|intros [?|?]; done]. cbn [mbind option_bind]. intros [H|H].
    + destruct (times r T) as [p|]; [|done]. by injection H as <-.
    + by injection H as <-.
  - destruct (turned X) as [T|]; [|intros [?|?]; done]. cbn [mbind option_bind]. intros [H|H]; [done|]. by injection H as <-.
Qed.

(** One matrix in an array. *)
Lemma turned_one (X : arr R) n : sh X = [1; n; n] → ∃ T, turned X = Some T ∧ sh T = [n; n; 1] ∧ ∀ i j, i < n → j < n → dat T (i * n + j) = blk X n 0 j i.
Proof.
  intros Hs. unfold turned, reorder, plan_of. rewrite Hs. cbn [fmap option_fmap option_map]. eexists. split; [done|].
  split; [done|]. intros i j Hi Hj. unfold moved. cbn [dat].
  change ((permute_axes [1; n; n] (reverse (seq 0 (length [1; n; n])))).1) with [n; n; 1].
  replace (i * n + j) with (ravel [n; n; 1] [i; j; 0]) by (simpl; lia).
  rewrite unravel_ravel by (repeat (constructor; [lia|]); constructor).
  change ((permute_axes [1; n; n] (reverse (seq 0 (length [1; n; n])))).2 [i; j; 0]) with (Some [0; j; i]). cbv iota.
  unfold at_, blk. rewrite Hs. f_equal. simpl. lia.
Qed.
Lemma row_act a n v f : sh a = [n; n; 1] → (∀ i j, i < n → j < n → dat a (i * n + j) = f i j) →
  mact (row a) v 0 = rsum ((λ i, rsum ((λ j, f i j * v (i * n + j)%nat)%R <$> seq 0 n)) <$> seq 0 n).
Proof.
  intros Hs Hf. rewrite <- row_of_act. unfold row, row_of. rewrite !mact_dense, !decide_True by lia.
  assert (Ha : asize a = n * n) by (unfold asize; rewrite Hs; simpl; lia). rewrite Ha.
  apply rsum_ext. intros q [_ Hq]%elem_of_seq. simpl in Hq. f_equal. destruct (decide (n = 0)) as [->|Hn]; [lia|].
  rewrite <- (Hf (q / n) (q mod n)).
  - f_equal. pose proof (Nat.div_mod q n Hn). lia.
  - by apply Nat.div_lt_upper_bound.
  - by apply Nat.mod_upper_bound.
Qed.
Lemma times_one r T n : sh r = [1] → sh T = [n; n; 1] → ∃ p, times r T = Some p ∧ sh p = [n; n; 1] ∧ ∀ q, q < n * n → dat p q = (dat r 0%nat * dat T q)%R.
Proof.
  intros Hr HT. unfold times. assert (E : bshape (sh r) (sh T) = Some [n; n; 1]) by (by rewrite Hr, HT).
  rewrite E. cbn [mbind option_bind]. eexists. split; [done|]. split; [by rewrite (bop_sh _ _ _ _ E)|].
  intros q Hq. rewrite (bop_dat _ _ _ _ _ E), Hr, HT. f_equal.
  f_equal. apply bidx_same. simpl. lia.
Qed.
Lemma vector_diff (f : arr R → arr R) (J : spm) a : fits J 1 (asize a) →
  (∀ u v, u 0%R = a → amoves u v → near (λ s, sh (f (u s)) = [1]) ∧ derivable_pt_lim (λ s, dat (f (u s)) 0%nat) 0%R (mact J v 0)) → diff1 f J a.
Proof.
  intros (Hr & _ & Hi) H u v E Hu. destruct (H u v E Hu) as [H1 H2]. apply (amoves_intro _ _ [1]); [done|..].
  - intros i Hi0. simpl in Hi0. assert (i = 0) as -> by lia. done.
  - intros i Hi0. simpl in Hi0. apply mact_out; [done|lia].
Qed.
Lemma move_one (a : arr R) n y : np_inv a = Some y → sh a = [1; n; n] → ∀ u v, u 0%R = a → amoves u v →
  detn n (blk a n 0) ≠ 0%R ∧ mmoves n (λ s, blk (u s) n 0) (λ i j, v (i * n + j)) ∧
  derivable_pt_lim (λ s, detn n (blk (u s) n 0)) 0%R (detn n (blk a n 0) * rsum ((λ i, rsum ((λ j, blk y n 0 j i * v (i * n + j)%nat)%R <$> seq 0 n)) <$> seq 0 n))%R.
Proof.
  intros Hy Hs u v <- Hu. destruct (np_inv_blk _ y [1] n 0 Hy Hs) as [HD HX]; [simpl; lia|].
  pose proof (blk_moves u v [1] n 0 Hu Hs ltac:(simpl; lia)) as HM. split_and!; [done|done|].
  apply (det_jacobi n (λ s, blk (u s) n 0) (λ i j, v (i * n + j)%nat) (blk y n 0)); [done|].
  apply (inverse_ext n (blk (u 0%R) n 0) _ (λ j i, cof n (blk (u 0%R) n 0) i j / detn n (blk (u 0%R) n 0))%R); [done| |by apply rinv_both, cramer_right].
  intros i j Hi Hj. by rewrite HX.
Qed.
Theorem one_matrix a n : sh a = [1; n; n] → is_Some (np_inv a) →
  (∃ d J, np_dets a = Some d ∧ dets_jac a = Some J ∧ fits J (asize d) (asize a) ∧ diff1 (λ x, default x (np_dets x)) J a) ∧
  ∃ d J, np_logdets a = Some d ∧ logdets_jac a = Some J ∧ fits J (asize d) (asize a) ∧ diff1 (λ x, default x (np_logdets x)) J a.
Proof.
  intros Hs [y Hy]. assert (Hsy : sh y = [1; n; n]) by (by rewrite (np_inv_shape _ _ Hy)).
  destruct (turned_one y n Hsy) as (T & HT & HsT & HdT). assert (Ha : asize a = n * n) by (unfold asize; rewrite Hs; simpl; lia).
  assert (FT : ∀ p : arr R, sh p = [n; n; 1] → fits (row p) 1 (asize a)).
  { intros p Hp. rewrite Ha. unfold row. replace (asize p) with (n * n); [apply dense_fits|]. unfold asize. rewrite Hp. simpl. lia. }
  split.
  - pose proof (dets_some a [1] n Hs) as Hd. destruct (times_one _ T n (eq_refl : sh (Arr_ [1] (λ t, detn n (blk a n t))) = [1]) HsT) as (p & Hp & Hsp & Hdp).
    eexists _, (row p). split; [done|]. split; [unfold dets_jac; rewrite Hd, Hy; cbn [mbind option_bind]; rewrite HT; cbn [mbind option_bind]; by rewrite Hp|].
    split; [by apply FT|]. apply vector_diff; [by apply FT|]. intros u v E Hu. pose proof (amoves_shape _ _ Hu) as Hsh. rewrite E, Hs in Hsh.
    destruct (move_one a n y Hy Hs u v E Hu) as (HD & HM & D). split.
    + eapply near_mono; [|exact Hsh]. intros s Hss. simpl. by rewrite (dets_some _ [1] _ Hss).
    + apply (deriv_near (λ s, detn n (blk (u s) n 0))).
      * eapply near_mono; [|exact Hsh]. intros s Hss. simpl. by rewrite (dets_some _ [1] _ Hss).
      * refine (lim_eq _ _ _ _ _ D). rewrite (row_act p n v (λ i j, (detn n (blk a n 0) * blk y n 0 j i)%R) Hsp).
        -- rewrite <- rsum_scal. apply rsum_ext. intros i _. rewrite <- rsum_scal. apply rsum_ext. intros j _. ring.
        -- intros i j Hi Hj. rewrite Hdp by nia. by rewrite HdT.
  - destruct (np_inv_blk _ y [1] n 0 Hy Hs) as [HD0 _]; [simpl; lia|].
    assert (HL : ∀ b : arr R, sh b = [1; n; n] → detn n (blk b n 0) ≠ 0%R → np_logdets b = Some (of_list 0%R [1] [ln (Rabs (detn n (blk b n 0)))])).
    { intros b Hb HDb. rewrite (logs_some b [1] n Hb); [done|]. intros t Ht. simpl in Ht. assert (t = 0) as -> by lia. done. }
    eexists _, (row T). split; [by apply HL|]. split; [unfold logdets_jac; rewrite Hy; cbn [mbind option_bind]; by rewrite HT|].
    split; [by apply FT|]. apply vector_diff; [by apply FT|]. intros u v E Hu. pose proof (amoves_shape _ _ Hu) as Hsh. rewrite E, Hs in Hsh.
    destruct (move_one a n y Hy Hs u v E Hu) as (_ & HM & D).
    assert (HD1 : detn n (blk (u 0%R) n 0) ≠ 0%R) by (by rewrite E).
    assert (HN : near (λ s, np_logdets (u s) = Some (of_list 0%R [1] [ln (Rabs (detn n (blk (u s) n 0)))]))).
    { eapply near_mono; [|apply (near_and _ _ Hsh (det_near n (λ s, blk (u s) n 0) _ HM HD1))]. intros s [H1 H2]. by apply HL. }
    split.
    + eapply near_mono; [|exact HN]. intros s H. simpl. by rewrite H.
    + apply (deriv_near (λ s, ln (Rabs (detn n (blk (u s) n 0))))).
      * eapply near_mono; [|exact HN]. intros s H. simpl. by rewrite H.
      * refine (lim_eq _ _ _ _ _ (derivable_pt_lim_comp (λ s, detn n (blk (u s) n 0)) (λ x, ln (Rabs x)) 0%R _ _ D (lim_ln_abs _ _))).
        -- rewrite (row_act T n v (λ i j, blk y n 0 j i) HsT) by done. rewrite E. field. done.
        -- by rewrite E.
Qed.

(** Two matrices: one row, for two determinants. *)
Definition two_ones : arr R := of_list 0%R [2; 1; 1] [1; 1]%R.
Lemma two_inv : is_Some (np_inv two_ones).
Proof.
  destruct (np_inv_some two_ones [2] 1 eq_refl) as (y & Hy & _); [|by exists y]. intros t Ht. simpl in Ht.
  assert (t = 0 ∨ t = 1) as [->| ->] by lia; unfold detn, two_ones, blk, rsum; simpl; lra.
Qed.
Theorem two_rows : ∃ a d J l K, (∀ ix, inside [2] ix → ∃ X, is_inverse 1 (matrix_at a ix) X) ∧ sh a = [2; 1; 1] ∧
  np_dets a = Some d ∧ dets_jac a = Some J ∧ np_logdets a = Some l ∧ logdets_jac a = Some K ∧
  asize d = 2 ∧ nrow J = 1 ∧ asize l = 2 ∧ nrow K = 1.
Proof.
  destruct two_inv as [y Hy]. pose proof (np_inv_shape _ _ Hy) as Hs. exists two_ones.
  pose proof (dets_some two_ones [2] 1 eq_refl) as Hd.
  assert (HL : np_logdets two_ones = Some (of_list 0%R [2] ((λ t, ln (Rabs (detn 1 (blk two_ones 1 t)))) <$> seq 0 2))).
  { apply (logs_some two_ones [2] 1 eq_refl). intros t Ht. simpl in Ht. assert (t = 0 ∨ t = 1) as [->| ->] by lia; unfold detn, two_ones, blk, rsum; simpl; lra. }
  assert (∃ T, turned y = Some T ∧ sh T = [1; 1; 2]) as (T & HT & HsT).
  { unfold turned, reorder, plan_of. cbn [fmap option_fmap option_map]. eexists. split; [done|]. by rewrite Hs. }
  assert (HJ : dets_jac two_ones = Some (row (bop Rmult (Arr_ [2] (λ t, detn 1 (blk two_ones 1 t))) T))).
  { unfold dets_jac. rewrite Hd, Hy. cbn [mbind option_bind]. rewrite HT. cbn [mbind option_bind]. unfold times. rewrite HsT. done. }
  assert (HK : logdets_jac two_ones = Some (row T)).
  { unfold logdets_jac. rewrite Hy. cbn [mbind option_bind]. by rewrite HT. }
  eexists _, _, _, _. split_and!; [|done|exact Hd|exact HJ|exact HL|exact HK|done|done|done|done].
  destruct (inv_value _ _ Hy) as (pre & n & H1 & _ & H2). change (sh two_ones) with ([2] ++ [1; 1]) in H1.
  apply (f_equal squares) in H1. rewrite !(proj2 (squares_is _ _ _) eq_refl) in H1. injection H1 as <- <-.
  intros ix Hix. eexists. by apply H2.
Qed.

(** Several matrices in slogdet: np.concatenate raises for 0-dimensional arrays. *)
Theorem several l : length l ≠ 1 → Forall (λ a, length (sh a) = 2) l → slogdet l = None.
Proof.
  intros Hl HF. destruct l as [|a [|b l]]; [done|done|]. unfold slogdet.
  destruct (mapM np_logdets (a :: b :: l)) as [vs|] eqn:E; [|done]. cbn [mbind option_bind].
  apply mapM_Some in E. inversion E as [|x v ? vs' Hv _]; subst. apply Forall_inv in HF.
  destruct (logs_inv _ _ Hv) as (pre & n & Hs & HD). rewrite (logs_some _ _ _ Hs HD) in Hv. injection Hv as <-.
  rewrite Hs, app_length in HF. destruct pre as [|]; [|simpl in HF; lia]. done.
Qed.
Lemma several_case : length [m22; m22] = 2 ∧ Forall (λ a, length (sh a) = 2 ∧ is_Some (np_logdets a)) [m22; m22] ∧ slogdet [m22; m22] = None.
Proof.
  assert (H : length (sh m22) = 2 ∧ is_Some (np_logdets m22)).
  { split; [done|]. rewrite (logs_some m22 [] 2 eq_refl); [by eexists|]. intros t Ht. simpl in Ht. assert (t = 0) as -> by lia. rewrite det22. simpl. lra. }
  split_and!; [done|by apply Forall_cons_2, Forall_singleton|]. apply several; [done|]. by apply Forall_cons_2, Forall_singleton.
Qed.
