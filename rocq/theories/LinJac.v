(** Inverses and determinants of arrays, and their Jacobians. *)
From Coq Require Import Reals Lra.
From stdpp Require Import list list_numbers numbers gmap.
From Verif Require Import ArrModel Curve ArrThms ElemModel ElemThms ReorderModel ReorderThms DotModel DotThms DotThms2 LinModel LinSpec LinThms.

Lemma squares_is s pre n : squares s = Some (pre, n) ↔ s = pre ++ [n; n].
Proof.
  unfold squares. split.
  - destruct (reverse s) as [|m [|k l]] eqn:E; [done..|]. destruct (decide (m = k)) as [<-|]; [|done]. intros [= <- <-].
    rewrite <- (reverse_involutive s), E, !reverse_cons, <- app_assoc. done.
  - intros ->. rewrite reverse_app. simpl. rewrite decide_True by done. by rewrite reverse_involutive.
Qed.
Lemma size_squares (pre : list nat) n : size (pre ++ [n; n]) = size pre * (n * n).
Proof. rewrite size_app. simpl. lia. Qed.
Lemma matrix_blk a pre n ix i j : sh a = pre ++ [n; n] → length ix = length pre → matrix_at a ix i j = blk a n (ravel pre ix) i j.
Proof.
  intros Hs Hl. unfold matrix_at, at_, blk. rewrite Hs, ravel_app by done. f_equal. simpl. lia.
Qed.

(** The value *)
Definition invx (n : nat) (a : arr R) (o : nat) : R :=
  (cof n (blk a n (o / (n * n))) (o mod (n * n) mod n) (o mod (n * n) / n) / detn n (blk a n (o / (n * n))))%R.
Lemma np_inv_some a pre n : sh a = pre ++ [n; n] → (∀ t, t < size pre → detn n (blk a n t) ≠ 0%R) →
  ∃ y, np_inv a = Some y ∧ sh y = sh a ∧ ∀ o, o < asize a → dat y o = invx n a o.
Proof.
  intros Hs HD. unfold np_inv. rewrite (proj2 (squares_is _ _ _) Hs). cbn [mbind option_bind].
  assert (E : mapM (λ t, invn n (blk a n t)) (seq 0 (size pre)) = Some ((λ t j i, cof n (blk a n t) i j / detn n (blk a n t))%R <$> seq 0 (size pre))).
  { apply mapM_Some, Forall2_same_length_lookup. rewrite fmap_length. split; [done|]. intros k x y Hx Hy. rewrite list_lookup_fmap, Hx in Hy. injection Hy as <-.
    apply lookup_seq in Hx as [-> Hk]. unfold invn. destruct (Req_EM_T _ _) as [E|]; [by destruct (HD _ Hk)|]. done. }
  rewrite E. eexists. split; [done|]. split; [done|]. intros o Ho. cbn [dat]. unfold asize in Ho. rewrite Hs, size_squares in Ho.
  assert (Hn : n * n ≠ 0) by (intros Z; rewrite Z in Ho; lia). assert (Ht : o / (n * n) < size pre) by (apply Nat.div_lt_upper_bound; lia).
  rewrite nth_lookup, list_lookup_fmap, lookup_seq_lt by done. done.
Qed.
Lemma np_inv_inv a y : np_inv a = Some y → ∃ pre n, sh a = pre ++ [n; n] ∧ ∀ t, t < size pre → detn n (blk a n t) ≠ 0%R.
Proof.
  intros H. unfold np_inv in H. destruct (squares (sh a)) as [[pre n]|] eqn:E; [|done]. cbn [mbind option_bind] in H.
  exists pre, n. split; [by apply squares_is|]. intros t Ht Z. destruct (mapM _ _) as [X|] eqn:EX; [|done].
  destruct (mapM_lookup _ _ _ EX) as [_ HX]. destruct (HX t t) as (Y & _ & EY); [by apply lookup_seq|]. unfold invn in EY.
  destruct (Req_EM_T _ _); done.
Qed.
Lemma invx_at n a t i j : i < n → j < n → invx n a (t * (n * n) + i * n + j) = (cof n (blk a n t) j i / detn n (blk a n t))%R.
Proof.
  intros Hi Hj. unfold invx. assert (Hlt : i * n + j < n * n) by nia.
  destruct (div_mod_eq (t * (n * n) + i * n + j) t (n * n) (i * n + j) Hlt) as [-> ->]; [lia|].
  destruct (div_mod_eq (i * n + j) i n j Hj) as [-> ->]; done.
Qed.
Lemma blk_lt pre n t i j : t < size pre → i < n → j < n → t * (n * n) + i * n + j < size (pre ++ [n; n]).
Proof. intros Ht Hi Hj. rewrite size_squares. nia. Qed.
Lemma np_inv_blk a y pre n t : np_inv a = Some y → sh a = pre ++ [n; n] → t < size pre →
  detn n (blk a n t) ≠ 0%R ∧ ∀ i j, i < n → j < n → blk y n t i j = (cof n (blk a n t) j i / detn n (blk a n t))%R.
Proof.
  intros Hy Hs Ht. destruct (np_inv_inv a y Hy) as (pre' & n' & Hs' & HD). rewrite Hs in Hs'.
  apply (f_equal squares) in Hs'. rewrite !(proj2 (squares_is _ _ _) eq_refl) in Hs'. injection Hs' as <- <-.
  destruct (np_inv_some a pre n Hs HD) as (z & Hz & _ & Hd). rewrite Hz in Hy. injection Hy as ->.
  split; [by apply HD|]. intros i j Hi Hj. unfold blk. rewrite Hd; [by apply invx_at|]. unfold asize. rewrite Hs. by apply blk_lt.
Qed.
Lemma np_inv_shape a y : np_inv a = Some y → sh y = sh a.
Proof.
  unfold np_inv. destruct (squares _) as [[pre n]|]; [|done]. cbn [mbind option_bind]. destruct (mapM _ _); [|done]. by intros [= <-].
Qed.
Lemma inverse_ext n A A' X X' : (∀ i j, i < n → j < n → A i j = A' i j) → (∀ i j, i < n → j < n → X i j = X' i j) → is_inverse n A X → is_inverse n A' X'.
Proof.
  intros HA HX H i j Hi Hj. destruct (H i j Hi Hj) as [H1 H2].
  rewrite <- (mm_ext n A A' X X' i j), <- (mm_ext n X X' A A' i j); try done; intros k Hk; by (apply HA || apply HX).
Qed.
Theorem inv_value a y : np_inv a = Some y → ∃ pre n, sh a = pre ++ [n; n] ∧ sh y = sh a ∧
  ∀ ix, inside pre ix → is_inverse n (matrix_at a ix) (matrix_at y ix).
Proof.
  intros Hy. destruct (np_inv_inv a y Hy) as (pre & n & Hs & HD). exists pre, n. pose proof (np_inv_shape a y Hy) as Hsy. split_and!; [done..|].
  intros ix Hix. pose proof (ravel_lt _ _ Hix) as Ht. destruct (np_inv_blk a y pre n _ Hy Hs Ht) as [Hd HX].
  apply (inverse_ext n (blk a n (ravel pre ix)) _ (blk y n (ravel pre ix))).
  - intros i j _ _. symmetry. apply (matrix_blk a pre n); [done|by apply (Forall2_length lt)].
  - intros i j _ _. symmetry. apply (matrix_blk y pre n); [by rewrite Hsy|by apply (Forall2_length lt)].
  - apply (inverse_ext n (blk a n (ravel pre ix)) _ (λ j i, cof n (blk a n (ravel pre ix)) i j / detn n (blk a n (ravel pre ix)))%R); [done| |].
    + intros i j Hi Hj. by rewrite HX.
    + by apply rinv_both, cramer_right.
Qed.
Theorem inv_none a : np_inv a = None ↔ ¬ ∃ pre n, sh a = pre ++ [n; n] ∧ ∀ ix, inside pre ix → ∃ X, is_inverse n (matrix_at a ix) X.
Proof.
  split.
  - intros H (pre & n & Hs & Hi). destruct (np_inv_some a pre n Hs) as (y & Hy & _); [|congruence]. intros t Ht Z.
    destruct (Hi (unravel pre t) (unravel_inside _ _ Ht)) as (X & HX). apply inverse_right, rinv_det in HX.
    rewrite (det_ext n _ (blk a n t)) in HX; [rewrite Z in HX; lra|]. intros i j _ _.
    rewrite (matrix_blk a pre n) by (done || apply unravel_length). by rewrite ravel_unravel.
  - intros H. destruct (np_inv a) as [y|] eqn:E; [|done]. destruct H. destruct (inv_value a y E) as (pre & n & Hs & _ & Hi).
    exists pre, n. split; [done|]. intros ix Hix. eexists. by apply Hi.
Qed.

(** Jacobians *)
Lemma mact_neg m v i : mact (neg m) v i = (- mact m v i)%R.
Proof.
  rewrite !mact_alt. unfold neg. cbn [trip]. rewrite <- list_fmap_compose. unfold compose. cbn [fst snd].
  transitivity (-1 * rsum ((λ e : nat * nat * R, if decide (e.1.1 = i) then (e.2 * v e.1.2)%R else 0%R) <$> trip m))%R; [|ring]. rewrite <- rsum_scal. apply rsum_ext.
  intros e _. destruct (decide _); ring.
Qed.
Lemma neg_fits m r c : fits m r c → fits (neg m) r c.
Proof.
  intros (Hr & Hc & Hi). split_and!; [done..|]. unfold in_range, neg in *. cbn [trip]. rewrite list.Forall_forall in *. intros e He.
  apply elem_of_list_fmap in He as (x & -> & Hx). exact (Hi x Hx).
Qed.
Lemma block_diag_fits r c l : (∀ m, m ∈ l → fits m r c) → fits (block_diag r c l) (length l * r) (length l * c).
Proof.
  intros H. split_and!; [done..|]. unfold in_range, block_diag. cbn [trip nrow ncol]. apply list.Forall_forall. intros e He.
  apply elem_of_list_bind in He as ([t m] & He & Hp). apply elem_of_list_fmap in He as (x & -> & Hx). cbn [fst snd] in *.
  apply elem_of_list_lookup in Hp as [k Hk]. apply lookup_zip_with_Some in Hk as (t' & m' & [= <- <-] & Ht & Hm).
  apply lookup_seq in Ht as [-> Ht]. destruct (H m) as (Hr & Hc & Hi); [by eapply elem_of_list_lookup_2|].
  unfold in_range in Hi. rewrite list.Forall_forall in Hi. destruct (Hi x Hx). rewrite Hr, Hc in *. nia.
Qed.
Lemma block_diag_act r c l t m v k : (∀ m, m ∈ l → fits m r c) → l !! t = Some m → k < r →
  mact (block_diag r c l) v (t * r + k) = mact m (λ d, v (t * c + d)) k.
Proof.
  intros H Ht Hk. rewrite mact_alt. unfold block_diag. cbn [trip]. rewrite rsum_bind. rewrite (rsum_single _ _ (t, m)).
  - rewrite mact_alt, <- list_fmap_compose. unfold compose. cbn [fst snd]. apply rsum_ext. intros e _.
    destruct (decide (e.1.1 = k)) as [->|]; [by rewrite decide_True|by rewrite decide_False by lia].
  - apply (NoDup_fmap_1 fst). change (NoDup ((zip (seq 0 (length l)) l).*1)). rewrite fst_zip by (rewrite seq_length; lia). apply NoDup_seq_.
  - apply elem_of_list_lookup. exists t. apply lookup_zip_with_Some. exists t, m. split_and!; [done| |done]. apply lookup_seq. split; [done|]. by eapply lookup_lt_Some.
  - intros [t' m'] Hp Hne. rewrite <- list_fmap_compose. unfold compose. cbn [fst snd]. apply rsum_zero. intros e He.
    apply elem_of_list_lookup in Hp as [q Hq]. apply lookup_zip_with_Some in Hq as (t2 & m2 & [= <- <-] & Ht2 & Hm). apply lookup_seq in Ht2 as [-> _].
    destruct (H m') as (Hr & Hc & Hi); [by eapply elem_of_list_lookup_2|]. unfold in_range in Hi. rewrite list.Forall_forall in Hi. destruct (Hi e He).
    rewrite decide_False; [done|]. simpl. intros Z. assert (q = t) as -> by nia. apply Hne. f_equal. congruence.
Qed.
Definition inv_block (y : arr R) (n t : nat) : spm := neg (kron (mat_of n (blk y n t)) (mat_of n (λ i j, blk y n t j i))).
Lemma inv_block_fits y n t : fits (inv_block y n t) (n * n) (n * n).
Proof. apply neg_fits. apply kron_fits; apply dense_fits. Qed.
Lemma inv_block_act y n t v i j : i < n → j < n → mact (inv_block y n t) v (i * n + j) = (- mm n (blk y n t) (mm n (λ c d, v (c * n + d)%nat) (blk y n t)) i j)%R.
Proof.
  intros Hi Hj. unfold inv_block. rewrite mact_neg. f_equal. pose proof (kron_act (mat_of n (blk y n t)) (mat_of n (λ i j, blk y n t j i)) v i j) as K.
  cbn [nrow ncol mat_of dense] in K. rewrite K by (apply dense_range || done). unfold mat_of. rewrite mact_dense, decide_True by done.
  apply rsum_ext. intros c _. rewrite mact_dense, decide_True by done. f_equal. apply rsum_ext. intros d _. ring.
Qed.
Lemma inv_jac_is a y pre n : np_inv a = Some y → sh a = pre ++ [n; n] → pre = [] ∨ 0 < asize a →
  ∃ J, inv_jac a = Some J ∧ fits J (asize y) (asize a) ∧ ∀ v t i j, t < size pre → i < n → j < n →
    mact J v (t * (n * n) + i * n + j) = (- mm n (blk y n t) (mm n (λ c d, v (t * (n * n) + c * n + d)%nat) (blk y n t)) i j)%R.
Proof.
  intros Hy Hs Hp. pose proof (np_inv_shape a y Hy) as Hsy. unfold inv_jac. rewrite Hy. cbn [mbind option_bind]. rewrite Hsy, (proj2 (squares_is _ _ _) Hs). cbn [mbind option_bind].
  cbv zeta. unfold asize in *. rewrite Hsy in *. destruct (decide (length (sh a) ≤ 2)) as [Hl|Hl].
  - rewrite Hs in Hl. rewrite app_length in Hl. simpl in Hl. destruct pre; [|simpl in Hl; lia]. eexists. split; [done|]. rewrite Hs, size_squares. simpl size. rewrite Nat.mul_1_l.
    split; [apply (inv_block_fits y n 0)|]. intros v t i j Ht Hi Hj. assert (t = 0) as -> by lia. rewrite Nat.mul_0_l, Nat.add_0_l. by apply (inv_block_act y n 0).
  - rewrite Hs in *. destruct Hp as [->|Hp]; [by destruct Hl|]. rewrite size_squares in *. rewrite decide_False by (intros [->|Z]; nia). eexists. split; [done|].
    change (λ t, neg (kron (mat_of n (blk y n t)) (mat_of n (λ i j, blk y n t j i)))) with (inv_block y n).
    assert (HB : ∀ m, m ∈ inv_block y n <$> seq 0 (size pre) → fits m (n * n) (n * n)).
    { intros m (t & -> & _)%elem_of_list_fmap. apply inv_block_fits. }
    split.
    + pose proof (block_diag_fits _ _ _ HB) as F. by rewrite fmap_length, seq_length in F.
    + intros v t i j Ht Hi Hj. rewrite <- Nat.add_assoc. rewrite (block_diag_act _ _ _ t (inv_block y n t) v _ HB); [|by rewrite list_lookup_fmap, lookup_seq_lt by done|nia].
      rewrite inv_block_act by done. f_equal. apply mm_ext; [done|]. intros k Hk. apply mm_ext; [|done]. intros d _. by rewrite Nat.add_assoc.
Qed.
Lemma blk_moves u v pre n t : amoves u v → sh (u 0%R) = pre ++ [n; n] → t < size pre → mmoves n (λ s, blk (u s) n t) (λ i j, v (t * (n * n) + i * n + j)).
Proof. intros Hu Hs Ht i j Hi Hj. apply (amoves_dat u v); [done|]. unfold asize. rewrite Hs. by apply blk_lt. Qed.
Lemma blk_index (pre : list nat) n o : o < size (pre ++ [n; n]) → ∃ t i j, t < size pre ∧ i < n ∧ j < n ∧ o = t * (n * n) + i * n + j.
Proof.
  rewrite size_squares. intros Ho. assert (n ≠ 0) by (intros ->; lia). exists (o / (n * n)), (o mod (n * n) / n), (o mod (n * n) mod n).
  pose proof (Nat.div_mod_eq o (n * n)). pose proof (Nat.div_mod_eq (o mod (n * n)) n). pose proof (Nat.mod_upper_bound o (n * n) ltac:(nia)).
  split_and!; [apply Nat.div_lt_upper_bound; nia|apply Nat.div_lt_upper_bound; nia|by apply Nat.mod_upper_bound|nia].
Qed.
Theorem inv_right a y : np_inv a = Some y → length (sh a) = 2 ∨ 0 < asize a →
  ∃ J, inv_jac a = Some J ∧ fits J (asize y) (asize a) ∧ diff1 (λ x, default x (np_inv x)) J a.
Proof.
  intros Hy Hp. destruct (np_inv_inv a y Hy) as (pre & n & Hs & HD).
  destruct (inv_jac_is a y pre n Hy Hs) as (J & HJ & HF & HA).
  { destruct Hp as [Hl|]; [left|by right]. rewrite Hs, app_length in Hl. simpl in Hl. destruct pre; [done|simpl in Hl; lia]. }
  exists J. split_and!; [done..|]. intros u v E Hu. subst a. pose proof (amoves_shape _ _ Hu) as Hsh.
  assert (HN : near (λ s, ∃ z, np_inv (u s) = Some z ∧ sh z = sh (u 0%R) ∧ ∀ o, o < asize (u 0%R) → dat z o = invx n (u s) o)).
  { assert (HN : near (λ s, ∀ t, t ∈ seq 0 (size pre) → detn n (blk (u s) n t) ≠ 0%R)).
    { apply (near_list (seq 0 (size pre)) (λ t s, detn n (blk (u s) n t) ≠ 0%R)). intros t [_ Ht]%elem_of_seq.
      apply (det_near n (λ s, blk (u s) n t) (λ i j, v (t * (n * n) + i * n + j)%nat)); [|by apply HD]. by apply (blk_moves u v pre). }
    eapply near_mono; [|apply (near_and _ _ Hsh HN)]. intros s [H1 H2]. rewrite <- H1 in Hs. destruct (np_inv_some (u s) pre n Hs) as (z & Hz & Hsz & Hd).
    - intros t Ht. apply H2, elem_of_seq. lia.
    - exists z. split_and!; [done|congruence|]. intros o Ho. apply Hd. unfold asize in *. by rewrite H1. }
  apply (amoves_intro _ _ (sh (u 0%R))).
  - eapply near_mono; [|exact HN]. intros s (z & Hz & Hsz & _). simpl. by rewrite Hz.
  - intros o Ho. rewrite Hs in Ho. destruct (blk_index pre n o Ho) as (t & i & j & Ht & Hi & Hj & Eo).
    apply (deriv_near (λ s, cof n (blk (u s) n t) j i / detn n (blk (u s) n t))%R).
    + eapply near_mono; [|exact HN]. intros s (z & Hz & _ & Hd). simpl. rewrite Hz. simpl. rewrite Hd by (unfold asize; by rewrite Hs). rewrite Eo. by rewrite invx_at.
    + destruct (np_inv_blk _ _ pre n t Hy Hs Ht) as [Hdt HX].
      pose proof (inv_deriv n (λ s, blk (u s) n t) (λ i j, v (t * (n * n) + i * n + j)%nat) i j (blk_moves u v pre n t Hu Hs Ht) Hdt Hi Hj) as D. cbv zeta beta in D.
      rewrite Eo, HA by done. refine (lim_eq _ _ _ _ _ D). f_equal. apply mm_ext.
      * intros k Hk. symmetry. by apply HX.
      * intros k Hk. apply mm_ext; [done|]. intros d Hd. symmetry. by apply HX.
  - intros o Ho. destruct HF as (Hr & _ & Hi). apply mact_out; [done|]. rewrite Hr. unfold asize. by rewrite (np_inv_shape _ _ Hy).
Qed.

(** Determinants *)
Lemma matrix_blk2 a n : sh a = [n; n] → ∀ i j, matrix_at a [] i j = blk a n 0 i j.
Proof. intros Hs i j. by apply (matrix_blk a [] n []). Qed.
Lemma np_det_is a d : np_det a = Some d → ∃ n, sh a = [n; n] ∧ d = full [] (detn n (blk a n 0)).
Proof.
  unfold np_det. destruct (sh a) as [|n [|m [|? ?]]]; try done. destruct (decide (n = m)) as [<-|]; [|done]. intros [= <-]. by exists n.
Qed.
Lemma np_det_some a n : sh a = [n; n] → np_det a = Some (full [] (detn n (blk a n 0))).
Proof. intros Hs. unfold np_det. rewrite Hs. by rewrite decide_True. Qed.
Theorem det_value a : (∀ d, np_det a = Some d → ∃ n, sh a = [n; n] ∧ sh d = [] ∧
  (∃ F, is_determinant n F) ∧ ∀ F, is_determinant n F → dat d 0 = F (matrix_at a [])) ∧ ((∃ n, sh a = [n; n]) → is_Some (np_det a)).
Proof.
  split.
  - intros d Hd. destruct (np_det_is a d Hd) as (n & Hs & ->). exists n. split_and!; [done..| |].
    + exists (detn n). split; [apply det_alternating|]. by apply (det_one n).
    + intros F (HF & H1). rewrite (alternating_det n F _ HF). change (F delta = 1%R) in H1. rewrite H1. simpl. rewrite Rmult_1_r. apply det_ext. intros i j _ _. symmetry. by apply matrix_blk2.
  - intros (n & Hs). rewrite (np_det_some a n Hs). by eexists.
Qed.
Lemma row_of_act n f v : mact (row_of n f) v 0 = rsum ((λ i, rsum ((λ j, f i j * v (i * n + j)%nat)%R <$> seq 0 n)) <$> seq 0 n).
Proof.
  unfold row_of. rewrite mact_dense, decide_True by lia. rewrite (seq_blocks n n 0), rsum_bind. apply rsum_ext. intros i _.
  rewrite <- list_fmap_compose. apply rsum_ext. intros j [_ Hj]%elem_of_seq. unfold compose. rewrite Nat.add_0_l in *.
  destruct (div_mod_eq (i * n + j) i n j Hj) as [-> ->]; done.
Qed.
Lemma det_move (a : arr R) n y : np_inv a = Some y → sh a = [n; n] → ∀ u v, u 0%R = a → amoves u v →
  detn n (blk a n 0) ≠ 0%R ∧ mmoves n (λ s, blk (u s) n 0) (λ i j, v (i * n + j)) ∧
  derivable_pt_lim (λ s, detn n (blk (u s) n 0)) 0%R (detn n (blk a n 0) * rsum ((λ i, rsum ((λ j, blk y n 0 j i * v (i * n + j)%nat)%R <$> seq 0 n)) <$> seq 0 n))%R.
Proof.
  intros Hy Hs u v <- Hu. destruct (np_inv_blk _ y [] n 0 Hy Hs) as [HD HX]; [simpl; lia|].
  pose proof (blk_moves u v [] n 0 Hu Hs ltac:(simpl; lia)) as HM. split_and!; [done|done|].
  apply (det_jacobi n (λ s, blk (u s) n 0) (λ i j, v (i * n + j)%nat) (blk y n 0)); [done|].
  apply (inverse_ext n (blk (u 0%R) n 0) _ (λ j i, cof n (blk (u 0%R) n 0) i j / detn n (blk (u 0%R) n 0))%R); [done| |by apply rinv_both, cramer_right].
  intros i j Hi Hj. by rewrite HX.
Qed.
Lemma scalar_diff (f : arr R → arr R) (J : spm) a : fits J 1 (asize a) → 
  (∀ u v, u 0%R = a → amoves u v → near (λ s, sh (f (u s)) = []) ∧ derivable_pt_lim (λ s, dat (f (u s)) 0%nat) 0%R (mact J v 0)) → diff1 f J a.
Proof.
  intros (Hr & _ & Hi) H u v E Hu. destruct (H u v E Hu) as [H1 H2]. apply (amoves_intro _ _ []); [done|..].
  - intros i Hi0. simpl in Hi0. assert (i = 0) as -> by lia. done.
  - intros i Hi0. simpl in Hi0. apply mact_out; [done|lia].
Qed.
Theorem det_right a d : np_det a = Some d → is_Some (np_inv a) → ∃ J, det_jac a = Some J ∧ fits J (asize d) (asize a) ∧ diff1 (λ x, default x (np_det x)) J a.
Proof.
  intros Hd [y Hy]. destruct (np_det_is a d Hd) as (n & Hs & ->). unfold det_jac. rewrite Hd, Hy, Hs. cbn [mbind option_bind head].
  assert (F : fits (row_of n (λ i j, (dat (full [] (detn n (blk a n 0))) 0%nat * blk y n 0 j i)%R)) 1 (asize a)).
  { replace (asize a) with (n * n); [apply dense_fits|]. unfold asize. rewrite Hs. simpl. lia. }
  eexists. split_and!; [done|done|]. apply scalar_diff; [done|]. intros u v E Hu. pose proof (amoves_shape _ _ Hu) as Hsh. rewrite E, Hs in Hsh.
  destruct (det_move a n y Hy Hs u v E Hu) as (HD & HM & D). split.
  - eapply near_mono; [|exact Hsh]. intros s Hss. simpl. by rewrite (np_det_some _ _ Hss).
  - apply (deriv_near (λ s, detn n (blk (u s) n 0))).
    + eapply near_mono; [|exact Hsh]. intros s Hss. simpl. by rewrite (np_det_some _ _ Hss).
    + refine (lim_eq _ _ _ _ _ D). rewrite row_of_act, <- rsum_scal. apply rsum_ext. intros i _. rewrite <- rsum_scal. apply rsum_ext. intros j _. simpl. ring.
Qed.
Lemma lim_ln_abs x : x ≠ 0%R → derivable_pt_lim (λ x, ln (Rabs x)) x (/ x)%R.
Proof.
  intros Hx. destruct (Rlt_dec 0 x).
  - refine (lim_eq _ _ _ _ _ (derivable_pt_lim_comp Rabs ln x 1 (/ Rabs x)%R _ _)).
    + rewrite Rabs_pos_eq by lra. ring.
    + by apply Rabs_derive_1.
    + apply derivable_pt_lim_ln. by apply Rabs_pos_lt.
  - refine (lim_eq _ _ _ _ _ (derivable_pt_lim_comp Rabs ln x (-1) (/ Rabs x)%R _ _)).
    + rewrite Rabs_left by lra. field. lra.
    + apply Rabs_derive_2. lra.
    + apply derivable_pt_lim_ln. by apply Rabs_pos_lt.
Qed.
Lemma np_logdet_some a n : sh a = [n; n] → detn n (blk a n 0) ≠ 0%R → np_logdet a = Some (full [] (ln (Rabs (detn n (blk a n 0))))).
Proof. intros Hs HD. unfold np_logdet. rewrite Hs. rewrite decide_True by done. by destruct (Req_EM_T _ _). Qed.
Lemma np_logdet_is a d : np_logdet a = Some d → ∃ n, sh a = [n; n] ∧ detn n (blk a n 0) ≠ 0%R ∧ d = full [] (ln (Rabs (detn n (blk a n 0)))).
Proof.
  unfold np_logdet. destruct (sh a) as [|n [|m [|? ?]]]; try done. destruct (decide (n = m)) as [<-|]; [|done].
  destruct (Req_EM_T _ _); [done|]. intros [= <-]. by exists n.
Qed.
Theorem logdet_value a : (∀ d, np_logdet a = Some d → ∃ n, sh a = [n; n] ∧ sh d = [] ∧ (∃ F, is_determinant n F) ∧ ∀ F, is_determinant n F → F (matrix_at a []) ≠ 0%R ∧ dat d 0 = ln (Rabs (F (matrix_at a []))))
  ∧ ((∃ n X, sh a = [n; n] ∧ is_inverse n (matrix_at a []) X) → is_Some (np_logdet a)).
Proof.
  split.
  - intros d Hd. destruct (np_logdet_is a d Hd) as (n & Hs & HD & ->). exists n. destruct (det_value a) as [HV _].
    destruct (HV _ (np_det_some a n Hs)) as (n' & Hs' & _ & HF & HE). rewrite Hs in Hs'. injection Hs' as <-. split_and!; [done..|].
    intros F HF'. rewrite <- (HE F HF'). done.
  - intros (n & X & Hs & HX). apply inverse_right, rinv_det in HX. rewrite (det_ext n _ (blk a n 0)) in HX; [|intros i j _ _; by apply matrix_blk2].
    rewrite (np_logdet_some a n Hs); [by eexists|]. intros E. rewrite E in HX. lra.
Qed.
Lemma inv_of_det a n : sh a = [n; n] → detn n (blk a n 0) ≠ 0%R → is_Some (np_inv a).
Proof.
  intros Hs HD. destruct (np_inv_some a [] n Hs) as (y & Hy & _); [|by exists y]. intros t Ht. simpl in Ht. assert (t = 0) as -> by lia. done.
Qed.
Theorem logdet_right a d : np_logdet a = Some d → ∃ J, logdet_jac a = Some J ∧ fits J (asize d) (asize a) ∧ diff1 (λ x, default x (np_logdet x)) J a.
Proof.
  intros Hd. destruct (np_logdet_is a d Hd) as (n & Hs & HD & ->). destruct (inv_of_det a n Hs HD) as [y Hy]. unfold logdet_jac. rewrite Hy, Hs. cbn [mbind option_bind head].
  assert (F : fits (row_of n (λ i j, blk y n 0 j i)) 1 (asize a)).
  { replace (asize a) with (n * n); [apply dense_fits|]. unfold asize. rewrite Hs. simpl. lia. }
  eexists. split_and!; [done|done|]. apply scalar_diff; [done|]. intros u v E Hu. pose proof (amoves_shape _ _ Hu) as Hsh. rewrite E, Hs in Hsh.
  destruct (det_move a n y Hy Hs u v E Hu) as (_ & HM & D).
  assert (HD0 : detn n (blk (u 0%R) n 0) ≠ 0%R) by (by rewrite E).
  assert (HN : near (λ s, np_logdet (u s) = Some (full [] (ln (Rabs (detn n (blk (u s) n 0))))))).
  { eapply near_mono; [|apply (near_and _ _ Hsh (det_near n (λ s, blk (u s) n 0) _ HM HD0))]. intros s [H1 H2]. by apply np_logdet_some. }
  split.
  - eapply near_mono; [|exact HN]. intros s H. simpl. by rewrite H.
  - apply (deriv_near (λ s, ln (Rabs (detn n (blk (u s) n 0))))).
    + eapply near_mono; [|exact HN]. intros s H. simpl. by rewrite H.
    + refine (lim_eq _ _ _ _ _ (derivable_pt_lim_comp (λ s, detn n (blk (u s) n 0)) (λ x, ln (Rabs x)) 0%R _ _ D (lim_ln_abs _ _))).
      * rewrite row_of_act, E. field. done.
      * by rewrite E.
Qed.
Theorem detsign_value a : (∀ d, np_detsign a = Some d → ∃ n, sh a = [n; n] ∧ sh d = [] ∧ (∃ F, is_determinant n F) ∧ ∀ F, is_determinant n F →
    (0 < F (matrix_at a []) → dat d 0 = 1)%R ∧ (F (matrix_at a []) < 0 → dat d 0 = -1)%R ∧ (F (matrix_at a []) = 0 → dat d 0 = 0)%R)
  ∧ ((∃ n, sh a = [n; n]) → is_Some (np_detsign a)).
Proof.
  split.
  - intros d Hd. assert (∃ n, sh a = [n; n]) as [n Hs].
    { unfold np_detsign in Hd. destruct (sh a) as [|n [|m [|? ?]]]; try done. destruct (decide (n = m)) as [<-|]; [|done]. by exists n. }
    exists n. destruct (det_value a) as [HV _].
    destruct (HV _ (np_det_some a n Hs)) as (n' & Hs' & _ & HF & HE). rewrite Hs in Hs'. injection Hs' as <-.
    unfold np_detsign in Hd. rewrite Hs, decide_True in Hd by done. cbv zeta in Hd. injection Hd as <-. split_and!; [done..|].
    intros F HF'. rewrite <- (HE F HF'). cbn [full dat]. repeat destruct (Rlt_dec _ _); split_and!; lra.
  - intros (n & Hs). unfold np_detsign. rewrite Hs, decide_True by done. by eexists.
Qed.
Theorem detsign_right a d : np_detsign a = Some d → is_Some (np_inv a) → ∀ u v, u 0%R = a → amoves u v → amoves (λ s, default (u s) (np_detsign (u s))) (λ _, 0%R).
Proof.
  intros Hd [y Hy] u v E Hu. unfold np_detsign in Hd. assert (exists n, sh a = [n; n]) as [n Hs].
  { destruct (sh a) as [|n [|m [|? ?]]]; try done. destruct (decide (n = m)) as [<-|]; [|done]. by exists n. }
  clear Hd. pose proof (amoves_shape _ _ Hu) as Hsh. rewrite E, Hs in Hsh.
  destruct (det_move a n y Hy Hs u v E Hu) as (HD & _ & D). set (sg := if Rlt_dec 0 (detn n (blk a n 0)) then 1%R else (-1)%R).
  assert (HN : near (λ s, np_detsign (u s) = Some (full [] sg))).
  { assert (W : near (λ s, (0 < sg * detn n (blk (u s) n 0))%R)).
    { apply (deriv_cont_pos (λ s, (sg * detn n (blk (u s) n 0))%R) (sg * (detn n (blk a n 0) * rsum ((λ i, rsum ((λ j, blk y n 0 j i * v (i * n + j)%nat)%R <$> seq 0 n)) <$> seq 0 n)))%R).
      - rewrite E. unfold sg. destruct (Rlt_dec _ _); lra.
      - by apply (derivable_pt_lim_scal (λ s, detn n (blk (u s) n 0))). }
    eapply near_mono; [|apply (near_and _ _ Hsh W)]. intros s [H1 H2]. unfold np_detsign. rewrite H1, decide_True by done. cbv zeta. do 2 f_equal.
    revert H2. unfold sg. repeat destruct (Rlt_dec _ _); try done; lra. }
  apply (amoves_intro _ _ []).
  - eapply near_mono; [|exact HN]. intros s H. simpl. by rewrite H.
  - intros i _. apply (deriv_near (λ _, sg)); [|apply deriv_const]. eapply near_mono; [|exact HN]. intros s H. simpl. by rewrite H.
  - done.
Qed.
(** At a singular matrix the determinant may well have a derivative, but its Jacobian raises. *)
Lemma det_singular : ∃ a d, np_det a = Some d ∧ det_jac a = None ∧ ∃ J, diff1 (λ x, default x (np_det x)) J a.
Proof.
  set (a := Arr_ [1; 1] (λ _, 0%R)). exists a. eexists. split; [by apply (np_det_some a 1)|].
  assert (D : ∀ b, detn 1 (blk b 1 0) = dat b 0). { intros b. rewrite det_S. cbn -[Rmult Rplus dat]. unfold rsum, blk. cbn -[Rmult Rplus]. ring. }
  split.
  - unfold det_jac. rewrite (np_det_some a 1) by done. cbn [mbind option_bind]. destruct (np_inv a) as [y|] eqn:E; [|done]. exfalso.
    destruct (np_inv_blk a y [] 1 0 E) as [H _]; [done|simpl; lia|]. apply H. by rewrite D.
  - exists (dense 1 1 (λ _ _, 1%R)). apply scalar_diff; [apply dense_fits|]. intros u v E Hu. pose proof (amoves_shape _ _ Hu) as Hsh. rewrite E in Hsh. simpl in Hsh. split.
    + eapply near_mono; [|exact Hsh]. intros s Hss. simpl. by rewrite (np_det_some _ _ Hss).
    + apply (deriv_near (λ s, dat (u s) 0%nat)).
      * eapply near_mono; [|exact Hsh]. intros s Hss. simpl. rewrite (np_det_some _ _ Hss). simpl default. symmetry. apply (D (u s)).
      * refine (lim_eq _ _ _ _ _ (amoves_dat u v 0 Hu _)); [|rewrite E; exact (Nat.lt_0_succ 0)]. rewrite mact_dense, decide_True by lia. unfold rsum. simpl. ring.
Qed.
