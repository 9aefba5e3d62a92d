(** Products and sums of stored Jacobians. *)
From Coq Require Import Reals Lra.
From stdpp Require Import gmap list list_numbers.
From Verif Require Import ArrModel ArrThms ElemModel ElemThms RepModel RepSpec.

Lemma delta_l c k i (f : nat → R) : i < k → rsum ((λ l, mscal c i l * f l)%R <$> seq 0 k) = (c * f i)%R.
Proof.
  intros Hi. rewrite (rsum_single _ (seq 0 k) i).
  - unfold mscal. by rewrite decide_True.
  - apply NoDup_seq.
  - apply elem_of_seq. lia.
  - intros x _ Hx. unfold mscal. rewrite decide_False by done. ring.
Qed.
Lemma delta_r c k j (f : nat → R) : j < k → rsum ((λ l, f l * mscal c l j)%R <$> seq 0 k) = (f j * c)%R.
Proof.
  intros Hi. rewrite (rsum_single _ (seq 0 k) j).
  - unfold mscal. by rewrite decide_True.
  - apply NoDup_seq.
  - apply elem_of_seq. lia.
  - intros x _ Hx. unfold mscal. rewrite decide_False by done. ring.
Qed.

Lemma mmult_meq n k m A A' B B' : meq n k A A' → meq k m B B' → meq n m (mmult k A B) (mmult k A' B').
Proof.
  intros HA HB i j Hi Hj. apply rsum_ext. intros l Hl. apply elem_of_seq in Hl. rewrite HA, HB by lia. done.
Qed.
Lemma meq_sym n m A B : meq n m A B → meq n m B A.
Proof. intros H i j Hi Hj. symmetry. by apply H. Qed.
Lemma meq_trans n m A B C : meq n m A B → meq n m B C → meq n m A C.
Proof. intros H1 H2 i j Hi Hj. rewrite H1 by done. by apply H2. Qed.
Lemma mmult_scal_l n m c A B : meq n n A (mscal c) → meq n m (mmult n A B) (λ i j, c * B i j)%R.
Proof.
  intros H. intros i j Hi Hj. transitivity (mmult n (mscal c) B i j).
  - eapply (mmult_meq n n m); [done| |done|done]. by intros ? ? ? ?.
  - exact (delta_l c n i (λ l, B l j) Hi).
Qed.
Lemma mmult_scal_r n m c A B : meq m m B (mscal c) → meq n m (mmult m A B) (λ i j, c * A i j)%R.
Proof.
  intros H. intros i j Hi Hj. transitivity (mmult m A (mscal c) i j).
  - eapply (mmult_meq n m m); [|done|done|done]. by intros ? ? ? ?.
  - unfold mmult. rewrite (delta_r c m j (λ l, A i l)) by done. ring.
Qed.

Lemma is_mat_meq r n m A B : meq n m A B → is_mat r n m A → is_mat r n m B.
Proof.
  intros H. destruct r as [c|a|n' m' f|n' m' f]; simpl; [done| | |].
  - intros [Hs Hd]. split; [done|]. intros i j Hi Hj. rewrite Hd by done. by apply H.
  - intros (-> & -> & Hf). split_and!; [done..|]. by eapply meq_trans.
  - intros (-> & -> & Hf). split_and!; [done..|]. intros v Hv. rewrite (Hf v Hv). f_equal.
    apply list_fmap_ext. intros q i Hi. apply elem_of_list_lookup_2, elem_of_seq in Hi.
    apply rsum_ext. intros l Hl. apply elem_of_seq in Hl. rewrite H by lia. done.
Qed.
Lemma stores_meq r n m A B : meq n m A B → stores r n m A → stores r n m B.
Proof.
  intros H [Hm|(-> & -> & Hn)]; [left; by eapply is_mat_meq|right]. split_and!; [done..|].
  by rewrite <- H by lia.
Qed.

Lemma size2 n m : ArrModel.size [n; m] = n * m.
Proof. simpl. lia. Qed.
Lemma arr2_dat n m f i j : i < n → j < m → dat (arr2 n m f) (i * m + j) = f i j.
Proof.
  intros Hi Hj. simpl. f_equal.
  - symmetry. apply (Nat.div_unique _ m i j); lia.
  - symmetry. apply (Nat.mod_unique _ m i j); lia.
Qed.
Lemma arr2_is n m f A : meq n m f A → is_mat (Arr (arr2 n m f)) n m A.
Proof. intros H. split; [done|]. intros i j Hi Hj. rewrite arr2_dat by done. by apply H. Qed.

(** A stored Jacobian is used as a number or as a matrix. *)
Lemma means_norm r n k A : means r n k A →
  (∃ c, scal r = Num c ∧ is_num r c ∧ n = k ∧ meq n k A (mscal c)) ∨
  (scal r = r ∧ is_mat r n k A ∧ (∀ c, ¬ is_num r c)).
Proof.
  assert (Hnum : ∀ c, is_num r c → scal r = Num c).
  { intros c. destruct r as [x|a| |]; simpl; [by intros ->| |done|done]. intros (H1 & _ & H2). by rewrite decide_True, H2. }
  assert (Hone : ∀ c, A 0 0 = c → meq 1 1 A (mscal c)).
  { intros c <- i j Hi Hj. replace i with 0 by lia. replace j with 0 by lia. unfold mscal. by rewrite decide_True. }
  intros [[Hm|(-> & -> & Hn)]|(-> & c & Hn & Hc)].
  - destruct r as [c|a|n' m' f|n' m' f]; simpl in Hm; [done| | |].
    + destruct Hm as [Hs Hd]. destruct (decide (asize a = 1)) as [E|E].
      * left. exists (dat a 0). unfold asize in E. rewrite Hs, size2 in E. apply Nat.eq_mul_1 in E as [-> ->].
        split_and!.
        -- simpl. rewrite decide_True; [done|]. unfold asize. by rewrite Hs.
        -- simpl. rewrite Hs. simpl. split_and!; [|lia|done]. unfold asize. by rewrite Hs.
        -- done.
        -- apply Hone. by rewrite <- (Hd 0 0) by lia.
      * right. split_and!; [simpl; by rewrite decide_False|by split|]. intros c [H _]. done.
    + right. split; [done|]. split; [exact Hm|]. by intros c [].
    + right. split; [done|]. split; [exact Hm|]. by intros c [].
  - left. exists (A 0 0). split_and!; [by apply Hnum|done|done|by apply Hone].
  - left. exists c. split_and!; [by apply Hnum|done|done|done].
Qed.

Lemma stores_means r n m A : stores r n m A → means r n m A.
Proof. by left. Qed.
Lemma is_mat_stores r n m A : is_mat r n m A → stores r n m A.
Proof. by left. Qed.

Lemma mvec_length n m A v : length (mvec n m A v) = n.
Proof. unfold mvec. by rewrite fmap_length, seq_length. Qed.
Lemma nth_fmap_seq {A} (f : nat → A) d n i : i < n → nth i (f <$> seq 0 n) d = f i.
Proof.
  intros Hi. rewrite (nth_indep _ d (f 0)) by (rewrite fmap_length, seq_length; lia).
  change (f <$> seq 0 n) with (map f (seq 0 n)). by rewrite map_nth, seq_nth.
Qed.
Lemma mvec_nth n m A v i : i < n → nth i (mvec n m A v) 0%R = rsum ((λ l, A i l * nth l v 0)%R <$> seq 0 m).
Proof. intros Hi. unfold mvec. by rewrite nth_fmap_seq. Qed.
Lemma mvec_mmult n k m A B v : mvec n k A (mvec k m B v) = mvec n m (mmult k A B) v.
Proof.
  apply list_fmap_ext. intros q0 i Hi.
  rewrite (rsum_ext _ (λ l, rsum ((λ q, A i l * (B l q * nth q v 0))%R <$> seq 0 m))).
  2:{ intros l Hl. apply elem_of_seq in Hl. rewrite mvec_nth by lia. by rewrite rsum_scal. }
  rewrite rsum_swap. apply rsum_ext. intros q _. unfold mmult.
  rewrite Rmult_comm, <- rsum_scal. apply rsum_ext. intros l _. ring.
Qed.

Lemma is_mat_shape r n m A : is_mat r n m A → shape2 r = Some (n, m).
Proof.
  destruct r as [c|a|n' m' f|n' m' f]; simpl; [done|intros [-> _]; done|by intros (-> & -> & _)|by intros (-> & -> & _)].
Qed.
Lemma is_mat_ent r n m A : is_mat r n m A → no_lin r = true → meq n m (ent r) A.
Proof.
  destruct r as [c|a|n' m' f|n' m' f]; simpl; [done| |by intros (-> & -> & ?)|done].
  intros [Hs Hd] _ i j Hi Hj. unfold ent. rewrite Hs. by apply Hd.
Qed.
Lemma mvec_meq n m A B v : meq n m A B → mvec n m A v = mvec n m B v.
Proof.
  intros H. apply list_fmap_ext. intros q i Hi. apply elem_of_list_lookup_2, elem_of_seq in Hi.
  apply rsum_ext. intros l Hl. apply elem_of_seq in Hl. rewrite H by lia. done.
Qed.
Lemma is_mat_apply r n m A v : is_mat r n m A → length v = m → apply1 r v = Some (mvec n m A v).
Proof.
  intros Hr Hv. destruct r as [c|a|n' m' f|n' m' f]; [done| | |by apply Hr].
  - unfold apply1. rewrite (is_mat_shape _ _ _ _ Hr), decide_True by done. f_equal. apply mvec_meq. by apply is_mat_ent.
  - unfold apply1. rewrite (is_mat_shape _ _ _ _ Hr), decide_True by done. f_equal. apply mvec_meq. by apply is_mat_ent.
Qed.
(** An operator is a matrix when it acts like one. *)
Lemma lin_is n m f A : (∀ v, length v = m → f v = Some (mvec n m A v)) → is_mat (Lin n m f) n m A.
Proof.
  intros H. split_and!; [done..|]. intros v Hv. unfold apply1. simpl. rewrite decide_True by done.
  rewrite (H v Hv). simpl. by rewrite decide_True by apply mvec_length.
Qed.

Lemma scale_is c r n m A : is_mat r n m A → is_mat (scale c r) n m (λ i j, c * A i j)%R.
Proof.
  destruct r as [x|a|n' m' f|n' m' f]; [done| | |].
  - intros [Hs Hd]. split; [done|]. intros i j Hi Hj. simpl. by rewrite Hd.
  - intros (-> & -> & Hf). split_and!; [done..|]. intros i j Hi Hj. by rewrite Hf.
  - intros (-> & -> & Hf). apply lin_is. intros v Hv. specialize (Hf v Hv). unfold apply1 in Hf. simpl in Hf.
    rewrite decide_True in Hf by done. destruct (f v) as [u|]; [|done]. simpl in Hf.
    destruct (decide (length u = n)) as [E|E]; [|done]. injection Hf as ->. f_equal.
    unfold mvec. rewrite <- list_fmap_compose. apply list_fmap_ext. intros q0 i Hi0. simpl.
    rewrite <- rsum_scal. apply rsum_ext. intros l _. ring.
Qed.
Lemma scale_num c r x : is_num r x → is_num (scale c r) (c * x).
Proof.
  destruct r as [y|a| |]; simpl; [by intros ->| |done|done]. intros (H1 & H2 & H3). split_and!; [done|done|by rewrite H3].
Qed.

Lemma mapM_cols n k m A B r f : is_mat (Lin n k f) n k A → is_mat r k m B → no_lin r = true →
  mapM (λ j, apply1 (Lin n k f) (column m r k j)) (seq 0 m) =
    Some ((λ j, mvec n k A (column m r k j)) <$> seq 0 m).
Proof.
  intros Hf Hr Hn. induction (seq 0 m) as [|j l IH]; [done|]. simpl mapM.
  rewrite (is_mat_apply _ n k A) by (done || (unfold column; by rewrite fmap_length, seq_length)). simpl. by rewrite IH.
Qed.

Lemma superdot_mat a b n k m A B : is_mat a n k A → is_mat b k m B →
  scal a = a → scal b = b → (∀ c, ¬ is_num a c) → (∀ c, ¬ is_num b c) →
  ∃ r, superdot a b = Some r ∧ is_mat r n m (mmult k A B) ∧
    (no_lin a = true → no_lin b = true → no_lin r = true) ∧
    (sparse_only a = true → sparse_only b = true → sparse_only r = true).
Proof.
  intros Ha Hb Ea Eb Na Nb. unfold superdot. rewrite Ea, Eb.
  pose proof (is_mat_shape _ _ _ _ Ha) as Sa. pose proof (is_mat_shape _ _ _ _ Hb) as Sb.
  assert (Hop : ∀ f, (∀ v, length v = m → f v = (u ← apply1 b v; apply1 a u)) →
    is_mat (Lin n m f) n m (mmult k A B)).
  { intros f Hf. apply lin_is. intros v Hv. rewrite Hf by done. rewrite (is_mat_apply _ _ _ _ v Hb) by done. simpl.
    rewrite (is_mat_apply _ _ _ _ _ Ha) by apply mvec_length. by rewrite mvec_mmult. }
  destruct a as [x|x|n1 k1 f|n1 k1 f]; [done| | |].
  - destruct b as [y|y|k2 m2 h|k2 m2 h]; [done| | |].
    + rewrite Sa, Sb. simpl. rewrite decide_True by done. eexists. split; [done|]. split; [|done].
      apply arr2_is. apply mmult_meq; by apply is_mat_ent.
    + rewrite Sa. simpl in Sb. injection Sb as -> ->. simpl. rewrite decide_True by done. eexists. split; [done|]. split; [|done].
      apply arr2_is. apply (mmult_meq n k m); [by apply (is_mat_ent (Arr x))|by apply Hb].
    + rewrite Sa. simpl in Sb. injection Sb as -> ->. cbn [mbind option_bind]. eexists. split; [done|]. split; [|done]. by apply Hop.
  - simpl in Sa. injection Sa as -> ->. destruct b as [y|y|k2 m2 h|k2 m2 h]; [done| | |].
    + rewrite Sb. simpl. rewrite decide_True by done. eexists. split; [done|]. split; [|done].
      apply arr2_is. apply (mmult_meq n k m); [by apply Ha|by apply (is_mat_ent (Arr y))].
    + simpl in Sb. injection Sb as -> ->. simpl. rewrite decide_True by done. eexists. split; [done|]. split; [|done].
      split_and!; [done..|]. apply (mmult_meq n k m); [by apply Ha|by apply Hb].
    + simpl in Sb. injection Sb as -> ->. simpl. eexists. split; [done|]. split; [|done]. by apply Hop.
  - simpl in Sa. injection Sa as -> ->. destruct b as [y|y|k2 m2 h|k2 m2 h]; [done| | |].
    + rewrite Sb. cbn [mbind option_bind]. rewrite decide_True by done. rewrite (mapM_cols n k m A B) by done. cbn [mbind option_bind].
      eexists. split; [done|]. split; [|done]. apply arr2_is. intros i j Hi Hj.
      rewrite nth_fmap_seq by done. rewrite mvec_nth by done. apply rsum_ext. intros l Hl. apply elem_of_seq in Hl.
      unfold column. rewrite nth_fmap_seq by lia. rewrite (is_mat_ent _ _ _ _ Hb) by (done || lia). done.
    + simpl in Sb. injection Sb as -> ->. eexists. split; [done|]. split; [|done]. by apply Hop.
    + simpl in Sb. injection Sb as -> ->. simpl. eexists. split; [done|]. split; [|done]. by apply Hop.
Qed.

Lemma scale_lin c r : no_lin r = true → no_lin (scale c r) = true.
Proof. by destruct r. Qed.
Lemma scale_sparse c r : sparse_only r = true → sparse_only (scale c r) = true.
Proof. by destruct r. Qed.

Lemma superdot_num_l a b x : scal a = Num x → superdot a b = Some (scale x (scal b)).
Proof. intros H. unfold superdot. by rewrite H. Qed.
Lemma superdot_num_r a b x : scal a = a → (∀ c, ¬ is_num a c) → scal b = Num x → superdot a b = Some (scale x a).
Proof.
  intros H Hn E. unfold superdot. rewrite H, E. destruct a; [|done..]. exfalso. by apply (Hn c).
Qed.

(** _superdot multiplies, whatever the formats. *)
Lemma superdot_means a b n k m A B : means a n k A → means b k m B →
  ∃ r, superdot a b = Some r ∧ means r n m (mmult k A B).
Proof.
  intros Ha Hb. destruct (means_norm _ _ _ _ Ha) as [(x & Ex & Na & -> & Hx)|(Ea & Ma & Na)].
  - rewrite (superdot_num_l a b x Ex). eexists. split; [done|].
    destruct (means_norm _ _ _ _ Hb) as [(y & Ey & Nb & -> & Hy)|(Eb & Mb & Nb)].
    + rewrite Ey. right. split; [done|]. exists (x * y)%R. split; [done|].
      intros i j Hi Hj. rewrite (mmult_scal_l m m x) by done. rewrite Hy by done. unfold mscal. destruct (decide _); ring.
    + rewrite Eb. left. left. eapply is_mat_meq; [|by apply scale_is]. apply meq_sym. by apply mmult_scal_l.
  - destruct (means_norm _ _ _ _ Hb) as [(y & Ey & Nb & -> & Hy)|(Eb & Mb & Nb)].
    + rewrite (superdot_num_r a b y) by done. eexists. split; [done|]. left. left.
      eapply is_mat_meq; [|by apply scale_is]. apply meq_sym. by apply mmult_scal_r.
    + destruct (superdot_mat a b n k m A B) as (r & Hr & Hm & _); [done..|]. exists r. split; [done|]. by left; left.
Qed.

Lemma is_num_inj r c d : is_num r c → is_num r d → c = d.
Proof. destruct r as [y|a| |]; simpl; [by intros -> ->| |done|done]. intros (_ & _ & <-) (_ & _ & <-). done. Qed.

(** If the left one is what a class returns, so is the product. *)
Lemma superdot_stores a b n k m A B : stores a n k A → means b k m B →
  ∃ r, superdot a b = Some r ∧ stores r n m (mmult k A B) ∧
    (no_lin a = true → no_lin b = true → no_lin r = true) ∧
    (sparse_only a = true → sparse_only b = true → sparse_only r = true).
Proof.
  intros Ha Hb. destruct (means_norm _ _ _ _ (stores_means _ _ _ _ Ha)) as [(x & Ex & Na & -> & Hx)|(Ea & Ma & Na)].
  - assert (k = 1) as ->.
    { destruct Ha as [Hm|(_ & -> & _)]; [|done]. destruct a as [c|z| |]; [done| |done|done].
      destruct Hm as [Hs _]. destruct Na as (H1 & _). unfold asize in H1. rewrite Hs, size2 in H1. by apply Nat.eq_mul_1 in H1 as [-> _]. }
    rewrite (superdot_num_l a b x Ex). eexists. split; [done|]. split; [|split].
    + destruct (means_norm _ _ _ _ Hb) as [(y & Ey & Nb & <- & Hy)|(Eb & Mb & Nb)].
      * rewrite Ey. right. split_and!; [done..|]. simpl. rewrite (mmult_scal_l 1 1 x) by (done || lia). by rewrite Hy by lia.
      * rewrite Eb. left. eapply is_mat_meq; [|by apply scale_is]. apply meq_sym. by apply mmult_scal_l.
    + intros _ Hl. apply scale_lin. destruct b; simpl in *; try done. by destruct (decide _).
    + intros Hs. by destruct a.
  - destruct (means_norm _ _ _ _ Hb) as [(y & Ey & Nb & -> & Hy)|(Eb & Mb & Nb)].
    + rewrite (superdot_num_r a b y) by done. eexists. split; [done|]. split; [|split].
      * left. eapply is_mat_meq; [|by apply scale_is]. apply meq_sym. by apply mmult_scal_r.
      * intros Hl _. by apply scale_lin.
      * intros _ Hs. by destruct b.
    + destruct (superdot_mat a b n k m A B) as (r & Hr & Hm & Hl & Hs); [done..|]. exists r. split_and!; try done. by left.
Qed.
