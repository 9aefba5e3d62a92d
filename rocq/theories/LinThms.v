(** Determinants: expansion along the first row gives the alternating function, it is
    multiplicative, and Cramer's rule gives the inverse. *)
From Coq Require Import Reals Lra.
From stdpp Require Import list list_numbers numbers gmap.
From Verif Require Import ArrModel Curve ArrThms ElemThms DotModel DotThms LinModel LinSpec.

Lemma skip_lt j k : k < j → skip j k = k.
Proof. intros H. unfold skip. by rewrite decide_True. Qed.
Lemma skip_ge j k : j ≤ k → skip j k = S k.
Proof. intros H. unfold skip. by rewrite decide_False by lia. Qed.
Lemma skip_ne j k : skip j k ≠ j.
Proof. unfold skip. destruct (decide _); lia. Qed.
Lemma skip_bound j k n : k < n → skip j k < S n.
Proof. intros H. unfold skip. destruct (decide _); lia. Qed.
Lemma skip_skip j k m : j ≤ k → skip j (skip k m) = skip (S k) (skip j m).
Proof. intros H. unfold skip. repeat destruct (decide _); lia. Qed.
Lemma skip_inj j a b : skip j a = skip j b → a = b.
Proof. unfold skip. repeat destruct (decide _); lia. Qed.
Lemma skip_perm j n : j ≤ n → seq 0 (S n) ≡ₚ j :: (skip j <$> seq 0 n).
Proof.
  intros Hj. apply NoDup_Permutation.
  - apply NoDup_seq_.
  - constructor; [intros (k & E & _)%elem_of_list_fmap; by destruct (skip_ne j k)|]. apply NoDup_fmap_2_strong; [intros a b _ _; apply skip_inj|apply NoDup_seq_].
  - intros k. rewrite elem_of_cons, elem_of_seq, elem_of_list_fmap. split.
    + intros [_ Hk]. destruct (decide (k = j)) as [->|]; [by left|]. right. destruct (decide (k < j)).
      * exists k. rewrite skip_lt by done. split; [done|]. apply elem_of_seq. lia.
      * exists (k - 1). rewrite skip_ge by lia. split; [lia|]. apply elem_of_seq. lia.
    + intros [->|(m & -> & Hm%elem_of_seq)]; [lia|]. pose proof (skip_bound j m n). lia.
Qed.
Lemma rsum_skip (g : nat → R) j n : j ≤ n → rsum (g <$> seq 0 (S n)) = (g j + rsum ((λ k, g (skip j k)) <$> seq 0 n))%R.
Proof.
  intros Hj. rewrite (rsum_perm _ _ (fmap_Permutation g _ _ (skip_perm j n Hj))). rewrite fmap_cons, rsum_cons, <- list_fmap_compose. done.
Qed.

(* ------------------------------------------------------------------ *)
(** The determinant is linear in each row and alternating. *)
Lemma det_S n A : detn (S n) A = rsum ((λ j, ((-1) ^ j * A 0%nat j * detn n (λ i k, A (S i) (skip j k)))%R) <$> seq 0 (S n)).
Proof. done. Qed.
Lemma det_ext n A B : (∀ i j, i < n → j < n → A i j = B i j) → detn n A = detn n B.
Proof.
  revert A B. induction n as [|n IH]; intros A B H; [done|]. rewrite !det_S. apply rsum_ext. intros j [_ Hj]%elem_of_seq.
  rewrite (H 0 j) by lia. f_equal. apply IH. intros i k Hi Hk. apply H; [lia|]. by apply skip_bound.
Qed.
Lemma det_lin n A B C i p q : i < n → same_rows_but n i A B → same_rows_but n i A C → row_is n A i (λ j, p * B i j + q * C i j)%R →
  detn n A = (p * detn n B + q * detn n C)%R.
Proof.
  revert A B C i. induction n as [|n IH]; intros A B C i Hi HB HC Hr; [lia|]. rewrite !det_S, <- !rsum_scal, <- rsum_plus. apply rsum_ext.
  intros j [_ Hj]%elem_of_seq. destruct i as [|i].
  - rewrite (Hr j) by lia. rewrite <- (det_ext n (λ i k, A (S i) (skip j k)) (λ i k, B (S i) (skip j k))), <- (det_ext n (λ i k, A (S i) (skip j k)) (λ i k, C (S i) (skip j k))).
    + ring.
    + intros r k Hr' Hk. apply HC; [lia..|by apply skip_bound].
    + intros r k Hr' Hk. apply HB; [lia..|by apply skip_bound].
  - rewrite <- (HB 0 j), <- (HC 0 j) by lia. rewrite (IH _ (λ i k, B (S i) (skip j k)) (λ i k, C (S i) (skip j k)) i); [ring|lia|..].
    + intros r k H1 H2 H3. apply HB; [lia..|by apply skip_bound].
    + intros r k H1 H2 H3. apply HC; [lia..|by apply skip_bound].
    + intros k Hk. apply Hr. by apply skip_bound.
Qed.
Lemma antisym_zero n (G : nat → nat → R) : (∀ i j, G i j = (- G j i)%R) → rsum ((λ i, rsum ((λ j, G i j) <$> seq 0 n)) <$> seq 0 n) = 0%R.
Proof.
  intros H. set (S0 := rsum ((λ i, rsum ((λ j, G i j) <$> seq 0 n)) <$> seq 0 n)). assert (E : S0 = (-1 * S0)%R); [|lra].
  unfold S0 at 1. rewrite rsum_swap. unfold S0. rewrite <- rsum_scal. apply rsum_ext. intros i _.
  rewrite <- rsum_scal. apply rsum_ext. intros j _. rewrite (H j i). ring.
Qed.
Lemma pow_m1_S k : ((-1) ^ S k = - (-1) ^ k)%R.
Proof. simpl. ring. Qed.
Lemma det_adjacent n A r : S r < n → (∀ j, j < n → A r j = A (S r) j) → detn n A = 0%R.
Proof.
  revert A r. induction n as [|n IH]; intros A r Hr H; [lia|]. destruct r as [|r].
  - destruct n as [|n]; [lia|]. clear IH Hr.
    set (E := λ p q : nat, detn n (λ i m, A (S (S i)) (skip q (skip p m)))).
    set (G := λ j c : nat, if decide (c < j) then ((-1) ^ j * (-1) ^ c * A 0%nat j * A 0%nat c * E c j)%R else
      if decide (j < c) then ((-1) ^ j * - (-1) ^ c * A 0%nat j * A 0%nat c * E j c)%R else 0%R).
    transitivity (rsum ((λ j, rsum ((λ c, G j c) <$> seq 0 (S (S n)))) <$> seq 0 (S (S n)))).
    + rewrite det_S. apply rsum_ext. intros j [_ Hj]%elem_of_seq. rewrite (rsum_skip _ j (S n)) by lia.
      unfold G at 1. rewrite !decide_False by lia. rewrite Rplus_0_l, det_S, <- rsum_scal. apply rsum_ext. intros k [_ Hk]%elem_of_seq.
      pose proof (skip_bound j k (S n) ltac:(lia)) as Hb. rewrite <- (H (skip j k)) by lia. unfold G. destruct (decide (k < j)).
      * rewrite skip_lt by done. rewrite decide_True by done. unfold E. ring.
      * rewrite skip_ge by lia. rewrite decide_False by lia. rewrite decide_True by lia. rewrite pow_m1_S. unfold E.
        rewrite (det_ext n (λ i m, A (S (S i)) (skip j (skip k m))) (λ i m, A (S (S i)) (skip (S k) (skip j m)))); [ring|].
        intros i m _ _. by rewrite skip_skip by lia.
    + apply antisym_zero. intros i j. unfold G. destruct (decide (j < i)), (decide (i < j)); try lia; ring.
  - rewrite det_S. apply rsum_zero. intros j [_ Hj]%elem_of_seq. rewrite (IH _ r); [ring|lia|]. intros k Hk. apply H. by apply skip_bound.
Qed.

(* ------------------------------------------------------------------ *)
(** Consequences, for any function that is linear in each row and zero when two adjacent
    rows are equal. *)
Definition adjacent (n : nat) (F : (nat → nat → R) → R) : Prop :=
  (∀ A B, (∀ i j, i < n → j < n → A i j = B i j) → F A = F B) ∧
  (∀ A B C i p q, i < n → same_rows_but n i A B → same_rows_but n i A C → row_is n A i (λ j, p * B i j + q * C i j)%R →
    F A = (p * F B + q * F C)%R) ∧
  (∀ A r, S r < n → (∀ j, j < n → A r j = A (S r) j) → F A = 0%R).
Lemma upd_same A i v : upd A i v i = v.
Proof. unfold upd. by rewrite decide_True. Qed.
Lemma upd_ne A i v r : r ≠ i → upd A i v r = A r.
Proof. intros H. unfold upd. by rewrite decide_False. Qed.
Section adj.
  Context (n : nat) (F : (nat → nat → R) → R) (HF : adjacent n F).
  Lemma F_ext A B : (∀ i j, i < n → j < n → A i j = B i j) → F A = F B.
  Proof. apply HF. Qed.
  Lemma F_upd A i p q u v w : i < n → (∀ j, j < n → w j = (p * u j + q * v j)%R) → F (upd A i w) = (p * F (upd A i u) + q * F (upd A i v))%R.
  Proof.
    intros Hi H. destruct HF as (_ & Hl & _). apply (Hl _ _ _ i); [done|..].
    - intros r j _ Hr _. by rewrite !upd_ne.
    - intros r j _ Hr _. by rewrite !upd_ne.
    - intros j Hj. rewrite !upd_same. by apply H.
  Qed.
  Lemma F_zero A i : i < n → F (upd A i (λ _, 0%R)) = 0%R.
  Proof. intros Hi. rewrite (F_upd A i 0 0 (λ _, 0%R) (λ _, 0%R) (λ _, 0%R)); [ring|done|]. intros; ring. Qed.
  Lemma F_sum {T} A i (w : T → R) (V : T → nat → R) l : i < n → F (upd A i (λ c, rsum ((λ x, w x * V x c)%R <$> l))) = rsum ((λ x, w x * F (upd A i (V x)))%R <$> l).
  Proof.
    intros Hi. induction l as [|x l IH]; [by apply F_zero|].
    rewrite (F_upd A i (w x) 1 (V x) (λ c, rsum ((λ x, w x * V x c)%R <$> l))); [|done|].
    - rewrite IH, fmap_cons, rsum_cons. ring.
    - intros j _. rewrite fmap_cons, rsum_cons. ring.
  Qed.
  (** swapping two adjacent rows *)
  Lemma F_swap A B r : S r < n → (∀ j, j < n → B r j = A (S r) j) → (∀ j, j < n → B (S r) j = A r j) →
    (∀ k j, k < n → k ≠ r → k ≠ S r → j < n → B k j = A k j) → F B = (- F A)%R.
  Proof.
    intros Hr H1 H2 H3. set (u := A r). set (v := A (S r)). set (M := λ x y, upd (upd A r x) (S r) y).
    assert (EA : F A = F (M u v)).
    { apply F_ext. intros i j Hi Hj. unfold M, upd, u, v. repeat destruct (decide _); by subst. }
    assert (EB : F B = F (M v u)).
    { apply F_ext. intros i j Hi Hj. unfold M, upd, u, v. destruct (decide (i = S r)) as [->|]; [by apply H2|].
      destruct (decide (i = r)) as [->|]; [by apply H1|]. by apply H3. }
    assert (Z : ∀ x, F (M x x) = 0%R).
    { intros x. destruct HF as (_ & _ & Ha). apply (Ha _ r); [done|]. intros j _. unfold M. rewrite upd_same. rewrite upd_ne by lia. by rewrite upd_same. }
    assert (L2 : ∀ x y z, F (M x (λ j, y j + z j)%R) = (F (M x y) + F (M x z))%R).
    { intros x y z. unfold M. rewrite (F_upd _ (S r) 1 1 y z); [ring|done|]. intros; ring. }
    assert (L1 : ∀ x y z, F (M (λ j, y j + z j)%R x) = (F (M y x) + F (M z x))%R).
    { intros x y z.
      assert (C : ∀ w, F (M w x) = F (upd (upd A (S r) x) r w)).
      { intros w. apply F_ext. intros i j Hi Hj. unfold M, upd. repeat destruct (decide _); subst; try done; lia. }
      rewrite !C. rewrite (F_upd _ r 1 1 y z); [ring|lia|]. intros; ring. }
    rewrite EA, EB. pose proof (Z (λ j, u j + v j)%R) as E. rewrite L1, !L2, !Z in E. lra.
  Qed.
  Lemma F_two A r s : r < n → s < n → r ≠ s → (∀ j, j < n → A r j = A s j) → F A = 0%R.
  Proof.
    assert (W : ∀ d A r, S (r + d) < n → (∀ j, j < n → A r j = A (S (r + d)) j) → F A = 0%R).
    { intros d. induction d as [|d IH]; intros B q Hq H.
      - rewrite Nat.add_0_r in *. destruct HF as (_ & _ & Ha). by apply (Ha _ q).
      - set (B' := λ k, if decide (k = S (q + d)) then B (S (S (q + d))) else if decide (k = S (S (q + d))) then B (S (q + d)) else B k).
        assert (E : F B' = (- F B)%R).
        { apply (F_swap B B' (S (q + d))); [lia|..].
          - intros j _. unfold B'. by rewrite decide_True.
          - intros j _. unfold B'. rewrite decide_False by lia. by rewrite decide_True.
          - intros k j _ H1 H2 _. unfold B'. by rewrite !decide_False. }
        assert (Z : F B' = 0%R).
        { apply (IH B' q); [lia|]. intros j Hj. unfold B'. rewrite !decide_False by lia. rewrite decide_True by done.
          rewrite H by done. f_equal; lia. }
        lra. }
    intros Hr Hs Hne H. destruct (decide (r < s)).
    - apply (W (s - r - 1) A r); [lia|]. intros j Hj. rewrite H by done. f_equal; lia.
    - apply (W (r - s - 1) A s); [lia|]. intros j Hj. rewrite <- H by done. f_equal; lia.
  Qed.
  Lemma adjacent_alternating : alternating n F.
  Proof. destruct HF as (H1 & H2 & _). split_and!; [done|done|apply F_two]. Qed.
  (** adding a multiple of another row *)
  Lemma F_add A r s p w : r < n → s < n → r ≠ s → (∀ j, j < n → w j = (A s j + p * A r j)%R) → F (upd A s w) = F A.
  Proof.
    intros Hr Hs Hne H. rewrite (F_upd A s 1 p (A s) (A r) w); [|done|intros j Hj; rewrite H by done; ring].
    rewrite (F_two (upd A s (A r)) r s); [|done..|intros j _; rewrite upd_same; by rewrite upd_ne].
    rewrite (F_ext (upd A s (A s)) A); [ring|]. intros i j _ _. unfold upd. destruct (decide (i = s)); by subst.
  Qed.
End adj.
Lemma alternating_adjacent n F : alternating n F → adjacent n F.
Proof. intros (H1 & H2 & H3). split_and!; [done|done|]. intros A r Hr H. apply (H3 A r (S r)); [lia..|done]. Qed.
Lemma det_adj n : adjacent n (detn n).
Proof. split_and!; [apply det_ext|apply det_lin|apply det_adjacent]. Qed.
Lemma det_alternating n : alternating n (detn n).
Proof. apply adjacent_alternating, det_adj. Qed.

(* ------------------------------------------------------------------ *)
(** There is one alternating function with a given value at the identity. *)
Lemma delta_same i : delta i i = 1%R.
Proof. unfold delta. by rewrite decide_True. Qed.
Lemma delta_ne i j : i ≠ j → delta i j = 0%R.
Proof. intros H. unfold delta. by rewrite decide_False. Qed.
Lemma delta_sum n (f : nat → R) c : c < n → rsum ((λ x, f x * delta x c)%R <$> seq 0 n) = f c.
Proof.
  intros Hc. rewrite (rsum_single _ _ c).
  - rewrite delta_same. ring.
  - apply NoDup_seq_.
  - apply elem_of_seq. lia.
  - intros x _ Hx. rewrite delta_ne by done. ring.
Qed.
Lemma delta_sum_l n (f : nat → R) c : c < n → rsum ((λ x, delta c x * f x)%R <$> seq 0 n) = f c.
Proof.
  intros Hc. rewrite <- (delta_sum n f c Hc). apply rsum_ext. intros x _. unfold delta. destruct (decide (c = x)), (decide (x = c)); subst; try done; ring.
Qed.
(** a row of unit vector [j], over rows with a zero in column [j] *)
Definition ins (j : nat) (B : nat → nat → R) (r c : nat) : R :=
  match r with 0 => delta j c | S i => if decide (c = j) then 0%R else B i (if decide (c < j) then c else c - 1) end.
Lemma ins_skip j B i k : ins j B (S i) (skip j k) = B i k.
Proof. simpl. rewrite decide_False by apply skip_ne. unfold skip. repeat destruct (decide _); try lia; f_equal; lia. Qed.
Lemma unskip j c : c ≠ j → skip j (if decide (c < j) then c else c - 1) = c.
Proof. intros H. unfold skip. repeat destruct (decide _); lia. Qed.
Lemma ins_clear n F A j : alternating (S n) F → j < S n → F (upd A 0 (delta j)) = F (ins j (λ i k, A (S i) (skip j k))).
Proof.
  intros HF Hj. pose proof (alternating_adjacent _ _ HF) as HA.
  set (K := λ m r c, if decide (r = 0) then delta j c else if decide (r ≤ m) then if decide (c = j) then 0%R else A r c else A r c).
  assert (W : ∀ m, m ≤ n → F (K m) = F (upd A 0 (delta j))).
  { intros m. induction m as [|m IH]; intros Hm.
    - apply (F_ext _ _ HA). intros r c _ _. unfold K, upd. destruct (decide (r = 0)); [done|]. by rewrite decide_False by lia.
    - rewrite <- IH by lia. rewrite <- (F_add _ _ HA (K m) 0 (S m) (- A (S m) j)%R (K (S m) (S m))); [|lia..|].
      + apply (F_ext _ _ HA). intros r c _ _. unfold upd. destruct (decide (r = S m)) as [->|]; [done|]. unfold K.
        destruct (decide (r = 0)); [done|]. destruct (decide (r ≤ m)); [by rewrite decide_True by lia|by rewrite decide_False by lia].
      + intros c _. unfold K. rewrite !(decide_False (P := S m = 0)) by lia. rewrite (decide_True (P := S m ≤ S m)) by lia.
        rewrite (decide_False (P := S m ≤ m)) by lia. rewrite (decide_True (P := 0 = 0)) by done.
        destruct (decide (c = j)) as [->|]; [rewrite delta_same; ring|rewrite delta_ne by congruence; ring]. }
  rewrite <- (W n) by done. apply (F_ext _ _ HA). intros r c Hr _. unfold K, ins. destruct r as [|r]; [done|].
  rewrite decide_False by done. rewrite decide_True by lia. destruct (decide (c = j)); [done|]. by rewrite unskip.
Qed.
Lemma ins_alternating n F j : alternating (S n) F → j < S n → alternating n (λ B, F (ins j B)).
Proof.
  intros (H1 & H2 & H3) Hj. split_and!.
  - intros A B H. apply H1. intros [|i] c Hi Hc; [done|]. simpl. destruct (decide (c = j)); [done|]. apply H; [lia|]. destruct (decide (c < j)); lia.
  - intros A B C i p q Hi HB HC Hr. apply (H2 _ _ _ (S i)); [lia|..].
    + intros [|r] c Hr' Hne Hc; [done|]. simpl. destruct (decide (c = j)); [done|]. apply HB; [lia|congruence|]. destruct (decide (c < j)); lia.
    + intros [|r] c Hr' Hne Hc; [done|]. simpl. destruct (decide (c = j)); [done|]. apply HC; [lia|congruence|]. destruct (decide (c < j)); lia.
    + intros c Hc. simpl. destruct (decide (c = j)); [ring|]. apply Hr. destruct (decide (c < j)); lia.
  - intros A r s Hr Hs Hne H. apply (H3 _ (S r) (S s)); [lia..|]. intros c Hc. simpl. destruct (decide (c = j)); [done|]. apply H. destruct (decide (c < j)); lia.
Qed.
Lemma ins_unit n F j : alternating (S n) F → j < S n → F (ins j delta) = ((-1) ^ j * F delta)%R.
Proof.
  intros HF Hj. pose proof (alternating_adjacent _ _ HF) as HA.
  set (σ := λ p i : nat, if decide (i < p) then i else if decide (i = p) then j else if decide (i ≤ j) then i - 1 else i).
  set (Q := λ p i, delta (σ p i)).
  assert (W : ∀ p, p ≤ j → F (Q p) = ((-1) ^ p * F (Q 0%nat))%R).
  { intros p. induction p as [|p IH]; intros Hp; [simpl; ring|]. rewrite pow_m1_S.
    rewrite (F_swap _ _ HA (Q p) (Q (S p)) p); [rewrite IH by lia; ring|lia|..].
    - intros c _. unfold Q. f_equal. unfold σ. rewrite decide_True by lia. rewrite (decide_False (P := S p < p)) by lia.
      rewrite (decide_False (P := S p = p)) by lia. rewrite decide_True by lia. lia.
    - intros c _. unfold Q. f_equal. unfold σ. rewrite (decide_False (P := S p < S p)) by lia. rewrite (decide_True (P := S p = S p)) by done.
      rewrite (decide_False (P := p < p)) by lia. by rewrite (decide_True (P := p = p)) by done.
    - intros k c _ H1 H2 _. unfold Q. f_equal. unfold σ. repeat destruct (decide _); lia. }
  assert (Q0 : F (ins j delta) = F (Q 0)).
  { apply (F_ext _ _ HA). intros [|i] c Hi Hc; [done|]. unfold Q. assert (σ 0 (S i) = skip j i) as ->.
    { unfold σ, skip. repeat destruct (decide _); lia. }
    destruct (decide (c = j)) as [->|Hne].
    - simpl. rewrite decide_True by done. rewrite delta_ne; [done|apply skip_ne].
    - rewrite <- (unskip j c Hne) at 1. rewrite ins_skip. destruct (decide (skip j i = c)) as [<-|Hs].
      + rewrite delta_same. unfold delta. rewrite decide_True; [done|]. apply (skip_inj j). by rewrite unskip.
      + rewrite (delta_ne (skip j i)) by done. apply delta_ne. intros ->. apply Hs. by apply unskip. }
  assert (Qj : F (Q j) = F delta).
  { apply (F_ext _ _ HA). intros i c _ _. unfold Q. f_equal. unfold σ. repeat destruct (decide _); lia. }
  rewrite Q0, <- Qj, (W j) by done. rewrite <- Rmult_assoc, <- Rpow_mult_distr. replace (-1 * -1)%R with 1%R by ring. rewrite pow1. ring.
Qed.
Theorem alternating_det n F A : alternating n F → F A = (detn n A * F delta)%R.
Proof.
  revert F A. induction n as [|n IH]; intros F A HF.
  - simpl. rewrite Rmult_1_l. apply HF. intros i j Hi. lia.
  - pose proof (alternating_adjacent _ _ HF) as HA. transitivity (F (upd A 0 (λ c, rsum ((λ x, A 0%nat x * delta x c)%R <$> seq 0 (S n))))).
    { apply (F_ext _ _ HA). intros i c Hi Hc. unfold upd. destruct (decide (i = 0)) as [->|]; [|done]. by rewrite (delta_sum (S n) (A 0)). }
    rewrite (F_sum _ _ HA) by lia. rewrite det_S, Rmult_comm, <- rsum_scal. apply rsum_ext. intros j [_ Hj]%elem_of_seq.
    rewrite (ins_clear n F) by (done || lia). rewrite (IH (λ B, F (ins j B))) by (by apply ins_alternating). rewrite (ins_unit n) by (done || lia). ring.
Qed.
Lemma det_one n : detn n delta = 1%R.
Proof.
  induction n as [|n IH]; [done|]. rewrite det_S, (rsum_single _ _ 0).
  - rewrite delta_same. rewrite (det_ext n _ delta); [rewrite IH; ring|]. intros i k _ _. rewrite skip_ge by lia. unfold delta.
    destruct (decide (S i = S k)), (decide (i = k)); try done; congruence.
  - apply NoDup_seq_.
  - apply elem_of_seq. lia.
  - intros j _ Hj. rewrite delta_ne by done. ring.
Qed.

(* ------------------------------------------------------------------ *)
(** Products. *)
Lemma mm_ext n A A' B B' i j : (∀ k, k < n → A i k = A' i k) → (∀ k, k < n → B k j = B' k j) → mm n A B i j = mm n A' B' i j.
Proof. intros H1 H2. apply rsum_ext. intros k [_ Hk]%elem_of_seq. rewrite H1, H2 by lia. done. Qed.
Lemma mm_one_l n B i j : i < n → mm n delta B i j = B i j.
Proof. intros Hi. apply (delta_sum_l n (λ k, B k j)). done. Qed.
Lemma mm_one_r n A i j : j < n → mm n A delta i j = A i j.
Proof. intros Hj. apply (delta_sum n (A i)). done. Qed.
Lemma mm_assoc n A B C i j : mm n A (mm n B C) i j = mm n (mm n A B) C i j.
Proof.
  unfold mm. transitivity (rsum ((λ k, rsum ((λ l, A i k * B k l * C l j)%R <$> seq 0 n)) <$> seq 0 n)).
  - apply rsum_ext. intros k _. rewrite <- rsum_scal. apply rsum_ext. intros; ring.
  - rewrite rsum_swap. apply rsum_ext. intros l _. rewrite (Rmult_comm _ (C l j)), <- rsum_scal. apply rsum_ext. intros; ring.
Qed.
Lemma mm_alternating n B : alternating n (λ A, detn n (mm n A B)).
Proof.
  split_and!.
  - intros A A' H. apply det_ext. intros i j Hi Hj. apply mm_ext; [|done]. intros k Hk. by apply H.
  - intros A A' C i p q Hi HB HC Hr. apply (det_lin _ _ _ _ i); [done|..].
    + intros r j Hr' Hne Hj. apply mm_ext; [|done]. intros k Hk. by apply HB.
    + intros r j Hr' Hne Hj. apply mm_ext; [|done]. intros k Hk. by apply HC.
    + intros j Hj. unfold mm. rewrite <- !rsum_scal, <- rsum_plus. apply rsum_ext. intros k [_ Hk]%elem_of_seq. rewrite Hr by lia. ring.
  - intros A r s Hr Hs Hne H. destruct (det_alternating n) as (_ & _ & Hz). apply (Hz _ r s); [done..|]. intros j Hj. apply rsum_ext. intros k [_ Hk]%elem_of_seq. by rewrite H by lia.
Qed.
Theorem det_mult n A B : detn n (mm n A B) = (detn n A * detn n B)%R.
Proof.
  rewrite (alternating_det n _ A (mm_alternating n B)). f_equal. apply det_ext. intros i j Hi Hj. by apply mm_one_l.
Qed.

(* ------------------------------------------------------------------ *)
(** Cramer's rule. *)
Definition cof (n : nat) (A : nat → nat → R) (i j : nat) : R := detn n (upd A i (delta j)).
Lemma det_row n A i v : i < n → detn n (upd A i v) = rsum ((λ j, v j * cof n A i j)%R <$> seq 0 n).
Proof.
  intros Hi. rewrite <- (F_sum n (detn n) (det_adj n) A i v delta); [|done]. apply det_ext. intros r c _ Hc. unfold upd.
  destruct (decide (r = i)); [|done]. by rewrite (delta_sum n v).
Qed.
Lemma cramer n A i k : i < n → k < n → rsum ((λ j, A k j * cof n A i j)%R <$> seq 0 n) = (delta i k * detn n A)%R.
Proof.
  intros Hi Hk. rewrite <- det_row by done. destruct (decide (i = k)) as [->|Hne].
  - rewrite delta_same, Rmult_1_l. apply det_ext. intros r c _ _. unfold upd. destruct (decide (r = k)); by subst.
  - rewrite delta_ne by done. rewrite Rmult_0_l. apply (F_two _ _ (det_adj n) _ i k); [done..|]. intros j _. rewrite upd_same. by rewrite upd_ne by done.
Qed.
Definition rinv (n : nat) (A X : nat → nat → R) : Prop := ∀ i j, i < n → j < n → mm n A X i j = delta i j.
Lemma cramer_right n A : detn n A ≠ 0%R → rinv n A (λ j i, cof n A i j / detn n A)%R.
Proof.
  intros HD i j Hi Hj. unfold mm. transitivity (/ detn n A * rsum ((λ k, A i k * cof n A j k)%R <$> seq 0 n))%R.
  - rewrite <- rsum_scal. apply rsum_ext. intros k _. field. done.
  - rewrite cramer by done. unfold delta. destruct (decide (j = i)), (decide (i = j)); try congruence; by field.
Qed.
Lemma rinv_det n A X : rinv n A X → (detn n A * detn n X = 1)%R.
Proof. intros H. rewrite <- det_mult, <- (det_one n). by apply det_ext. Qed.
Lemma rinv_both n A X : rinv n A X → is_inverse n A X.
Proof.
  intros H. pose proof (rinv_det _ _ _ H) as HD. assert (HX : detn n X ≠ 0%R) by (intros E; rewrite E in HD; lra).
  pose proof (cramer_right n X HX) as HY. set (Y := λ j i, (cof n X i j / detn n X)%R) in *.
  assert (EY : ∀ i j, i < n → j < n → A i j = Y i j).
  { intros i j Hi Hj. rewrite <- (mm_one_r n A i j Hj), <- (mm_one_l n Y i j Hi).
    rewrite <- (mm_ext n A A (mm n X Y) delta i j); [|done|intros k Hk; by apply HY]. rewrite mm_assoc.
    apply mm_ext; [|done]. intros k Hk. by apply H. }
  intros i j Hi Hj. split; [by apply H|]. rewrite (mm_ext n X X A Y i j); [by apply HY|done|]. intros k Hk. by apply EY.
Qed.
Lemma inverse_right n A X : is_inverse n A X → rinv n A X.
Proof. intros H i j Hi Hj. by destruct (H i j Hi Hj). Qed.
Lemma inverse_unique n A X Y : is_inverse n A X → is_inverse n A Y → ∀ i j, i < n → j < n → X i j = Y i j.
Proof.
  intros HX HY i j Hi Hj. rewrite <- (mm_one_r n X i j Hj), <- (mm_one_l n Y i j Hi).
  rewrite <- (mm_ext n X X (mm n A Y) delta i j); [|done|intros k Hk; by destruct (HY k j Hk Hj)]. rewrite mm_assoc.
  apply mm_ext; [|done]. intros k Hk. by destruct (HX i k Hi Hk).
Qed.
Theorem invn_inverse n A X : invn n A = Some X → is_inverse n A X.
Proof. unfold invn. destruct (Req_EM_T _ _) as [|HD]; [done|]. intros [= <-]. apply rinv_both. by apply cramer_right. Qed.
Theorem invn_none n A : invn n A = None ↔ ¬ ∃ X, is_inverse n A X.
Proof.
  unfold invn. destruct (Req_EM_T _ _) as [E|HD].
  - split; [|done]. intros _ (X & H%inverse_right%rinv_det). rewrite E in H. lra.
  - split; [done|]. intros H. destruct H. eexists. apply rinv_both. by apply cramer_right.
Qed.

(* ------------------------------------------------------------------ *)
(** Derivatives along a curve of matrices. *)
Definition mmoves (n : nat) (U : R → nat → nat → R) (V : nat → nat → R) : Prop :=
  ∀ i j, i < n → j < n → derivable_pt_lim (λ t, U t i j) 0%R (V i j).
Lemma det_deriv n U V : mmoves n U V → derivable_pt_lim (λ t, detn n (U t)) 0%R (rsum ((λ i, detn n (upd (U 0%R) i (V i))) <$> seq 0 n)).
Proof.
  revert U V. induction n as [|n IH]; intros U V H; [apply (deriv_const 1%R)|].
  assert (D : derivable_pt_lim (λ t, rsum ((λ j, ((-1) ^ j * U t 0%nat j * detn n (λ i k, U t (S i) (skip j k)))%R) <$> seq 0 (S n))) 0%R
    (rsum ((λ j, (-1) ^ j * V 0%nat j * detn n (λ i k, U 0%R (S i) (skip j k)) + (-1) ^ j * U 0%R 0%nat j *
      rsum ((λ i, detn n (upd (λ i k, U 0%R (S i) (skip j k)) i (λ k, V (S i) (skip j k)))) <$> seq 0 n))%R <$> seq 0 (S n)))).
  { apply (deriv_rsum (λ j t, ((-1) ^ j * U t 0%nat j * detn n (λ i k, U t (S i) (skip j k)))%R)). intros j [_ Hj]%elem_of_seq.
    assert (D1 : derivable_pt_lim (λ t, detn n (λ i k, U t (S i) (skip j k))) 0%R
      (rsum ((λ i, detn n (upd (λ i k, U 0%R (S i) (skip j k)) i (λ k, V (S i) (skip j k)))) <$> seq 0 n))).
    { apply (IH (λ t i k, U t (S i) (skip j k)) (λ i k, V (S i) (skip j k))). intros i k Hi Hk. apply H; [lia|]. by apply skip_bound. }
    assert (D0 : derivable_pt_lim (λ t, (-1) ^ j * U t 0%nat j)%R 0%R ((-1) ^ j * V 0%nat j)%R).
    { apply (derivable_pt_lim_scal (λ t, U t 0%nat j)). apply H; lia. }
    exact (deriv_mult _ _ _ _ D0 D1). }
  refine (lim_eq _ _ _ _ _ D). rewrite rsum_plus.
  rewrite (rsum_skip (λ i, detn (S n) (upd (U 0%R) i (V i))) 0 n) by lia. rewrite det_S. f_equal. (* the first terms are the same *)
  - transitivity (rsum ((λ j, rsum ((λ i, (-1) ^ j * U 0%R 0%nat j * detn n (upd (λ i k, U 0%R (S i) (skip j k)) i (λ k, V (S i) (skip j k))))%R <$> seq 0 n)) <$> seq 0 (S n))).
    + apply rsum_ext. intros j _. by rewrite <- rsum_scal.
    + rewrite rsum_swap. apply rsum_ext. intros i _. rewrite (skip_ge 0 i) by lia. rewrite det_S. apply rsum_ext. intros j _. rewrite upd_ne by lia. f_equal.
      apply det_ext. intros r k _ _. unfold upd. destruct (decide (r = i)) as [->|]; [by rewrite decide_True by done|by rewrite decide_False by congruence].
Qed.
(** Jacobi's formula *)
Lemma det_jacobi n U V X : mmoves n U V → is_inverse n (U 0%R) X →
  derivable_pt_lim (λ t, detn n (U t)) 0%R (detn n (U 0%R) * rsum ((λ i, rsum ((λ j, X j i * V i j)%R <$> seq 0 n)) <$> seq 0 n))%R.
Proof.
  intros HU HX. refine (lim_eq _ _ _ _ _ (det_deriv n U V HU)). rewrite <- rsum_scal. apply rsum_ext. intros i [_ Hi]%elem_of_seq.
  rewrite det_row by lia. rewrite <- rsum_scal. apply rsum_ext. intros j [_ Hj]%elem_of_seq.
  assert (HD : detn n (U 0%R) ≠ 0%R). { intros E. apply inverse_right, rinv_det in HX. rewrite E in HX. lra. }
  rewrite (inverse_unique n (U 0%R) X _ HX (rinv_both _ _ _ (cramer_right n (U 0%R) HD)) j i) by lia. field. done.
Qed.
Lemma det_near n U V : mmoves n U V → detn n (U 0%R) ≠ 0%R → near (λ t, detn n (U t) ≠ 0%R).
Proof.
  intros HU HD. pose proof (det_deriv n U V HU) as D. pose proof (deriv_mult _ _ _ _ D D) as D2.
  eapply near_mono; [|apply (deriv_cont_pos _ _ (Rsqr_pos_lt _ HD) D2)]. intros t Ht E. simpl in Ht. rewrite E in Ht. lra.
Qed.
Lemma cof_deriv n U V i j : mmoves n U V → ∃ l, derivable_pt_lim (λ t, cof n (U t) i j) 0%R l.
Proof.
  intros HU. eexists. apply (det_deriv n (λ t, upd (U t) i (delta j)) (upd V i (λ _, 0%R))). intros r c Hr Hc. unfold upd.
  destruct (decide (r = i)); [apply (deriv_const (delta j c))|by apply HU].
Qed.
(** the derivative of the inverse is -X V X *)
Lemma inv_deriv n U V i j : mmoves n U V → detn n (U 0%R) ≠ 0%R → i < n → j < n →
  let X t i j := (cof n (U t) j i / detn n (U t))%R in
  derivable_pt_lim (λ t, X t i j) 0%R (- mm n (X 0%R) (mm n V (X 0%R)) i j)%R.
Proof.
  intros HU HD Hi Hj X.
  assert (W : ∀ p q, ∃ l, derivable_pt_lim (λ t, X t p q) 0%R l).
  { intros p q. destruct (cof_deriv n U V q p HU) as [l1 D1]. pose proof (det_deriv n U V HU) as D2. eexists.
    apply (derivable_pt_lim_div (λ t, cof n (U t) q p) (λ t, detn n (U t)) 0%R _ _ D1 D2 HD). }
  assert (exists W : nat → nat → R, ∀ p q, p < n → q < n → derivable_pt_lim (λ t, X t p q) 0%R (W p q)) as [W' HW].
  { assert (exists l : list (list R), length l = n ∧ ∀ p, p < n → ∀ q, q < n → derivable_pt_lim (λ t, X t p q) 0%R (nth q (nth p l []) 0%R)) as (l & _ & Hl).
    { assert (G : ∀ p m, exists r : list R, length r = m ∧ ∀ q, q < m → derivable_pt_lim (λ t, X t p q) 0%R (nth q r 0%R)).
      { intros p m. induction m as [|m (r & Hr & Hq)]; [exists []; split; [done|lia]|]. destruct (W p m) as [x Hx]. exists (r ++ [x]).
        rewrite app_length. split; [simpl; lia|]. intros q Hqm. destruct (decide (q = m)) as [->|].
        - rewrite app_nth2, Hr, Nat.sub_diag by lia. done.
        - rewrite app_nth1 by lia. apply Hq. lia. }
      assert (G' : ∀ m, exists l : list (list R), length l = m ∧ ∀ p, p < m → ∀ q, q < n → derivable_pt_lim (λ t, X t p q) 0%R (nth q (nth p l []) 0%R)).
      { intros m. induction m as [|m (l & Hl & Hp)]; [exists []; split; [done|lia]|]. destruct (G m n) as (r & Hr & Hq). exists (l ++ [r]).
        rewrite app_length. split; [simpl; lia|]. intros p Hpm q Hqn. destruct (decide (p = m)) as [->|].
        - rewrite app_nth2, Hl, Nat.sub_diag by lia. by apply Hq.
        - rewrite app_nth1 by lia. apply Hp; [lia|done]. }
      apply G'. }
    exists (λ p q, nth q (nth p l []) 0%R). intros p q Hp Hq. by apply Hl. }
  (* differentiate U X = 1 *)
  assert (E : ∀ p q, p < n → q < n → (mm n V (X 0%R) p q + mm n (U 0%R) W' p q = 0)%R).
  { intros p q Hp Hq. apply (deriv_unique (λ t, mm n (U t) (X t) p q)).
    - unfold mm. rewrite <- rsum_plus. apply (deriv_rsum (λ k t, U t p k * X t k q)%R). intros k [_ Hk]%elem_of_seq. apply (deriv_mult (λ t, U t p k) (λ t, X t k q)); [apply HU; lia|apply HW; lia].
    - eapply deriv_near; [|apply (deriv_const (delta p q))]. eapply near_mono; [|apply (det_near n U V HU HD)]. intros t Ht. simpl. symmetry.
      by apply (cramer_right n (U t) Ht). }
  refine (lim_eq _ _ _ _ _ (HW i j Hi Hj)).
  rewrite <- (mm_one_l n W' i j Hi).
  rewrite <- (mm_ext n (mm n (X 0%R) (U 0%R)) delta W' W' i j); [|intros k Hk; by apply (rinv_both _ _ _ (cramer_right n (U 0%R) HD))|done].
  rewrite <- mm_assoc. transitivity (-1 * mm n (X 0%R) (mm n V (X 0%R)) i j)%R; [|ring]. unfold mm at 1 3. rewrite <- rsum_scal. apply rsum_ext.
  intros k [_ Hk]%elem_of_seq. assert (mm n (U 0%R) W' k j = (- mm n V (X 0%R) k j)%R) as ->; [|ring]. pose proof (E k j ltac:(lia) Hj). lra.
Qed.
