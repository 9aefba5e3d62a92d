From Coq Require Import Reals Lra Lia FunctionalExtensionality.
From stdpp Require Import prelude.
From Verif Require Import ArrModel ArrThms DogModel DogSpec DogThms DogExact DogGeo DogGeoThms DogLive DogBest LsqSpec.

Lemma dot_zeros n u v : (∀ i, i < n → v i = 0%R) → dot n u v = 0%R.
Proof. intros H. apply rsum_zero. intros i Hi%elem_of_seq. rewrite H by lia. ring. Qed.
Lemma dot_schwarz n u v : (dot n u v * dot n u v <= dot n u u * dot n v v)%R.
Proof.
  set (p := dot n u u). set (q := dot n v v). set (s := dot n u v).
  pose proof (dot_nonneg n (λ i, q * u i - s * v i)%R) as H. rewrite dot_sub_l, !dot_sub_r, !dot_scal_l, !dot_scal_r, (dot_comm n v u) in H. fold p q s in H.
  destruct (dot_nonneg n v) as [Hq|Hq]; fold q in Hq.
  - assert (0 <= q * (p * q - s * s))%R by lra. assert (0 <= p * q - s * s)%R; [|lra]. apply (Rmult_le_reg_l q); lra.
  - assert (s = 0%R) as ->; [|rewrite <- Hq; lra]. unfold s. rewrite dot_comm. by apply dot_zero_l.
Qed.
Lemma dot_mono n (u v : vec) : (∀ i, i < n → (u i * u i <= v i)%R) → (dot n u u <= rsum (v <$> seq 0 n))%R.
Proof.
  intros H. unfold dot. assert (G : ∀ i, i ∈ seq 0 n → (u i * u i <= v i)%R) by (intros i Hi%elem_of_seq; apply H; lia). revert G. generalize (seq 0 n). intros l.
  induction l as [|i l IH]; intros G; [cbn; lra|]. rewrite !fmap_cons, !rsum_cons. pose proof (G i ltac:(by left)). specialize (IH (λ j Hj, G j (elem_of_list_further _ _ _ Hj))). lra.
Qed.

Section algebra.
  Context (m n : nat) (slv : mat → vec → option vec) (J : mat).
  Implicit Types (v r k y : vec).
  Notation jv v := (λ i, dot n (J i) v).
  Lemma normal_bil r y w : normal_eq m n J r y → dot m (jv w) (jv y) = (- dot m r (jv w))%R.
  Proof.
    intros H. rewrite (dot_comm m (jv w)), (dot_swap m n J (jv y) w), (dot_swap m n J r w). transitivity (dot n (descent m J r) w).
    - apply dot_ext; [|done]. intros j Hj. by apply H.
    - unfold descent. by rewrite (dot_comm n (λ j, - _)%R), dot_opp_r, (dot_comm n w).
  Qed.
  Lemma linear_linear b x v : linear n J (linear n J b x) v = linear n J b (λ i, x i + v i)%R.
  Proof. apply functional_extensionality. intros i. unfold linear. rewrite dot_add_r. ring. Qed.
  (** where the gradient vanishes is a solution, and after a Gauss-Newton step it vanishes *)
  Lemma stationary b x : (∀ j, j < n → descent m J (linear n J b x) j = 0%R) → least_squares m n J b x.
  Proof.
    intros H y. pose proof (gain_is m n J (linear n J b x) (λ i, y i - x i)%R) as G. unfold gain in G. rewrite linear_linear in G.
    replace (λ i, x i + (y i - x i))%R with y in G by (apply functional_extensionality; intros; ring).
    rewrite (dot_comm n (descent m J _)), (dot_zeros n _ (descent m J (linear n J b x)) H) in G. unfold squares. pose proof (dot_nonneg m (jv (λ i, y i - x i)%R)). lra.
  Qed.
  Lemma newton_stationary b x y : normal_eq m n J (linear n J b x) y → ∀ j, j < n → descent m J (linear n J b (λ i, x i + y i)%R) j = 0%R.
  Proof. intros H j Hj. rewrite <- linear_linear. unfold descent, linear at 1. rewrite dot_add_r, (H j Hj). unfold descent. ring. Qed.

  (** vectors orthogonal to the kernel *)
  Definition ortho v : Prop := ∀ k, (∀ i, i < m → dot n (J i) k = 0%R) → dot n v k = 0%R.
  Lemma ortho_scal c v : ortho v → ortho (λ i, c * v i)%R.
  Proof. intros H k Hk. rewrite dot_scal_l, H by done. ring. Qed.
  Lemma ortho_add u v : ortho u → ortho v → ortho (λ i, u i + v i)%R.
  Proof. intros H1 H2 k Hk. rewrite dot_add_l, H1, H2 by done. ring. Qed.
  Lemma ortho_sub u v : ortho u → ortho v → ortho (λ i, u i - v i)%R.
  Proof. intros H1 H2 k Hk. rewrite dot_sub_l, H1, H2 by done. ring. Qed.
  Lemma ortho_ext u v : (∀ i, u i = v i) → ortho v → ortho u.
  Proof. intros H1 H2 k Hk. rewrite (dot_ext n u v k k); [by apply H2|intros; apply H1|done]. Qed.
  Lemma ortho_descent r : ortho (descent m J r).
  Proof.
    intros k Hk. unfold descent. rewrite (dot_comm n (λ j, - _)%R), dot_opp_r, (dot_comm n k), <- dot_swap, dot_zeros by done. ring.
  Qed.
  Lemma ortho_sd r : ortho (sdv m n J r).
  Proof. unfold sdv. cbv zeta. apply ortho_scal, ortho_descent. Qed.
  Lemma ortho_shortest r y : normal_eq m n J r y → (∀ z, normal_eq m n J r z → (len n y <= len n z)%R) → ortho y.
  Proof.
    intros Hy Hz k Hk. destruct (dot_nonneg n k) as [Hp|Hp]; [|rewrite dot_comm; by apply dot_zero_l].
    set (t := (dot n y k / dot n k k)%R). assert (Et : (t * dot n k k = dot n y k)%R) by (unfold t; field; lra).
    specialize (Hz (λ i, y i - t * k i)%R). assert (N : normal_eq m n J r (λ i, y i - t * k i)%R).
    { intros j Hj. rewrite <- (Hy j Hj). apply dot_ext; [done|]. intros i Hi. rewrite dot_sub_r, dot_scal_r, Hk by done. ring. }
    specialize (Hz N). pose proof (len_nonneg n y). assert (Q : (len n y * len n y <= len n (λ i, y i - t * k i) * len n (λ i, y i - t * k i))%R) by (apply Rmult_le_compat; lra).
    rewrite !len_sq, dot_sub_l, !dot_sub_r, !dot_scal_l, !dot_scal_r, (dot_comm n k y) in Q. rewrite <- Et in Q |- *.
    assert (0 <= - (t * t * dot n k k))%R by lra. assert (t * t = 0)%R as T. { destruct (Rle_0_sqr t) as [T0|T0]; unfold Rsqr in T0; [|lra]. pose proof (Rmult_lt_0_compat _ _ T0 Hp). lra. }
    assert (t = 0%R) as -> by (apply Rsqr_0_uniq; done). ring.
  Qed.
  (** steps are bounded by what they change *)
  Definition unit_vec (i : nat) : vec := λ j, if decide (j = i) then 1%R else 0%R.
  Lemma dot_unit (u : vec) i : i < m → dot m (unit_vec i) u = u i.
  Proof.
    intros Hi. unfold dot, unit_vec. rewrite (rsum_single _ _ i); [|apply NoDup_seq|apply elem_of_seq; lia|].
    - cbn beta. rewrite decide_True by done. ring.
    - intros j _ Hj. cbn beta. rewrite decide_False by done. ring.
  Qed.
  Lemma coercive : solves_shortest m n slv J → ∃ C, (0 <= C)%R ∧ ∀ v, ortho v → (dot n v v <= C * dot m (jv v) (jv v))%R.
  Proof.
    intros HS. set (Y := λ i, default (λ _, 0%R) (slv (gram (exact m n slv) J) (descent m J (unit_vec i)))).
    assert (HY : ∀ i, normal_eq m n J (unit_vec i) (Y i) ∧ ortho (Y i)).
    { intros i. destruct (HS (unit_vec i)) as (y & E & Hn & Hs). unfold Y. rewrite E. cbn. split; [done|]. by apply (ortho_shortest (unit_vec i)). }
    exists (rsum ((λ j, dot m (λ i, Y i j) (λ i, Y i j)) <$> seq 0 n)). split.
    { apply rsum_nonneg_. intros j _. apply dot_nonneg. }
    intros v Hv. set (a := λ i, (- dot n (J i) v)%R). set (u := λ j, dot m (λ i, Y i j) a).
    assert (Ju : ∀ w, dot m (jv w) (jv u) = dot m (jv v) (jv w)).
    { intros w. rewrite dot_swap. unfold u. rewrite dot_comm, <- (dot_swap m n Y a). transitivity (dot m a (λ i, - dot n (J i) w)%R).
      - apply dot_ext; [done|]. intros i Hi. rewrite dot_comm, <- dot_swap, (normal_bil (unit_vec i)) by apply HY. by rewrite dot_unit.
      - unfold a. rewrite dot_opp_r, (dot_comm m _ (jv w)), dot_opp_r, (dot_comm m (jv w)). ring. }
    assert (Hu : ortho u). { intros k Hk. unfold u. rewrite <- (dot_swap m n Y a). apply dot_zeros. intros i Hi. by apply (proj2 (HY i)). }
    assert (K : ∀ i, i < m → dot n (J i) (λ j, u j - v j)%R = 0%R).
    { intros i Hi. apply (dot_zero m (jv (λ j, u j - v j)%R)); [|done]. pose proof (Ju (λ j, u j - v j)%R) as Q. set (w := λ j, (u j - v j)%R) in *.
      transitivity (dot m (jv w) (jv u) - dot m (jv w) (jv v))%R; [|rewrite Q, (dot_comm m (jv v)); ring]. rewrite <- dot_sub_r. apply dot_ext; [done|]. intros i' _. cbn beta. unfold w. by rewrite dot_sub_r. }
    assert (Z : ∀ j, j < n → v j = u j). { intros j Hj. pose proof (ortho_sub u v Hu Hv _ K) as Q. pose proof (dot_zero n _ Q j Hj) as Q'. cbn in Q'. lra. }
    rewrite Rmult_comm, <- rsum_scal. apply dot_mono. intros j Hj. rewrite (Z j Hj). unfold u. pose proof (dot_schwarz m (λ i, Y i j) a) as Q.
    assert (A : dot m a a = dot m (jv v) (jv v)). { unfold a. rewrite dot_opp_r, dot_comm, dot_opp_r. ring. } rewrite A in Q. lra.
  Qed.
  Lemma full_rank_shortest : full_rank m n J → solves m n slv J → solves_shortest m n slv J.
  Proof.
    intros HF HS r. destruct (HS r) as (y & E & Hy). exists y. split_and!; [done..|]. intros z Hz. right. unfold len. f_equal.
    assert (K : ∀ i, i < m → dot n (J i) (λ j, y j - z j)%R = 0%R).
    { intros i Hi. apply (dot_zero m (jv (λ j, y j - z j)%R)); [|done]. set (w := λ j, (y j - z j)%R). transitivity (dot m (jv w) (jv y) - dot m (jv w) (jv z))%R.
      - rewrite <- dot_sub_r. apply dot_ext; [done|]. intros i' _. unfold w. by rewrite dot_sub_r.
      - rewrite !(normal_bil r) by done. ring. }
    pose proof (HF _ K) as Q. apply dot_ext; intros j Hj; specialize (Q j Hj); cbn in Q; lra.
  Qed.
  (** how near to the least sum of squares *)
  Lemma near : solves_shortest m n slv J → ∃ C, (0 <= C)%R ∧ ∀ b y z, let g := descent m J (linear n J b y) in (squares m n J b y <= squares m n J b z + C * dot n g g)%R.
  Proof.
    intros HS. destruct (coercive HS) as (C & HC & Hco). exists C. split; [done|]. intros b y z g. destruct (HS (linear n J b y)) as (v & _ & Hv & Hs).
    pose proof (Hco v (ortho_shortest _ v Hv Hs)) as B. pose proof (stationary b _ (newton_stationary b y v Hv) z) as L.
    pose proof (gain_is m n J (linear n J b y) v) as G. unfold gain in G. rewrite linear_linear in G. fold (squares m n J b y) (squares m n J b (λ i, y i + v i)%R) in G. fold g in G.
    assert (Q : dot n g v = dot m (jv v) (jv v)).
    { rewrite (normal_bil (linear n J b y) v v Hv). unfold g, descent. rewrite (dot_comm n (λ j, - _)%R), dot_opp_r, (dot_comm n v), <- dot_swap. done. }
    set (q := dot m (jv v) (jv v)) in *. rewrite Q in G. pose proof (dot_schwarz n g v) as CS. rewrite Q in CS. pose proof (dot_nonneg n g). pose proof (dot_nonneg m (jv v)) as Hq. fold q in Hq.
    assert (q <= C * dot n g g)%R; [|lra]. destruct Hq as [Hq|Hq]; [|rewrite <- Hq; by apply Rmult_le_pos]. apply (Rmult_le_reg_r q); [done|].
    apply (Rle_trans _ _ _ CS). apply (Rle_trans _ (dot n g g * (C * q))); [by apply Rmult_le_compat_l|]. right. ring.
  Qed.
End algebra.
