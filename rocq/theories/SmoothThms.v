(** Steps of the optimizer on smooth problems: how much is gained. *)
From Coq Require Import Reals Lra Lia.
From stdpp Require Import prelude.
From Verif Require Import ArrModel ArrThms DogModel DogSpec DogThms DogExact DogGeo DogGeoThms DogLive DogBest LsqThms SmoothSpec.

Section gains.
  Context (m n : nat).
  Implicit Types (J : mat) (r v g : vec).
  Notation jv J v := (λ i, dot n (J i) v).

  Lemma maxabs_len (g : vec) : (maxabs n g <= len n g)%R.
  Proof.
    assert (H : ∀ l, (∀ i, i ∈ l → (Rabs (g i) <= len n g)%R) → (foldr Rmax 0%R ((λ i, Rabs (g i)) <$> l) <= len n g)%R).
    { induction l as [|i l IH]; intros Hl; [apply len_nonneg|]. cbn [fmap list_fmap foldr]. apply Rmax_lub; [apply Hl; by left|]. apply IH. intros j Hj. apply Hl. by right. }
    apply H. intros i Hi%elem_of_seq. unfold len. rewrite <- sqrt_Rsqr_abs. apply sqrt_le_1_alt. unfold Rsqr, dot.
    assert (Hm : i ∈ seq 0 n) by (apply elem_of_seq; lia). revert Hm. generalize (seq 0 n). intros l Hm. induction l as [|k l IH]; [by apply elem_of_nil in Hm|].
    rewrite fmap_cons, rsum_cons. assert (N : (0 <= rsum ((λ i, g i * g i)%R <$> l))%R). { apply rsum_nonneg_. intros j _. apply Rle_0_sqr. }
    apply elem_of_cons in Hm as [->|Hm]; [lra|]. specialize (IH Hm). pose proof (Rle_0_sqr (g k)) as Q. unfold Rsqr in Q. lra.
  Qed.
  (** the Gauss-Newton step gains most *)
  Lemma newton_most J r y w : normal_eq m n J r y → (gain m n J r w <= gain m n J r y)%R.
  Proof.
    intros Hy. rewrite !gain_is.
    assert (G : ∀ u, dot n (descent m J r) u = dot m (jv J y) (jv J u)).
    { intros u. rewrite dot_swap. apply dot_ext; [|done]. intros j Hj. by rewrite <- Hy. }
    rewrite !G. pose proof (dot_nonneg m (λ i, jv J y i - jv J w i)%R) as N. rewrite dot_sub_l, !dot_sub_r, (dot_comm m (jv J w) (jv J y)) in N. lra.
  Qed.
  (** at least what the steepest descent gains within the radius *)
  Lemma gain_sd_is J r : let g := descent m J r in (0 < dot n g g)%R → gain m n J r (sdv m n J r) = (dot n g g * dot n g g / dot m (jv J g) (jv J g))%R.
  Proof.
    intros g Hg. pose proof (moved m n J r Hg) as Hm. unfold sdv. fold g. rewrite gain_scal. fold g. field. fold g in Hm. lra.
  Qed.
  Lemma gain_least J r B gn d v : let g := descent m J r in (0 < dot n g g)%R → (0 < B)%R → (∀ v, (dot m (jv J v) (jv J v) <= B * dot n v v)%R) →
    normal_eq m n J r gn → v = gn ∨ dogleg n (sdv m n J r) gn d v → (Rmin (d * len n g) (dot n g g / B) <= gain m n J r v)%R.
  Proof.
    intros g Hg HB HJ Hn Hv. pose proof (moved m n J r Hg) as Hm. fold g in Hm. pose proof (HJ g) as Hb.
    assert (Gs : (dot n g g / B <= gain m n J r (sdv m n J r))%R).
    { rewrite gain_sd_is by done. fold g. apply (Rmult_le_reg_r (B * dot m (jv J g) (jv J g))); [by apply Rmult_lt_0_compat|].
      replace (dot n g g / B * (B * dot m (jv J g) (jv J g)))%R with (dot n g g * dot m (jv J g) (jv J g))%R by (field; lra).
      replace (dot n g g * dot n g g / dot m (jv J g) (jv J g) * (B * dot m (jv J g) (jv J g)))%R with (dot n g g * (B * dot n g g))%R by (field; lra).
      apply Rmult_le_compat_l; lra. }
    assert (Gn : (dot n g g / B <= gain m n J r gn)%R) by (eapply Rle_trans; [exact Gs|by apply newton_most]).
    destruct Hv as [->|[t Ht Hv Hl|H1 H2 ->|t Ht H1 Hv Hl]].
    - eapply Rle_trans; [apply Rmin_r|done].
    - eapply Rle_trans; [apply Rmin_l|]. set (a := dot n g g) in *. set (b := dot m (jv J g) (jv J g)) in *. set (k := (t * (a / b))%R).
      assert (Ev : ∀ i, v i = (k * g i)%R). { intros i. rewrite Hv. unfold sdv, k. fold g. fold a b. ring. }
      assert (Ha : (0 < a / b)%R) by (by apply Rdiv_lt_0_compat). assert (Hk : (0 < k)%R) by (apply Rmult_lt_0_compat; lra).
      assert (Hd : d = (k * len n g)%R).
      { rewrite <- Hl. apply len_is; [apply Rmult_le_pos; [lra|apply len_nonneg]|]. rewrite (dot_ext n v (λ i, k * g i)%R v (λ i, k * g i)%R) by (intros; apply Ev).
        rewrite dot_scal_l, dot_scal_r. pose proof (len_sq n g) as Q. fold a in Q |- *. rewrite <- Q. ring. }
      rewrite (gain_ext m n J r v (λ j, k * g j)%R) by (intros; apply Ev). rewrite gain_scal. fold g. fold a b. rewrite Hd.
      replace (k * len n g * len n g)%R with (k * a)%R by (unfold a; rewrite <- len_sq; ring).
      assert (k * b <= a)%R. { unfold k. replace (t * (a / b) * b)%R with (t * a)%R by (field; lra). nra. } nra.
    - eapply Rle_trans; [apply Rmin_r|done].
    - eapply Rle_trans; [apply Rmin_r|]. rewrite (gain_ext m n J r v (λ j, sdv m n J r j + t * (gn j - sdv m n J r j))%R) by (intros; apply Hv).
      eapply Rle_trans; [|by apply gain_concave]. nra.
  Qed.
  (** what is gained in fact *)
  Lemma dot_len u v : (dot m u v <= len m u * len m v)%R.
  Proof.
    pose proof (dot_schwarz m u v) as H. rewrite <- (len_sq m u), <- (len_sq m v) in H. pose proof (len_nonneg m u). pose proof (len_nonneg m v).
    assert (0 <= len m u * len m v)%R by (by apply Rmult_le_pos). nra.
  Qed.
  Lemma gain_real J r r' v L : (0 <= gain m n J r v)%R → (0 <= L)%R → (len m (λ i, r' i - linear n J r v i) <= L * dot n v v)%R →
    (gain m n J r v - (2 * len m r * L + L * L * dot n v v) * dot n v v <= dot m r r - dot m r' r')%R.
  Proof.
    intros Hg HL He. set (l := linear n J r v) in *. set (e := λ i, (r' i - l i)%R) in *. set (q := dot n v v) in *. assert (Hq : (0 <= q)%R) by apply dot_nonneg.
    assert (E : dot m r' r' = (dot m l l + 2 * dot m l e + dot m e e)%R).
    { rewrite (dot_ext m r' (λ i, l i + e i)%R r' (λ i, l i + e i)%R) by (intros; unfold e; ring). rewrite dot_add_l, !dot_add_r, (dot_comm m e l). ring. }
    assert (Eg : dot m l l = (dot m r r - gain m n J r v)%R) by (unfold gain; fold l; ring).
    pose proof (dot_len l e) as H1. pose proof (len_nonneg m e) as H2. pose proof (len_sq m e) as H3. pose proof (len_nonneg m l) as H4. pose proof (len_sq m l) as H5. pose proof (len_nonneg m r) as H6. pose proof (len_sq m r) as H7.
    assert (Hl : (len m l <= len m r)%R) by nra. assert (Hlq : (0 <= L * q)%R) by (by apply Rmult_le_pos).
    assert (H8 : (len m l * len m e <= len m r * (L * q))%R) by (apply Rmult_le_compat; done).
    assert (H9 : (dot m e e <= L * q * (L * q))%R) by (rewrite <- H3; apply Rmult_le_compat; done). nra.
  Qed.
End gains.
