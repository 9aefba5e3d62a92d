(** The steps of the optimizer in exact arithmetic. *)
From Coq Require Import Reals Lra Lia.
From stdpp Require Import prelude.
From Verif Require Import ArrModel ArrThms DogModel DogSpec DogExact DogGeo.

Lemma dot_comm n u v : dot n u v = dot n v u.
Proof. apply rsum_ext. intros i _. ring. Qed.
Lemma dot_ext n u u' v v' : (∀ i, i < n → u i = u' i) → (∀ i, i < n → v i = v' i) → dot n u v = dot n u' v'.
Proof. intros H1 H2. apply rsum_ext. intros i Hi%elem_of_seq. rewrite H1, H2 by lia. done. Qed.
Lemma dot_add_r n u v w : dot n u (λ i, (v i + w i)%R) = (dot n u v + dot n u w)%R.
Proof. unfold dot. rewrite <- rsum_plus. apply rsum_ext. intros i _. ring. Qed.
Lemma dot_scal_r n c u v : dot n u (λ i, (c * v i)%R) = (c * dot n u v)%R.
Proof. unfold dot. rewrite <- rsum_scal. apply rsum_ext. intros i _. ring. Qed.
Lemma dot_opp_r n u v : dot n u (λ i, (- v i)%R) = (- dot n u v)%R.
Proof. transitivity (dot n u (λ i, (-1 * v i)%R)); [apply dot_ext; intros; [done|ring]|]. rewrite dot_scal_r. ring. Qed.
Lemma dot_sub_r n u v w : dot n u (λ i, (v i - w i)%R) = (dot n u v - dot n u w)%R.
Proof. unfold Rminus. rewrite dot_add_r, dot_opp_r. done. Qed.
Lemma dot_add_l n u v w : dot n (λ i, (v i + w i)%R) u = (dot n v u + dot n w u)%R.
Proof. rewrite dot_comm, dot_add_r, !(dot_comm n u). done. Qed.
Lemma dot_sub_l n u v w : dot n (λ i, (v i - w i)%R) u = (dot n v u - dot n w u)%R.
Proof. rewrite dot_comm, dot_sub_r, !(dot_comm n u). done. Qed.
Lemma dot_scal_l n c u v : dot n (λ i, (c * v i)%R) u = (c * dot n v u)%R.
Proof. rewrite dot_comm, dot_scal_r, !(dot_comm n u). done. Qed.
Lemma rsum_nonneg_ {A} (f : A → R) l : (∀ x, x ∈ l → 0 <= f x)%R → (0 <= rsum (f <$> l))%R ∧ (rsum (f <$> l) = 0%R → ∀ x, x ∈ l → f x = 0%R).
Proof.
  induction l as [|a l IH]; intros Hf; cbn [fmap list_fmap]; [split; [rewrite rsum_nil; lra|by intros _ x ?%elem_of_nil]|]. rewrite rsum_cons.
  assert (0 <= f a)%R by (apply Hf; by left). destruct IH as [I1 I2]; [intros x Hx; apply Hf; by right|]. split; [lra|].
  intros E x [->|Hx]%elem_of_cons; [lra|]. apply I2; [lra|done].
Qed.
Lemma dot_nonneg n v : (0 <= dot n v v)%R.
Proof. apply rsum_nonneg_. intros i _. nra. Qed.
Lemma dot_zero n v : dot n v v = 0%R → ∀ i, i < n → v i = 0%R.
Proof.
  intros H i Hi. destruct (rsum_nonneg_ (λ i, (v i * v i)%R) (seq 0 n)) as [_ Hz]; [intros; nra|]. specialize (Hz H i ltac:(apply elem_of_seq; lia)). simpl in Hz. nra.
Qed.
Lemma dot_zero_l n u v : dot n u u = 0%R → dot n u v = 0%R.
Proof. intros H. apply rsum_zero. intros i Hi%elem_of_seq. rewrite (dot_zero n u H) by lia. ring. Qed.
Lemma len_sq n v : (len n v * len n v = dot n v v)%R.
Proof. apply sqrt_sqrt, dot_nonneg. Qed.
Lemma len_nonneg n v : (0 <= len n v)%R.
Proof. apply sqrt_pos. Qed.
Lemma len_is n v d : (0 <= d)%R → dot n v v = (d * d)%R → len n v = d.
Proof. intros H1 H2. unfold len. rewrite H2. by apply sqrt_square. Qed.

(** The weight: the positive root of a t^2 + 2 b t = d^2 - s *)
Lemma weight_real a b s d : (0 < a → s < d * d → d * d < s + 2 * b + a →
  let q := R_sqrt.sqrt (a * (d * d) + (s + b) * (s + b) - (s + 2 * b + a) * s) in
  0 <= a * (d * d) + (s + b) * (s + b) - (s + 2 * b + a) * s ∧ 0 < b + q ∧
  let t := (d * d - s) / (b + q) in 0 <= t <= 1 ∧ s + 2 * b * t + a * (t * t) = d * d)%R.
Proof.
  intros Ha Hs Hg q. set (c := (d * d - s)%R) in *. assert (Hc : (0 < c)%R) by (unfold c; lra).
  assert (Ep : (a * (d * d) + (s + b) * (s + b) - (s + 2 * b + a) * s = b * b + a * c)%R) by (unfold c; ring).
  unfold q in *. clear q. rewrite Ep. assert (Hac : (0 < a * c)%R) by nra. assert (Hp : (0 <= b * b + a * c)%R) by nra. split; [done|].
  set (q := R_sqrt.sqrt (b * b + a * c)%R). assert (Hq : (q * q = b * b + a * c)%R) by (by apply sqrt_sqrt). assert (Hq0 : (0 <= q)%R) by apply sqrt_pos.
  assert (Hden : (0 < b + q)%R) by nra. split; [done|]. set (t := (c / (b + q))%R). assert (Ht : (t * (b + q) = c)%R) by (unfold t; field; lra).
  assert (Hat : (a * t = q - b)%R). { apply (Rmult_eq_reg_r (b + q)); [|lra]. rewrite Rmult_assoc, Ht. lra. }
  assert (Ht0 : (0 < t)%R) by (unfold t; apply Rdiv_lt_0_compat; lra).
  assert (Hroot : (2 * b * t + a * (t * t) = c)%R). { replace (a * (t * t))%R with ((a * t) * t)%R by ring. rewrite Hat. rewrite <- Ht. ring. }
  split; [|unfold c in *; lra]. split; [lra|]. destruct (Rle_lt_dec t 1); [done|]. exfalso.
  assert (H1 : (c < 2 * b + a)%R) by (unfold c; lra). assert (H2 : (2 * b + a < 2 * b + a * t)%R) by nra.
  assert (H3 : (0 < (t - 1) * (2 * b + a * t))%R) by (apply Rmult_lt_0_compat; lra). lra.
Qed.

Section step.
  Context (m n : nat) (slv : mat → vec → option vec).
  Notation E := (exact m n slv).
  Lemma xle_true x y : kle reals (Some x) (Some y) = true ↔ (x <= y)%R.
  Proof. cbn. destruct (Rle_dec x y); split; try done; lra. Qed.
  Lemma xle_false x y : kle reals (Some x) (Some y) = false ↔ (y < x)%R.
  Proof. cbn. destruct (Rle_dec x y); split; try done; lra. Qed.
  Lemma xlt_true x y : klt reals (Some x) (Some y) = true ↔ (x < y)%R.
  Proof. cbn. destruct (Rlt_dec x y); split; try done; lra. Qed.
  Lemma xlt_false x y : klt reals (Some x) (Some y) = false ↔ (y <= x)%R.
  Proof. cbn. destruct (Rlt_dec x y); split; try done; lra. Qed.
  Lemma beta_exact (sd gn : vec) d : (len n sd < d < len n gn)%R →
    ∃ t, beta reals E (Some d) (Some sd) (Some gn) = Some (Some t) ∧ (0 <= t <= 1)%R ∧ len n (λ i, sd i + t * (gn i - sd i))%R = d.
  Proof.
    intros [H1 H2]. set (df := λ i, (gn i - sd i)%R). set (a := dot n df df). set (b := dot n df sd). set (s := dot n sd sd).
    pose proof (len_nonneg n sd) as Hn. pose proof (len_sq n sd) as Hs. pose proof (len_sq n gn) as Hg. fold s in Hs.
    assert (Eg : dot n gn gn = (s + 2 * b + a)%R).
    { unfold s, b, a, df. rewrite !dot_sub_l, !dot_sub_r, (dot_comm n sd gn). ring. }
    assert (Ep : dot n gn sd = (s + b)%R) by (unfold s, b, df; rewrite dot_sub_l; ring).
    assert (Hsd : (s < d * d)%R) by nra. assert (Hgd : (d * d < s + 2 * b + a)%R) by (rewrite <- Eg; nra).
    assert (Ha : (0 < a)%R).
    { destruct (dot_nonneg n df) as [Ha|Ha]; [done|]. fold a in Ha. assert (b = 0%R) by (apply dot_zero_l; by fold a). lra. }
    destruct (weight_real a b s d Ha Hsd Hgd) as (Hp & Hden & Ht & Hroot). cbv zeta in *.
    set (q := R_sqrt.sqrt _) in *. exists ((d * d - s) / (b + q))%R. set (t := ((d * d - s) / (b + q))%R) in *. split_and!.
    - unfold beta. cbn -[Rle_dec Req_EM_T]. fold df. change (λ i, (gn i - sd i)%R) with df. fold a b s. rewrite Hs, Hg, Eg, Ep.
      destruct (Rle_dec 0 (a * (d * d) + (s + b) * (s + b) - (s + 2 * b + a) * s)%R) as [_|]; [|done]. cbn -[Rle_dec Req_EM_T]. fold q.
      destruct (Rle_dec (b + q) 0); [lra|]. rewrite andb_false_r. cbn -[Req_EM_T]. destruct (Req_EM_T (b + q) 0); [lra|done].
    - apply Ht.
    - apply Ht.
    - apply len_is; [lra|]. change (λ i, (sd i + t * (gn i - sd i))%R) with (λ i, (sd i + t * df i)%R).
      rewrite dot_add_l, !dot_add_r, (dot_scal_l n t sd df), (dot_scal_l n t (λ i, t * df i)%R df), !dot_scal_r, (dot_comm n sd df). fold a b s. rewrite <- Hroot. ring.
  Qed.
  (** the step, for real data *)
  Theorem step_exact (sd gn : vec) d A g : (0 < d)%R → ∃ v gn', update_step reals E (Some sd) (Some (Some gn)) (Some (Some d)) A g = Some (gn', Some v, Some d) ∧
    dogleg n sd gn d v ∧ gn' = Some (Some gn).
  Proof.
    intros Hd. unfold update_step. change (vnorm E (Some sd)) with (Some (len n sd)). change (vnorm E (Some gn)) with (Some (len n gn)).
    destruct (kle reals (Some d) (Some (len n sd))) eqn:E1.
    - apply xle_true in E1. exists (λ i, d / len n sd * sd i)%R, (Some (Some gn)). split_and!; [|apply (dog_cauchy n sd gn d _ (d / len n sd))|done].
      + cbn. destruct (Req_EM_T (len n sd) 0); [lra|done].
      + assert (0 < / len n sd)%R by (apply Rinv_0_lt_compat; lra). split; [apply Rdiv_lt_0_compat; lra|]. apply (Rmult_le_reg_r (len n sd)); [lra|]. unfold Rdiv. rewrite Rmult_assoc, Rinv_l; lra.
      + done.
      + apply len_is; [lra|]. rewrite dot_scal_l, dot_scal_r, <- len_sq. field. lra.
    - apply xle_false in E1. cbn [from_option mbind option_bind]. change (vnorm E (Some gn)) with (Some (len n gn)).
      destruct (kle reals (Some (len n gn)) (Some d)) eqn:E2.
      + apply xle_true in E2. exists gn, (Some (Some gn)). split_and!; [done| |done]. by apply dog_newton.
      + apply xle_false in E2. destruct (beta_exact sd gn d) as (t & -> & H1 & H2); [done|]. exists (λ i, sd i + t * (gn i - sd i))%R, (Some (Some gn)). split_and!; [done| |done]. by apply (dog_between n sd gn d _ t).
  Qed.
  Lemma dogleg_in sd gn d v : dogleg n sd gn d v → (len n v <= d)%R.
  Proof. intros [t H1 H2 H3|H1 H2 H3|t H1 H2 H3 H4]; lra. Qed.

  (** The first order model *)
  Implicit Types (J : mat) (r v g : vec).
  Lemma dot_swap J u v : dot m u (λ i, dot n (J i) v) = dot n (λ j, dot m (λ i, J i j) u) v.
  Proof.
    unfold dot. transitivity (rsum ((λ i, rsum ((λ j, (u i * (J i j * v j))%R) <$> seq 0 n)) <$> seq 0 m)).
    - apply rsum_ext. intros i _. by rewrite rsum_scal.
    - rewrite rsum_swap. apply rsum_ext. intros j _. rewrite Rmult_comm, <- rsum_scal. apply rsum_ext. intros i _. ring.
  Qed.
  Notation jv J v := (λ i, dot n (J i) v).
  Lemma gain_is J r v : gain m n J r v = (2 * dot n (descent m J r) v - dot m (jv J v) (jv J v))%R.
  Proof.
    unfold gain, linear. rewrite dot_add_l, !dot_add_r, (dot_comm m (jv J v) r), dot_swap.
    replace (dot n (descent m J r) v) with (- dot n (λ j, dot m (λ i, J i j) r) v)%R; [ring|].
    unfold descent. rewrite (dot_comm n (λ j, - _)%R), dot_opp_r, (dot_comm n v). done.
  Qed.
  Lemma jv_scal J t v i : dot n (J i) (λ j, (t * v j)%R) = (t * dot n (J i) v)%R.
  Proof. apply dot_scal_r. Qed.
  Lemma gain_scal J r t v : gain m n J r (λ j, (t * v j)%R) = (2 * t * dot n (descent m J r) v - t * t * dot m (jv J v) (jv J v))%R.
  Proof.
    rewrite gain_is, dot_scal_r. replace (dot m (jv J (λ j, (t * v j)%R)) (jv J (λ j, (t * v j)%R))) with (t * t * dot m (jv J v) (jv J v))%R; [ring|].
    transitivity (dot m (λ i, (t * dot n (J i) v)%R) (λ i, (t * dot n (J i) v)%R)); [rewrite dot_scal_l, dot_scal_r; ring|]. apply dot_ext; intros i _; by rewrite jv_scal.
  Qed.
  Lemma gain_ext J r v w : (∀ i, i < n → v i = w i) → gain m n J r v = gain m n J r w.
  Proof.
    intros Hv. rewrite !gain_is. f_equal; [f_equal; by apply dot_ext|]. apply dot_ext; intros i _; by apply dot_ext.
  Qed.
  (** the gradient does not vanish along itself *)
  Lemma moved J r : let g := descent m J r in (0 < dot n g g)%R → (0 < dot m (jv J g) (jv J g))%R.
  Proof.
    intros g Hg. destruct (dot_nonneg m (jv J g)) as [H|H]; [done|]. exfalso. assert (Z : dot n (λ j, dot m (λ i, J i j) r) g = 0%R).
    { rewrite <- dot_swap, dot_comm. by apply dot_zero_l. }
    assert (dot n g g = - dot n (λ j, dot m (λ i, J i j) r) g)%R; [|lra]. unfold g at 1, descent. by rewrite (dot_comm n (λ j, - _)%R), dot_opp_r, (dot_comm n g).
  Qed.
  (** the steepest descent step *)
  Definition sdv J r : vec := let g := descent m J r in λ j, (dot n g g / dot m (jv J g) (jv J g) * g j)%R.
  Lemma cauchy_exact J r : (0 < dot n (descent m J r) (descent m J r))%R → cauchy reals E J (Some (descent m J r)) = Some (sdv J r).
  Proof.
    intros Hg. pose proof (moved J r Hg) as Hj. cbv zeta in Hj. set (g := descent m J r) in *. unfold cauchy, ksq. cbn -[Req_EM_T]. rewrite !len_sq. unfold mulv.
    destruct (Req_EM_T _ 0) as [Hz|_]; [lra|]. done.
  Qed.
  Theorem cauchy_best J r t : let g := descent m J r in (0 < dot n g g)%R → (gain m n J r (λ j, t * g j) <= gain m n J r (sdv J r))%R.
  Proof.
    intros g Hg. pose proof (moved J r Hg) as Hj. cbv zeta in Hj. fold g in Hj. unfold sdv. fold g. rewrite !gain_scal. fold g.
    set (a := dot n g g) in *. set (b := dot m _ _) in *. assert (E : (a / b * b = a)%R) by (field; lra). set (k := (a / b)%R) in *.
    assert (0 <= b * ((t - k) * (t - k)))%R by (apply Rmult_le_pos; [lra|apply Rle_0_sqr]). clearbody k. rewrite <- E. nra.
  Qed.
  Lemma gain_sd J r t : let g := descent m J r in (0 < dot n g g)%R → (0 < t <= 1)%R → (0 < gain m n J r (λ j, t * sdv J r j))%R.
  Proof.
    intros g Hg Ht. pose proof (moved J r Hg) as Hj. cbv zeta in Hj. fold g in Hj. unfold sdv. fold g.
    rewrite (gain_ext J r _ (λ j, t * (dot n g g / dot m (jv J g) (jv J g)) * g j)%R) by (intros; ring). rewrite gain_scal. fold g.
    set (a := dot n g g) in *. set (b := dot m _ _) in *. assert (E : (a / b * b = a)%R) by (field; lra). assert (Hk : (0 < a / b)%R) by (apply Rdiv_lt_0_compat; lra). set (k := (a / b)%R) in *.
    assert (E2 : (t * k * (t * k) * b = t * t * k * a)%R) by (rewrite <- E; ring). rewrite E2. clearbody k. assert (0 < t * k * a)%R by (apply Rmult_lt_0_compat; [apply Rmult_lt_0_compat; lra|lra]).
    replace (_ - _)%R with (t * k * a * (2 - t))%R by ring. apply Rmult_lt_0_compat; lra.
  Qed.
  Lemma gain_gn J r y : let g := descent m J r in (0 < dot n g g)%R → normal_eq m n J r y → (0 < gain m n J r y)%R.
  Proof.
    intros g Hg Hy. rewrite gain_is. assert (E : dot n (descent m J r) y = dot m (jv J y) (jv J y)).
    { rewrite dot_swap. apply dot_ext; [|done]. intros j Hj. symmetry. by apply Hy. }
    rewrite E. destruct (dot_nonneg m (jv J y)) as [H|H]; [lra|]. exfalso. assert (Z : ∀ j, j < n → descent m J r j = 0%R).
    { intros j Hj. rewrite <- (Hy j Hj), dot_comm. by apply dot_zero_l. }
    assert (dot n g g = 0%R); [|lra]. apply rsum_zero. intros j Hj%elem_of_seq. unfold g. rewrite Z by lia. ring.
  Qed.
  Lemma gain_concave J r u v t : (0 <= t <= 1)%R → ((1 - t) * gain m n J r u + t * gain m n J r v <= gain m n J r (λ j, u j + t * (v j - u j)))%R.
  Proof.
    intros Ht. rewrite !gain_is. set (g := descent m J r). set (U := jv J u). set (X := jv J v).
    assert (E1 : dot n g (λ j, u j + t * (v j - u j))%R = (dot n g u + t * (dot n g v - dot n g u))%R) by (by rewrite dot_add_r, dot_scal_r, dot_sub_r).
    assert (E2 : dot m (jv J (λ j, u j + t * (v j - u j))%R) (jv J (λ j, u j + t * (v j - u j))%R) = dot m (λ i, U i + t * (X i - U i))%R (λ i, U i + t * (X i - U i))%R).
    { apply dot_ext; intros i _; by rewrite dot_add_r, dot_scal_r, dot_sub_r. }
    rewrite E1, E2, dot_add_l, !dot_add_r, (dot_scal_l m t U), (dot_scal_l m t (λ i, t * (X i - U i))%R), !dot_scal_r, !dot_sub_l, !dot_sub_r, (dot_comm m X U).
    assert (Hq : (0 <= dot m U U - 2 * dot m U X + dot m X X)%R).
    { pose proof (dot_nonneg m (λ i, U i - X i)%R) as Hq. rewrite dot_sub_l, !dot_sub_r, (dot_comm m X U) in Hq. lra. }
    set (uu := dot m U U) in *. set (ux := dot m U X) in *. set (xx := dot m X X) in *.
    assert (0 <= t * (1 - t) * (uu - 2 * ux + xx))%R by (repeat apply Rmult_le_pos; lra). nra.
  Qed.
  Theorem gain_step J r gn d v : let g := descent m J r in (0 < dot n g g)%R → normal_eq m n J r gn → dogleg n (sdv J r) gn d v → (0 < gain m n J r v)%R.
  Proof.
    intros g Hg Hy [t H1 H2 H3|H1 H2 ->|t H1 H2 H3 H4].
    - rewrite (gain_ext J r v (λ j, t * sdv J r j)%R) by (intros; apply H2). by apply gain_sd.
    - by apply gain_gn.
    - rewrite (gain_ext J r v (λ i, sdv J r i + t * (gn i - sdv J r i))%R) by (intros; apply H3).
      apply (Rlt_le_trans _ ((1 - t) * gain m n J r (sdv J r) + t * gain m n J r gn)); [|by apply gain_concave].
      assert (G1 : (0 < gain m n J r (sdv J r))%R). { rewrite (gain_ext J r _ (λ j, 1 * sdv J r j)%R) by (intros; ring). apply gain_sd; [done|lra]. }
      pose proof (gain_gn J r gn Hg Hy) as G2. destruct (Req_dec t 0) as [->|Ht]; [lra|]. assert (0 < t * gain m n J r gn)%R by (apply Rmult_lt_0_compat; lra).
      assert (0 <= (1 - t) * gain m n J r (sdv J r))%R by (apply Rmult_le_pos; lra). lra.
  Qed.
  (** what the code calls predicted improvement is that gain *)
  Lemma descent_code J r j : mulvt m J (λ i, (- r i)%R) j = descent m J r j.
  Proof. unfold mulvt, descent. by rewrite dot_opp_r. Qed.
  Lemma gram_code J v : dot n v (mulv n (gram E J) v) = dot m (jv J v) (jv J v).
  Proof.
    rewrite dot_swap, (dot_comm n _ v). apply dot_ext; [done|]. intros j _. unfold mulv. cbn [gram exact]. rewrite dot_swap. apply dot_ext; [intros; apply dot_comm|done].
  Qed.
  Theorem predicted_gain J r v (s : st reals E) : s_A reals E s = gram E J → s_g reals E s = jt_neg E J (Some r) → s_dl reals E s = Some v →
    predicted reals E s = Some (gain m n J r v).
  Proof.
    intros H1 H2 H3. unfold predicted. rewrite H1, H2, H3. cbn. rewrite gain_is.
    assert (X : dot n (mulvt m J (λ i, (- r i)%R)) v = dot n (descent m J r) v) by (apply dot_ext; [intros; apply descent_code|done]).
    rewrite X. pose proof (gram_code J v) as Y. cbn in Y. by rewrite Y.
  Qed.
End step.
Lemma positive_step m n slv (J : mat) r gn d A g : (0 < dot n (descent m J r) (descent m J r))%R → normal_eq m n J r gn → (0 < d)%R →
  ∃ sd v gn', cauchy reals (exact m n slv) J (Some (descent m J r)) = Some sd ∧
    update_step reals (exact m n slv) (Some sd) (Some (Some gn)) (Some (Some d)) A g = Some (gn', Some v, Some d) ∧ (0 < gain m n J r v)%R.
Proof.
  intros H1 H2 H3. destruct (step_exact m n slv (sdv m n J r) gn d A g H3) as (v & gn' & E & Hd & _). exists (sdv m n J r), v, gn'.
  split_and!; [by apply cauchy_exact|done|]. by apply (gain_step m n J r gn d).
Qed.
Lemma cauchy_along m n slv (J : mat) r t : (0 < dot n (descent m J r) (descent m J r))%R →
  ∃ sd, cauchy reals (exact m n slv) J (Some (descent m J r)) = Some sd ∧ (gain m n J r (λ j, t * descent m J r j) <= gain m n J r sd)%R.
Proof. intros H. exists (sdv m n J r). split; [by apply cauchy_exact|by apply cauchy_best]. Qed.
