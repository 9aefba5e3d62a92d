(** Rounding of the elementwise operations. *)
From Coq Require Import ZArith Reals Lra Lia Bool.
From Flocq Require Import Core IEEE754.BinarySingleNaN Relative.
From Verif Require Import Dog64 RoundModel RoundSpec.
Local Open Scope R_scope.

Lemma rnd_nearest e : rnd e = nearest e.
Proof. reflexivity. Qed.
Lemma nearest_0 : nearest 0 = 0.
Proof. exact rnd_0. Qed.
Global Instance flt_valid : Valid_exp (FLT_exp (-1074) 53).
Proof. apply FLT_exp_valid. exact H53. Qed.
Lemma nearest_le e f : e <= f -> nearest e <= nearest f.
Proof. apply rnd_le. Qed.
Lemma nearest_opp e : nearest (- e) = - nearest e.
Proof. apply round_NE_opp. Qed.
Lemma nearest_abs e : nearest (Rabs e) = Rabs (nearest e).
Proof. apply round_NE_abs. apply flt_valid. Qed.
Lemma nearest_id (x : b64) : nearest (B2R x) = B2R x.
Proof. apply round_generic. apply valid_rnd_N. apply (generic_format_B2R 53 1024). Qed.
Lemma nearest_bpow k : (-1074 <= k)%Z -> nearest (bpow radix2 k) = bpow radix2 k.
Proof. intros H. apply round_generic; [apply valid_rnd_N|]. apply generic_format_bpow. unfold FLT_exp. lia. Qed.

Lemma sign_true (x : b64) : Bsign x = true -> B2R x <= 0.
Proof. destruct x as [s|s| |s m e H]; cbn; intros Hs; try subst s; try lra. apply F2R_le_0. cbn. lia. Qed.
Lemma sign_false (x : b64) : Bsign x = false -> 0 <= B2R x.
Proof. destruct x as [s|s| |s m e H]; cbn; intros Hs; try subst s; try lra. apply F2R_ge_0. cbn. lia. Qed.
Lemma over_nonzero e : bpow radix2 1024 <= Rabs (nearest e) -> e <> 0.
Proof. intros H ->. rewrite nearest_0, Rabs_R0 in H. pose proof (bpow_gt_0 radix2 1024). lra. Qed.

Lemma add_rounds x y : is_finite x = true -> is_finite y = true -> rounds (B2R x + B2R y) (v_add x y).
Proof.
  intros Fx Fy. unfold v_add. generalize (Bplus_correct 53 1024 _ _ mode_NE x y Fx Fy). rewrite rnd_nearest. case Rlt_bool_spec; intros Hr.
  - intros (E & F & _). left. auto.
  - intros (E & Hs). right. split; [assumption|]. apply overflow_sign in E. rewrite E. f_equal. apply over_nonzero in Hr.
    destruct (Bsign x) eqn:Sx; [apply sign_true in Sx; symmetry in Hs; apply sign_true in Hs|apply sign_false in Sx; symmetry in Hs; apply sign_false in Hs];
      case Rlt_bool_spec; intros; try reflexivity; exfalso; lra.
Qed.
Lemma sub_rounds x y : is_finite x = true -> is_finite y = true -> rounds (B2R x - B2R y) (v_sub x y).
Proof.
  intros Fx Fy. unfold v_sub. generalize (Bminus_correct 53 1024 _ _ mode_NE x y Fx Fy). rewrite rnd_nearest. case Rlt_bool_spec; intros Hr.
  - intros (E & F & _). left. auto.
  - intros (E & Hs). right. split; [assumption|]. apply overflow_sign in E. rewrite E. f_equal. apply over_nonzero in Hr.
    destruct (Bsign x) eqn:Sx, (Bsign y) eqn:Sy; try discriminate; [apply sign_true in Sx; apply sign_false in Sy|apply sign_false in Sx; apply sign_true in Sy];
      case Rlt_bool_spec; intros; try reflexivity; exfalso; lra.
Qed.
Lemma mul_rounds x y : is_finite x = true -> is_finite y = true -> rounds (B2R x * B2R y) (v_mul x y).
Proof.
  intros Fx Fy. unfold v_mul. generalize (Bmult_correct 53 1024 _ _ mode_NE x y). rewrite rnd_nearest, Fx, Fy. case Rlt_bool_spec; intros Hr.
  - intros (E & F & _). left. auto.
  - intros E. right. split; [assumption|]. apply overflow_sign in E. rewrite E. f_equal. apply over_nonzero in Hr.
    destruct (Bsign x) eqn:Sx; [apply sign_true in Sx|apply sign_false in Sx]; (destruct (Bsign y) eqn:Sy; [apply sign_true in Sy|apply sign_false in Sy]); cbn;
      case Rlt_bool_spec; intros; try reflexivity; exfalso; nra.
Qed.
Lemma div_rounds x y : is_finite x = true -> is_finite y = true -> B2R y <> 0 -> rounds (B2R x / B2R y) (v_div x y).
Proof.
  intros Fx Fy Hy. unfold v_div. generalize (Bdiv_correct 53 1024 _ _ mode_NE x y Hy). rewrite rnd_nearest, Fx. case Rlt_bool_spec; intros Hr.
  - intros (E & F & _). left. auto.
  - intros E. right. split; [assumption|]. apply overflow_sign in E. rewrite E. f_equal. apply over_nonzero in Hr.
    assert (Hq : B2R x = B2R x / B2R y * B2R y) by (now field). set (q := B2R x / B2R y) in *.
    destruct (Bsign x) eqn:Sx; [apply sign_true in Sx|apply sign_false in Sx]; (destruct (Bsign y) eqn:Sy; [apply sign_true in Sy|apply sign_false in Sy]); cbn;
      case Rlt_bool_spec; intros; try reflexivity; exfalso; nra.
Qed.
Lemma zero_cases (y : b64) : is_finite y = true -> B2R y = 0 -> exists s, y = B754_zero s.
Proof.
  destruct y as [s|s| |s m e H]; try discriminate; intros _; [eauto|]. cbn. intros E. apply eq_0_F2R in E. destruct s; discriminate.
Qed.
Lemma div_zero x y : is_finite x = true -> is_finite y = true -> B2R y = 0 -> visible (v_div x y).
Proof. intros Fx Fy E. destruct (zero_cases y Fy E) as [s ->]. unfold visible. now destruct x. Qed.
Lemma div_zero_recip y : is_finite y = true -> B2R y = 0 -> visible (v_recip y).
Proof. intros Fy E. now apply div_zero. Qed.
(** reading a number off its mantissa and exponent *)
Lemma B2R_by (x : b64) s m e : B2SF x = SpecFloat.S754_finite s m e -> B2R x = IZR (SpecFloat.cond_Zopp s (Zpos m)) * bpow radix2 e.
Proof. intros E. rewrite <- SF2R_B2SF, E. reflexivity. Qed.
Lemma bpow_inv k : IZR (2 ^ Zpos k) * bpow radix2 (Zneg k) = 1.
Proof. change (2 ^ Zpos k)%Z with (radix2 ^ Zpos k)%Z. rewrite IZR_Zpower by lia. rewrite <- bpow_plus. now replace (Zpos k + Zneg k)%Z with 0%Z by lia. Qed.
Lemma one_is : is_finite one64 = true /\ B2R one64 = 1.
Proof. split; [reflexivity|]. rewrite (B2R_by _ false (2 ^ 52) (-52)) by (vm_compute; reflexivity). exact (bpow_inv 52). Qed.
Lemma two_is : is_finite two64 = true /\ B2R two64 = 2.
Proof.
  split; [reflexivity|]. rewrite (B2R_by _ false (2 ^ 52) (-51)) by (vm_compute; reflexivity). change (-51)%Z with (1 + -52)%Z.
  rewrite bpow_plus. change (bpow radix2 1) with 2. pose proof (bpow_inv 52) as H. cbn [SpecFloat.cond_Zopp]. change (Zpos (2 ^ 52)) with (2 ^ 52)%Z. nra.
Qed.
Lemma half_is : is_finite half64 = true /\ B2R half64 = / 2.
Proof.
  split; [reflexivity|]. rewrite (B2R_by _ false (2 ^ 52) (-53)) by (vm_compute; reflexivity). change (-53)%Z with (-1 + -52)%Z.
  rewrite bpow_plus. change (bpow radix2 (-1)) with (/ 2). pose proof (bpow_inv 52) as H. cbn [SpecFloat.cond_Zopp]. change (Zpos (2 ^ 52)) with (2 ^ 52)%Z. nra.
Qed.
Lemma recip_rounds x : is_finite x = true -> B2R x <> 0 -> rounds (/ B2R x) (v_recip x).
Proof. intros F H. replace (/ B2R x) with (B2R one64 / B2R x). apply div_rounds; [apply one_is|assumption..]. rewrite (proj2 one_is). field. assumption. Qed.
Lemma neg_exact x : is_finite x = true -> exactly (- B2R x) (v_neg x).
Proof. intros F. split. unfold v_neg. now rewrite is_finite_Bopp. apply B2R_Bopp. Qed.
Lemma abs_exact x : is_finite x = true -> exactly (Rabs (B2R x)) (v_abs x).
Proof. intros F. split. unfold v_abs. now rewrite is_finite_Babs. apply B2R_Babs. Qed.
Lemma sqrt_rounds x : is_finite x = true -> 0 <= B2R x -> rounds (R_sqrt.sqrt (B2R x)) (v_sqrt x).
Proof.
  intros F H. left. destruct (Bsqrt_correct 53 1024 _ _ mode_NE x) as (E & Ff & _). fold (v_sqrt x) in *. rewrite rnd_nearest in E.
  assert (Hf : is_finite (v_sqrt x) = true).
  { rewrite Ff. destruct x as [s|s| |[] m e Hb]; try discriminate; try reflexivity. exfalso. cbn in H.
    assert (F2R (Float radix2 (Zneg m) e) < 0) by (now apply F2R_lt_0). unfold SpecFloat.cond_Zopp, Z.opp in H. lra. }
  split; [|auto]. rewrite <- E. apply abs_B2R_lt_emax.
Qed.
Lemma sqrt_negative x : B2R x < 0 -> visible (v_sqrt x).
Proof.
  intros H. unfold visible. destruct (Bsqrt_correct 53 1024 _ _ mode_NE x) as (_ & Ff & _). fold (v_sqrt x) in *. rewrite Ff.
  destruct x as [s|s| |[] m e Hb]; cbn in H; try lra; try reflexivity. exfalso. assert (0 < F2R (Float radix2 (Zpos m) e)) by (now apply F2R_gt_0). lra.
Qed.

(** Exact entries. *)
Lemma rounds_exact e (z x : b64) : B2R z = e -> rounds e x -> exactly e x.
Proof.
  intros E [(Hr & F & Hx)|[Hr _]].
  - split; [assumption|]. rewrite Hx, <- E. apply nearest_id.
  - exfalso. rewrite <- E, nearest_id in Hr. pose proof (abs_B2R_lt_emax 53 1024 z). lra.
Qed.
Lemma mul_a_exact y : is_finite y = true -> exactly (B2R y) (d_mul_a y).
Proof. intros F. apply (rounds_exact _ y); [reflexivity|]. replace (B2R y) with (B2R one64 * B2R y) by (rewrite (proj2 one_is); ring). now apply mul_rounds. Qed.
Lemma mul_b_exact x : is_finite x = true -> exactly (B2R x) (d_mul_b x).
Proof. intros F. apply (rounds_exact _ x); [reflexivity|]. replace (B2R x) with (B2R x * B2R one64) by (rewrite (proj2 one_is); ring). now apply mul_rounds. Qed.
Lemma twice_rounds x : is_finite x = true -> rounds (2 * B2R x) (Bmult mode_NE x two64).
Proof. intros F. replace (2 * B2R x) with (B2R x * B2R two64) by (rewrite (proj2 two_is); ring). now apply mul_rounds. Qed.
(** doubling never loses a digit *)
Lemma nearest_twice (x : b64) : nearest (2 * B2R x) = 2 * B2R x.
Proof.
  apply round_generic; [apply valid_rnd_N|]. pose proof (generic_format_B2R 53 1024 x) as G. change (SpecFloat.fexp 53 1024) with (FLT_exp (-1074) 53) in G.
  apply FLT_format_generic in G; [|exact H53]. apply generic_format_FLT. destruct G as [f E Hm He]. exists (Float radix2 (Fnum f) (Fexp f + 1)).
  - rewrite E. unfold F2R. cbn [Fnum Fexp]. rewrite bpow_plus. change (bpow radix2 1) with 2. ring.
  - exact Hm.
  - cbn [Fexp]. lia.
Qed.
Lemma twice_exact (x y : b64) : rounds (2 * B2R x) y -> Rabs (2 * B2R x) < bpow radix2 1024 -> exactly (2 * B2R x) y.
Proof. intros [(Hr & F & E)|[Hr _]] H. - split; [assumption|]. now rewrite E, nearest_twice. - rewrite nearest_twice in Hr. lra. Qed.
Lemma d_square_exact x : is_finite x = true -> Rabs (2 * B2R x) < bpow radix2 1024 -> exactly (2 * B2R x) (d_square x).
Proof. intros F. apply twice_exact. now apply twice_rounds. Qed.
Lemma d_mul_same_exact x : is_finite x = true -> Rabs (2 * B2R x) < bpow radix2 1024 -> exactly (2 * B2R x) (d_mul_same x).
Proof. intros F H. destruct (mul_b_exact x F) as [F' E']. unfold d_mul_same. fold (d_mul_b x). rewrite <- E' in *. apply twice_exact; [now apply twice_rounds|assumption]. Qed.
Lemma d_abs_exact x : is_finite x = true -> B2R x <> 0 -> exactly (if Rlt_bool (B2R x) 0 then -1 else 1) (d_abs x).
Proof.
  intros F H. unfold d_abs. rewrite Bltb_correct by auto. cbn [B2R]. repeat case Rlt_bool_spec; intros; try (exfalso; lra).
  - split; [reflexivity|]. rewrite B2R_Bopp, (proj2 one_is). lra.
  - apply one_is.
Qed.
Lemma d_const (same first : bool) : exactly (if same then 2 else 1) (d_add same) /\ exactly (if first then 1 else -1) (d_sub first) /\ exactly (-1) d_neg.
Proof.
  assert (Hm : exactly (-1) (Bopp one64)). { split; [reflexivity|]. rewrite B2R_Bopp, (proj2 one_is). lra. }
  split; [|split; [|exact Hm]].
  - destruct same; [apply two_is|apply one_is].
  - destruct first; [apply one_is|exact Hm].
Qed.
Lemma d_div_1_rounds y : is_finite y = true -> B2R y <> 0 -> rounds (/ B2R y) (d_div_1 y).
Proof. apply recip_rounds. Qed.
Lemma rounds_opp e x : e <> 0 -> rounds e x -> rounds (- e) (Bopp x).
Proof.
  intros Hn [(Hr & F & E)|[Hr ->]]; [left|right]; rewrite nearest_opp, Rabs_Ropp.
  - rewrite is_finite_Bopp, B2R_Bopp, E. auto.
  - split; [assumption|]. cbn. f_equal. case Rlt_bool_spec; case Rlt_bool_spec; intros; try reflexivity; exfalso; lra.
Qed.

(** Two roundings. *)
Definition u : R := bpow radix2 (-53).
Lemma u_val : u = / IZR (2 ^ 53).
Proof. reflexivity. Qed.
Lemma u_small : 0 < u <= / 1000000.
Proof. rewrite u_val. split; [apply Rinv_0_lt_compat; apply IZR_lt; reflexivity|]. apply Rinv_le; [lra|]. apply IZR_le. discriminate. Qed.
Lemma nearest_rel e : bpow radix2 (-1022) <= Rabs e -> exists d, Rabs d <= u /\ nearest e = e * (1 + d).
Proof.
  intros H. destruct (relative_error_N_FLT_ex radix2 (-1074) 53 eq_refl (fun x => negb (Z.even x)) e H) as (d & Hd & E). exists d. split; [|exact E].
  replace u with (/ 2 * bpow radix2 (-53 + 1)); [exact Hd|]. rewrite bpow_plus. fold u. change (bpow radix2 1) with 2. field.
Qed.
Lemma nearest_abs_err e : Rabs e <= bpow radix2 (-1022) -> Rabs (nearest e - e) <= bpow radix2 (-1075).
Proof.
  intros H. destruct (Req_dec e 0) as [->|Hn]. { rewrite nearest_0, Rminus_0_r, Rabs_R0. apply bpow_ge_0. }
  pose proof (error_le_half_ulp radix2 (FLT_exp (-1074) 53) (fun x => negb (Z.even x)) e) as Hu. eapply Rle_trans; [exact Hu|].
  change (bpow radix2 (-1075)) with (bpow radix2 (-1 + -1074)). rewrite bpow_plus. change (bpow radix2 (-1)) with (/ 2). apply Rmult_le_compat_l; [lra|].
  destruct (Req_dec (Rabs e) (bpow radix2 (-1022))) as [E|Hne].
  - rewrite <- ulp_abs, E, ulp_bpow. apply bpow_le. unfold FLT_exp. lia.
  - rewrite ulp_FLT_small; [apply Rle_refl|exact H53|]. change (-1074 + 53)%Z with (-1021)%Z. eapply Rle_lt_trans; [exact H|]. apply bpow_lt. lia.
Qed.
Lemma no_overflow e : Rabs e <= bpow radix2 1023 -> Rabs (nearest e) <= bpow radix2 1023.
Proof. intros H. rewrite <- nearest_abs. rewrite <- (nearest_bpow 1023) by lia. now apply nearest_le. Qed.
Lemma no_overflow2 e : Rabs e < bpow radix2 1023 * (3 / 2) -> Rabs (nearest e) < bpow radix2 1024.
Proof.
  intros H. rewrite <- nearest_abs. apply Rle_lt_trans with (nearest (bpow radix2 1023 * (3 / 2))).
  - apply nearest_le. now apply Rlt_le.
  - replace (bpow radix2 1023 * (3 / 2)) with (F2R (Float radix2 3 1022)).
    + unfold nearest. rewrite round_generic; [|apply valid_rnd_N|]. unfold F2R. cbn [Fnum Fexp]. change 1024%Z with (2 + 1022)%Z. rewrite bpow_plus. change (bpow radix2 2) with 4. pose proof (bpow_gt_0 radix2 1022). lra.
      apply generic_format_FLT. exists (Float radix2 3 1022); cbn; [reflexivity|lia|lia].
    + unfold F2R. cbn [Fnum Fexp]. change 1023%Z with (1 + 1022)%Z. rewrite bpow_plus. change (bpow radix2 1) with 2. lra.
Qed.
Lemma nearest_err e : Rabs (nearest e - e) <= u * Rmax (Rabs e) (bpow radix2 (-1022)).
Proof.
  destruct (Rle_dec (bpow radix2 (-1022)) (Rabs e)) as [H|H].
  - destruct (nearest_rel e H) as (d & Hd & ->). replace (e * (1 + d) - e) with (d * e) by ring. rewrite Rabs_mult.
    pose proof u_small. apply Rmult_le_compat; [apply Rabs_pos..|assumption|apply Rmax_l].
  - apply Rnot_le_lt in H. eapply Rle_trans; [apply nearest_abs_err; now apply Rlt_le|]. rewrite Rmax_right by (now apply Rlt_le). unfold u. rewrite <- bpow_plus. apply bpow_le. lia.
Qed.
(** dividing by something a little off *)
Lemma quotient_close k s (x t : b64) : 0 <= k <= 10 -> is_finite x = true -> is_finite t = true -> s <> 0 -> Rabs (B2R t - s) <= k * u * Rabs s -> normal (B2R x / s) ->
  close (k + 2) (B2R x / s) (Bdiv mode_NE x t).
Proof.
  intros Hk Fx Ft Hs Ht [Hlo Hhi]. pose proof u_small as Hu. set (e := B2R x / s) in *.
  assert (Hku : 0 <= k * u <= / 100000). { split; [nra|]. assert (k * u <= 10 * (/ 1000000)) by (apply Rmult_le_compat; lra). lra. }
  set (d := (B2R t - s) / s). assert (Ed : B2R t = s * (1 + d)) by (unfold d; field; assumption).
  assert (Hd : Rabs d <= k * u).
  { unfold d, Rdiv. rewrite Rabs_mult, Rabs_inv. apply Rmult_le_reg_r with (Rabs s); [now apply Rabs_pos_lt|]. rewrite Rmult_assoc, Rinv_l by (now apply Rabs_no_R0). lra. }
  assert (Hd' : - (k * u) <= d <= k * u) by (now apply Rabs_le_inv).
  assert (Hn : 1 + d <> 0) by (intros E; lra).
  assert (Hti : B2R t <> 0). { rewrite Ed. now apply Rmult_integral_contrapositive_currified. }
  assert (Hq : B2R x / B2R t = e / (1 + d)). { rewrite Ed. unfold e. field. auto. }
  set (q := B2R x / B2R t) in *.
  assert (Hi : 0 < / (1 + d) <= / (1 - k * u)). { split; [apply Rinv_0_lt_compat; lra|]. apply Rinv_le; lra. }
  assert (Hi2 : / (1 - k * u) <= 1 + 2 * (k * u)).
  { apply Rmult_le_reg_l with (1 - k * u); [lra|]. rewrite Rinv_r by lra. nra. }
  assert (Hqa : Rabs q = Rabs e * / (1 + d)). { rewrite Hq. unfold Rdiv. rewrite Rabs_mult, (Rabs_right (/ (1 + d))) by lra. reflexivity. }
  assert (Hqe : Rabs q <= Rabs e * (1 + 2 * (k * u))). { rewrite Hqa. apply Rmult_le_compat_l; [apply Rabs_pos|lra]. }
  assert (Hdq : Rabs (q - e) <= Rabs e * (k * u * (1 + 2 * (k * u)))).
  { rewrite Hq. replace (e / (1 + d) - e) with (e * (- d * / (1 + d))) by (field; assumption). rewrite Rabs_mult. apply Rmult_le_compat_l; [apply Rabs_pos|].
    rewrite Rabs_mult, Rabs_Ropp, (Rabs_right (/ (1 + d))) by lra. apply Rmult_le_compat; [apply Rabs_pos|lra|lra|lra]. }
  assert (Hov : Rabs (nearest q) < bpow radix2 1024).
  { apply no_overflow2. pose proof (bpow_gt_0 radix2 1023). assert (Rabs e * (1 + 2 * (k * u)) <= bpow radix2 1023 * (1 + / 10)); [|lra].
    apply Rmult_le_compat; [apply Rabs_pos|lra|lra|lra]. }
  destruct (div_rounds x t Fx Ft Hti) as [(_ & F & E)|[Hr _]]; [|exfalso; unfold q in Hov; lra]. unfold v_div in *. split; [exact F|]. rewrite E. fold q.
  assert (Hm : Rmax (Rabs q) (bpow radix2 (-1022)) <= Rabs e * (1 + 2 * (k * u))).
  { apply Rmax_lub; [assumption|]. pose proof (Rabs_pos e). assert (Rabs e * 1 <= Rabs e * (1 + 2 * (k * u))) by (apply Rmult_le_compat_l; lra). lra. }
  assert (Hne : Rabs (nearest q - q) <= u * (Rabs e * (1 + 2 * (k * u)))). { eapply Rle_trans; [apply nearest_err|]. apply Rmult_le_compat_l; lra. }
  fold u. replace (nearest q - e) with ((nearest q - q) + (q - e)) by ring. eapply Rle_trans; [apply Rabs_triang|].
  apply Rle_trans with (u * (Rabs e * (1 + 2 * (k * u))) + Rabs e * (k * u * (1 + 2 * (k * u)))); [lra|].
  replace (u * (Rabs e * (1 + 2 * (k * u))) + Rabs e * (k * u * (1 + 2 * (k * u)))) with ((u * ((1 + k) * (1 + 2 * (k * u)))) * Rabs e) by ring.
  apply Rmult_le_compat_r; [apply Rabs_pos|]. rewrite (Rmult_comm (k + 2)). apply Rmult_le_compat_l; [lra|]. nra.
Qed.
Lemma square_pos (x : R) : x <> 0 -> 0 < x * x.
Proof. nra. Qed.
Lemma d_recip_close x : is_finite x = true -> B2R x <> 0 -> normal (- / (B2R x * B2R x)) -> close 4 (- / (B2R x * B2R x)) (d_recip x).
Proof.
  intros F Hn Hnm. unfold normal in Hnm. rewrite Rabs_Ropp in Hnm. set (s := B2R x * B2R x) in *. assert (Hs : 0 < s) by (now apply square_pos).
  assert (Hi : 0 < / s) by (now apply Rinv_0_lt_compat). rewrite Rabs_right in Hnm by lra. destruct Hnm as [Hlo Hhi].
  assert (H1 : s <= bpow radix2 1022). { change 1022%Z with (Z.opp (-1022)). rewrite bpow_opp. rewrite <- (Rinv_inv s). apply Rinv_le; [apply bpow_gt_0|assumption]. }
  assert (H2 : bpow radix2 (-1023) <= s). { change (-1023)%Z with (Z.opp 1023). rewrite bpow_opp. rewrite <- (Rinv_inv s). apply Rinv_le; assumption. }
  assert (Hsq : is_finite (Bmult mode_NE x x) = true /\ B2R (Bmult mode_NE x x) = nearest s).
  { destruct (mul_rounds x x F F) as [(_ & F' & E)|[Hr _]]; [auto|]. exfalso. fold s in Hr. assert (Rabs (nearest s) < bpow radix2 1024); [|lra].
    apply no_overflow2. rewrite Rabs_right by lra. pose proof (bpow_gt_0 radix2 1022). change 1023%Z with (1 + 1022)%Z. rewrite bpow_plus. change (bpow radix2 1) with 2. lra. }
  destruct Hsq as [F' E].
  assert (Hc : close (2 + 2) (B2R one64 / s) (Bdiv mode_NE one64 (Bmult mode_NE x x))).
  { apply quotient_close; [lra|apply one_is|assumption|lra| |].
    - rewrite E. eapply Rle_trans; [apply nearest_err|]. rewrite (Rabs_right s) by lra. pose proof u_small. rewrite (Rmult_comm 2), Rmult_assoc. apply Rmult_le_compat_l; [lra|].
      apply Rmax_lub; [lra|]. change (-1022)%Z with (1 + -1023)%Z. rewrite bpow_plus. change (bpow radix2 1) with 2. lra.
    - rewrite (proj2 one_is). unfold normal, Rdiv. rewrite Rmult_1_l, Rabs_right by lra. auto. }
  rewrite (proj2 one_is) in Hc. unfold Rdiv in Hc. rewrite Rmult_1_l in Hc. destruct Hc as [Fc Hc]. split.
  - unfold d_recip. now rewrite is_finite_Bopp.
  - unfold d_recip. rewrite B2R_Bopp. replace (- B2R (Bdiv mode_NE one64 (Bmult mode_NE x x)) - - / s) with (- (B2R (Bdiv mode_NE one64 (Bmult mode_NE x x)) - / s)) by ring.
    rewrite !Rabs_Ropp. replace 4 with (2 + 2) by ring. exact Hc.
Qed.
Lemma d_div_2_close x y : is_finite x = true -> is_finite y = true -> normal (B2R y * B2R y) -> normal (- B2R x / (B2R y * B2R y)) ->
  close 3 (- B2R x / (B2R y * B2R y)) (d_div_2 x y).
Proof.
  intros Fx Fy [Hlo Hhi] Hq. set (s := B2R y * B2R y) in *. pose proof (bpow_gt_0 radix2 (-1022)) as Hp.
  assert (Hs0 : s <> 0). { intros E. rewrite E, Rabs_R0 in Hlo. lra. }
  assert (Hsq : is_finite (Bmult mode_NE y y) = true /\ B2R (Bmult mode_NE y y) = nearest s).
  { destruct (mul_rounds y y Fy Fy) as [(_ & F' & E)|[Hr _]]; [auto|]. exfalso. fold s in Hr. pose proof (no_overflow s Hhi). assert (bpow radix2 1023 < bpow radix2 1024) by (apply bpow_lt; lia). lra. }
  destruct Hsq as [F' E]. rewrite <- B2R_Bopp in Hq |- *. replace 3 with (1 + 2) by ring. apply quotient_close; [lra|now rewrite is_finite_Bopp|assumption|assumption| |assumption].
  rewrite E, Rmult_1_l. eapply Rle_trans; [apply nearest_err|]. pose proof u_small. apply Rmult_le_compat_l; [lra|]. apply Rmax_lub; lra.
Qed.
Lemma d_arctan_close x : is_finite x = true -> Rabs (B2R x) <= bpow radix2 510 -> close 5 (/ (1 + B2R x * B2R x)) (d_arctan x).
Proof.
  intros F Hx. set (s := B2R x * B2R x). assert (Hs : 0 <= s) by (unfold s; nra).
  assert (Hs' : s <= bpow radix2 1020). { change 1020%Z with (510 + 510)%Z. rewrite bpow_plus. unfold s. pose proof (Rabs_pos (B2R x)). rewrite <- (Rabs_right (B2R x * B2R x)) by (apply Rle_ge; exact Hs). rewrite Rabs_mult. now apply Rmult_le_compat. }
  pose proof u_small as Hu. assert (Hb : 1 <= bpow radix2 1020) by (change 1 with (bpow radix2 0); apply bpow_le; lia).
  assert (Hb2 : bpow radix2 1023 = 8 * bpow radix2 1020). { change 1023%Z with (3 + 1020)%Z. rewrite bpow_plus. reflexivity. }
  assert (Hsm : bpow radix2 (-1022) <= 1) by (change 1 with (bpow radix2 0); apply bpow_le; lia).
  assert (Hsq : is_finite (Bmult mode_NE x x) = true /\ B2R (Bmult mode_NE x x) = nearest s).
  { destruct (mul_rounds x x F F) as [(_ & F' & E)|[Hr _]]; [auto|]. exfalso. fold s in Hr. assert (Rabs (nearest s) < bpow radix2 1024); [|lra]. apply no_overflow2. rewrite Rabs_right by lra. lra. }
  destruct Hsq as [F1 E1].
  assert (H1 : Rabs (nearest s - s) <= u * (1 + s)). { eapply Rle_trans; [apply nearest_err|]. apply Rmult_le_compat_l; [lra|]. rewrite Rabs_right by lra. apply Rmax_lub; lra. }
  assert (H1' : Rabs (nearest s + 1) <= (1 + s) * (1 + u)).
  { replace (nearest s + 1) with ((nearest s - s) + (1 + s)) by ring. eapply Rle_trans; [apply Rabs_triang|]. rewrite (Rabs_right (1 + s)) by lra. lra. }
  assert (Hsum : is_finite (Bplus mode_NE (Bmult mode_NE x x) one64) = true /\ B2R (Bplus mode_NE (Bmult mode_NE x x) one64) = nearest (nearest s + 1)).
  { destruct (add_rounds (Bmult mode_NE x x) one64 F1 (proj1 one_is)) as [(_ & F' & E)|[Hr _]]; rewrite E1, (proj2 one_is) in *; [auto|]. exfalso.
    assert (Rabs (nearest (nearest s + 1)) < bpow radix2 1024); [|lra]. apply no_overflow2. eapply Rle_lt_trans; [exact H1'|]. rewrite Hb2.
    apply Rle_lt_trans with (2 * bpow radix2 1020 * 2); [|lra]. apply Rmult_le_compat; lra. }
  destruct Hsum as [F2 E2].
  assert (H2 : Rabs (nearest (nearest s + 1) - (1 + s)) <= 3 * u * Rabs (1 + s)).
  { rewrite (Rabs_right (1 + s)) by lra. replace (nearest (nearest s + 1) - (1 + s)) with ((nearest (nearest s + 1) - (nearest s + 1)) + (nearest s - s)) by ring.
    eapply Rle_trans; [apply Rabs_triang|]. assert (Hm : Rabs (nearest (nearest s + 1) - (nearest s + 1)) <= u * ((1 + s) * (1 + u))).
    { eapply Rle_trans; [apply nearest_err|]. apply Rmult_le_compat_l; [lra|]. apply Rmax_lub; [assumption|]. nra. }
    assert (u * ((1 + s) * (1 + u)) <= u * ((1 + s) * 2)). { apply Rmult_le_compat_l; [lra|]. apply Rmult_le_compat_l; lra. } lra. }
  unfold d_arctan. replace 5 with (3 + 2) by ring. replace (/ (1 + s)) with (B2R one64 / (1 + s)) by (rewrite (proj2 one_is); unfold Rdiv; apply Rmult_1_l).
  apply quotient_close; [lra|apply one_is|assumption|lra|now rewrite E2|]. rewrite (proj2 one_is). unfold normal, Rdiv. rewrite Rmult_1_l.
  rewrite Rabs_right; [|apply Rle_ge, Rlt_le, Rinv_0_lt_compat; lra]. split.
  - change (-1022)%Z with (Z.opp 1022). rewrite bpow_opp. apply Rinv_le; [lra|]. change 1022%Z with (2 + 1020)%Z. rewrite bpow_plus. change (bpow radix2 2) with 4. lra.
  - apply Rle_trans with (/ 1); [apply Rinv_le; lra|]. lra.
Qed.

(** Powers. *)
Section powers.
Context (P : b64 -> b64 -> b64) (HP : power_of P).
Lemma power_in_range x s : is_finite x = true -> is_finite s = true -> 0 < B2R x -> Rabs (nearest (Rpower (B2R x) (B2R s))) < bpow radix2 1024 ->
  rounds (Rpower (B2R x) (B2R s)) (v_power P x s).
Proof.
  intros Fx Fs Hx Hr. destruct (HP x s Fx Fs) as [H _]. specialize (H Hx). unfold v_power, safe_power. destruct H as [(H1 & F & E)|[H1 _]]; [|exfalso; lra].
  replace (is_inf (P x s)) with false by (now destruct (P x s)). left. auto.
Qed.
Lemma power_beyond x s : is_finite x = true -> is_finite s = true -> 0 < B2R x -> bpow radix2 1024 <= Rabs (nearest (Rpower (B2R x) (B2R s))) ->
  exactly 0 (v_power P x s).
Proof.
  intros Fx Fs Hx Hr. destruct (HP x s Fx Fs) as [H _]. specialize (H Hx). unfold v_power, safe_power. destruct H as [(H1 & _)|[_ E]]; [exfalso; lra|]. rewrite E. now split.
Qed.
Lemma power_pole x s : is_finite x = true -> is_finite s = true -> B2R x = 0 -> B2R s < 0 -> exactly 0 (v_power P x s).
Proof. intros Fx Fs Hx Hs. destruct (HP x s Fx Fs) as [_ H]. unfold v_power, safe_power. rewrite H by assumption. now split. Qed.
Lemma b64_pos (x : b64) : is_finite x = true -> 0 < B2R x -> bpow radix2 (-1074) <= B2R x < bpow radix2 1024.
Proof.
  intros F H. split.
  - pose proof (abs_B2R_ge_emin 53 1024 x) as G. rewrite Rabs_right in G by lra. apply G. destruct x; try discriminate; [cbn in H; lra|reflexivity].
  - pose proof (abs_B2R_lt_emax 53 1024 x) as G. now rewrite Rabs_right in G by lra.
Qed.
Lemma minus_half_is : is_finite (Bopp half64) = true /\ B2R (Bopp half64) = - / 2.
Proof. split; [reflexivity|]. now rewrite B2R_Bopp, (proj2 half_is). Qed.
Lemma nearest_half_bound e : bpow radix2 (-1000) <= Rabs e <= bpow radix2 1000 -> bpow radix2 (-1001) <= Rabs (nearest e).
Proof.
  intros [H _]. rewrite <- nearest_abs. apply Rle_trans with (nearest (bpow radix2 (-1000))); [rewrite nearest_bpow by lia; apply bpow_le; lia|now apply nearest_le].
Qed.
(** halving a number that stays in the normal range loses nothing *)
Lemma nearest_halve (x : b64) : bpow radix2 (-1001) <= Rabs (B2R x) -> nearest (/ 2 * B2R x) = / 2 * B2R x.
Proof.
  intros H. apply round_generic; [apply valid_rnd_N|]. pose proof (generic_format_B2R 53 1024 x) as G. change (SpecFloat.fexp 53 1024) with (FLT_exp (-1074) 53) in G.
  apply FLT_format_generic in G; [|exact H53]. apply generic_format_FLT. destruct G as [f E Hm He]. exists (Float radix2 (Fnum f) (Fexp f - 1)).
  - rewrite E. unfold F2R. cbn [Fnum Fexp]. unfold Z.sub. rewrite bpow_plus. change (bpow radix2 (- (1))) with (/ 2). ring.
  - exact Hm.
  - cbn [Fexp]. assert (Fexp f <> -1074)%Z; [|lia]. intros Hf. rewrite E in H. unfold F2R in H. rewrite Hf, Rabs_mult, (Rabs_right (bpow radix2 (-1074))) in H by (apply Rle_ge, bpow_ge_0).
    rewrite <- abs_IZR in H. assert (IZR (Z.abs (Fnum f)) <= bpow radix2 53) by (rewrite <- (IZR_Zpower radix2 53) by lia; apply IZR_le; now apply Z.lt_le_incl).
    assert (IZR (Z.abs (Fnum f)) * bpow radix2 (-1074) <= bpow radix2 53 * bpow radix2 (-1074)) by (apply Rmult_le_compat_r; [apply bpow_ge_0|assumption]).
    rewrite <- bpow_plus in *. assert (bpow radix2 (53 + -1074) < bpow radix2 (-1001)) by (apply bpow_lt; lia). lra.
Qed.
Lemma d_sqrt_close x : is_finite x = true -> 0 < B2R x -> close 1 (/ (2 * R_sqrt.sqrt (B2R x))) (d_sqrt P x).
Proof.
  intros F Hx. destruct minus_half_is as [Fh Eh]. destruct (HP x (Bopp half64) F Fh) as [H _]. specialize (H Hx). rewrite Eh in H.
  assert (Er : Rpower (B2R x) (- / 2) = / R_sqrt.sqrt (B2R x)). { rewrite Rpower_Ropp. f_equal. apply Rpower_sqrt. assumption. }
  rewrite Er in H. clear Er. set (e := / R_sqrt.sqrt (B2R x)) in *. destruct (b64_pos x F Hx) as [Hlo Hhi].
  assert (Hsp : 0 < R_sqrt.sqrt (B2R x)) by (now apply sqrt_lt_R0). assert (He : 0 < e) by (now apply Rinv_0_lt_compat).
  assert (Hb : bpow radix2 (-1000) <= Rabs e <= bpow radix2 1000).
  { rewrite Rabs_right by lra. unfold e. split.
    - apply Rle_trans with (bpow radix2 (Z.opp 512)); [apply bpow_le; lia|]. rewrite bpow_opp. apply Rinv_le; [assumption|]. rewrite <- (sqrt_Rsqr (bpow radix2 512)) by apply bpow_ge_0.
      apply sqrt_le_1_alt. unfold Rsqr. rewrite <- bpow_plus. now apply Rlt_le.
    - apply Rle_trans with (bpow radix2 (Z.opp (-537))); [|apply bpow_le; lia]. rewrite bpow_opp. apply Rinv_le; [apply bpow_gt_0|]. rewrite <- (sqrt_Rsqr (bpow radix2 (-537))) by apply bpow_ge_0.
      apply sqrt_le_1_alt. unfold Rsqr. now rewrite <- bpow_plus. }
  assert (Hr : Rabs (nearest e) < bpow radix2 1024). { eapply Rle_lt_trans; [apply no_overflow; eapply Rle_trans; [apply Hb|]; apply bpow_le; lia|apply bpow_lt; lia]. }
  destruct H as [(_ & Fp & Ep)|[H _]]; [|exfalso; lra].
  assert (Hmp : my_power P x (Bopp half64) = P x (Bopp half64)). { unfold my_power. now destruct (P x (Bopp half64)). }
  unfold d_sqrt. rewrite Hmp. set (p := P x (Bopp half64)) in *.
  assert (Hh : nearest (/ 2 * B2R p) = / 2 * B2R p). { apply nearest_halve. rewrite Ep. now apply nearest_half_bound. }
  assert (Hex : exactly (/ 2 * B2R p) (Bmult mode_NE half64 p)).
  { destruct (mul_rounds half64 p (proj1 half_is) Fp) as [(_ & F' & E)|[Ho _]]; rewrite (proj2 half_is), Hh in *; [now split|]. exfalso.
    rewrite Rabs_mult, Ep, (Rabs_right (/ 2)) in Ho by lra. pose proof (Rabs_pos (nearest e)). lra. }
  destruct Hex as [F' E]. split; [exact F'|]. rewrite E, Ep. replace (/ (2 * R_sqrt.sqrt (B2R x))) with (/ 2 * e) by (unfold e; field; lra).
  replace (/ 2 * nearest e - / 2 * e) with (/ 2 * (nearest e - e)) by ring. rewrite !Rabs_mult. fold u. pose proof (nearest_err e) as Hn.
  rewrite Rmax_left in Hn by (eapply Rle_trans; [|apply Hb]; apply bpow_le; lia). rewrite (Rabs_right (/ 2)) by lra. lra.
Qed.
Lemma d_sqrt_zero x : is_finite x = true -> B2R x = 0 -> is_finite (d_sqrt P x) = true.
Proof.
  intros F Hx. destruct minus_half_is as [Fh Eh]. destruct (HP x (Bopp half64) F Fh) as [_ H]. unfold d_sqrt, my_power. rewrite H; [|assumption|lra]. vm_compute. reflexivity.
Qed.
Lemma half_minus_one : B2R (Bminus mode_NE half64 one64) = - / 2 /\ is_finite (Bminus mode_NE half64 one64) = true.
Proof.
  split; [|vm_compute; reflexivity]. rewrite (B2R_by _ true (2 ^ 52) (-53)) by (vm_compute; reflexivity). change (-53)%Z with (-1 + -52)%Z.
  rewrite bpow_plus. change (bpow radix2 (-1)) with (/ 2). pose proof (bpow_inv 52) as H. cbn [SpecFloat.cond_Zopp]. change (- Zpos (2 ^ 52))%Z with (- 2 ^ 52)%Z. rewrite opp_IZR. nra.
Qed.
Lemma d_power_zero x : is_finite x = true -> B2R x = 0 -> exactly 0 (d_power P x half64).
Proof.
  intros F Hx. destruct half_minus_one as [E Fm]. destruct (HP x _ F Fm) as [_ H]. unfold d_power, safe_power. rewrite H; [|assumption|rewrite E; lra]. now split.
Qed.
End powers.

(** sqrt has no derivative at zero. *)
Lemma sqrt_no_derivative l : ~ derivable_pt_lim R_sqrt.sqrt 0 l.
Proof.
  intros H. destruct (H 1 Rlt_0_1) as [[d Hd] Hl]. cbn in Hl. set (b := Rabs l + 2). assert (Hb : 2 <= b) by (unfold b; pose proof (Rabs_pos l); lra).
  set (r := Rmin (/ b) (Rmin 1 (d / 2))). assert (Hr : 0 < r) by (unfold r; repeat apply Rmin_pos; try lra; apply Rinv_0_lt_compat; lra).
  assert (H1 : r <= / b) by apply Rmin_l. assert (H2 : r <= 1) by (unfold r; eapply Rle_trans; [apply Rmin_r|apply Rmin_l]). assert (H3 : r <= d / 2) by (unfold r; eapply Rle_trans; [apply Rmin_r|apply Rmin_r]).
  assert (Hh : 0 < r * r) by nra. specialize (Hl (r * r)). rewrite Rplus_0_l, sqrt_0, Rminus_0_r, sqrt_square in Hl by lra.
  assert (Hq : r / (r * r) = / r) by (field; lra). rewrite Hq in Hl. assert (Hi : b <= / r). { rewrite <- (Rinv_inv b). apply Rinv_le; lra. }
  assert (Rabs (/ r - l) < 1). { apply Hl; [lra|]. rewrite Rabs_right by lra. nra. }
  assert (/ r - l < 1) by (eapply Rle_lt_trans; [apply Rle_abs|assumption]). pose proof (Rle_abs l). unfold b in Hi. lra.
Qed.

(** Some power rounds as asked. *)
Definition to64 (e : R) : b64 :=
  if Rlt_bool (Rabs (nearest e)) (bpow radix2 1024)
  then binary_normalize 53 1024 H53 H1024 mode_NE (ZnearestE (scaled_mantissa radix2 (FLT_exp (-1074) 53) e)) (cexp radix2 (FLT_exp (-1074) 53) e) false
  else B754_infinity (Rlt_bool e 0).
Lemma to64_rounds e : rounds e (to64 e).
Proof.
  unfold to64. case Rlt_bool_spec; intros Hr; [left|right; auto]. split; [assumption|].
  pose proof (binary_normalize_correct 53 1024 H53 H1024 mode_NE (ZnearestE (scaled_mantissa radix2 (FLT_exp (-1074) 53) e)) (cexp radix2 (FLT_exp (-1074) 53) e) false) as H.
  cbv zeta in H. change (F2R _) with (nearest e) in H. rewrite rnd_nearest in H.
  assert (Hi : nearest (nearest e) = nearest e). { apply round_generic; [apply valid_rnd_N|]. apply generic_format_round; [apply flt_valid|apply valid_rnd_N]. }
  rewrite Hi, Rlt_bool_true in H by assumption. destruct H as (E & F & _). auto.
Qed.
Definition some_power (x s : b64) : b64 :=
  if Rlt_bool 0 (B2R x) then to64 (Rpower (B2R x) (B2R s)) else if Rlt_bool (B2R s) 0 then B754_infinity false else B754_nan.
Lemma some_power_ok : power_of some_power.
Proof.
  intros x s _ _. unfold some_power. split.
  - intros H. rewrite Rlt_bool_true by assumption. apply to64_rounds.
  - intros H Hs. rewrite Rlt_bool_false by lra. now rewrite Rlt_bool_true by assumption.
Qed.
