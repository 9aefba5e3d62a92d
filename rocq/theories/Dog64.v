(** IEEE binary64 numbers (Flocq's) for the optimizer. *)
From Coq Require Import ZArith Reals Lra Lia.
From Flocq Require Import Core IEEE754.BinarySingleNaN.
From Verif Require Import DogModel DogSpec.

Definition b64 : Type := binary_float 53 1024.
Definition H53 : Prec_gt_0 53 := eq_refl.
Definition H1024 : Prec_lt_emax 53 1024 := eq_refl.
Global Existing Instance H53. Global Existing Instance H1024.
(** the number nearest to m/n *)
Definition of_int (m : Z) : b64 := binary_normalize 53 1024 H53 H1024 mode_NE m 0 false.
Definition ratio (m n : Z) : b64 := Bdiv mode_NE (of_int m) (of_int n).
Definition f64 : num := {|
  K := b64; kle := Bleb; klt := Bltb;
  kadd := Bplus mode_NE; ksub := Bminus mode_NE; kmul := Bmult mode_NE; kdiv := Bdiv mode_NE; ksqrt := Bsqrt mode_NE;
  k0 := B754_zero false; k2 := of_int 2; k005 := ratio 5 100; k09 := ratio 9 10; k25 := ratio 25 10; k025 := ratio 25 100
|}.
Definition nan64 (x : b64) : Prop := is_nan x = true.
Definition fin64 (x : b64) : Prop := is_finite x = true.

Ltac infs := repeat match goal with
  | x : b64 |- _ => destruct x as [[]|[]| |[] ? ? ?]; try discriminate
  end.
Notation fexp64 := (SpecFloat.fexp 53 1024).
Notation rnd := (round radix2 fexp64 (round_mode mode_NE)).

Lemma lt_fin x y : fin64 x -> fin64 y -> Bltb x y = true <-> (B2R x < B2R y)%R.
Proof. intros Hx Hy. rewrite Bltb_correct by assumption. case Rlt_bool_spec; intros H; split; try easy; lra. Qed.
Lemma lt_fin_false x y : fin64 x -> fin64 y -> Bltb x y = false <-> (B2R y <= B2R x)%R.
Proof. intros Hx Hy. rewrite Bltb_correct by assumption. case Rlt_bool_spec; intros H; split; try easy; lra. Qed.
Lemma le_fin x y : fin64 x -> fin64 y -> Bleb x y = true <-> (B2R x <= B2R y)%R.
Proof. intros Hx Hy. rewrite Bleb_correct by assumption. case Rle_bool_spec; intros H; split; try easy; lra. Qed.
(** comparing with what is not finite *)
Lemma fin_or x : fin64 x \/ x = B754_nan \/ x = B754_infinity true \/ x = B754_infinity false.
Proof. destruct x as [|[]| |]; auto; now left. Qed.
Lemma lt_nan_l y : Bltb (B754_nan : b64) y = false.
Proof. reflexivity. Qed.
Lemma lt_nan_r x : Bltb x (B754_nan : b64) = false.
Proof. now destruct x as [|[]| |[]]. Qed.
Lemma lt_inf_l y : Bltb (B754_infinity false : b64) y = false.
Proof. now destruct y as [|[]| |[]]. Qed.
Lemma lt_inf_r x : fin64 x -> Bltb x (B754_infinity false : b64) = true.
Proof. now destruct x as [|[]| |[]]. Qed.
Lemma lt_ninf_l y : fin64 y -> Bltb (B754_infinity true : b64) y = true.
Proof. now destruct y as [|[]| |[]]. Qed.
Lemma lt_ninf_r x : Bltb x (B754_infinity true : b64) = false.
Proof. now destruct x as [|[]| |[]]. Qed.
Lemma lt_trans64 (x y z : b64) : Bltb x y = true -> Bltb y z = true -> Bltb x z = true.
Proof.
  intros H1 H2. destruct (fin_or x) as [Fx|[->|[->| ->]]].
  - destruct (fin_or y) as [Fy|[->|[->| ->]]].
    + destruct (fin_or z) as [Fz|[->|[->| ->]]].
      * apply lt_fin in H1; [|assumption..]. apply lt_fin in H2; [|assumption..]. apply lt_fin; [assumption..|lra].
      * now rewrite lt_nan_r in H2.
      * now rewrite lt_ninf_r in H2.
      * now apply lt_inf_r.
    + now rewrite lt_nan_r in H1.
    + now rewrite lt_ninf_r in H1.
    + now rewrite lt_inf_l in H2.
  - discriminate.
  - destruct (fin_or z) as [Fz|[->|[->| ->]]].
    + now apply lt_ninf_l.
    + now rewrite lt_nan_r in H2.
    + now rewrite lt_ninf_r in H2.
    + reflexivity.
  - now rewrite lt_inf_l in H1.
Qed.
Lemma overflow_sign s (x : b64) : B2SF x = binary_overflow 53 1024 mode_NE s -> x = B754_infinity s.
Proof. destruct x as [|s'| |]; try discriminate. unfold binary_overflow, overflow_to_inf. now intros [= ->]. Qed.
Lemma rnd_0 : rnd 0 = 0%R.
Proof. apply round_0. apply valid_rnd_N. Qed.
Lemma rnd_le x y : (x <= y)%R -> (rnd x <= rnd y)%R.
Proof. apply round_le. apply fexp_correct. exact H53. apply valid_rnd_N. Qed.
Lemma sub_pos64 (x y : b64) : Bltb (B754_zero false) (Bminus mode_NE x y) = true -> Bltb y x = true.
Proof.
  intros H. destruct (fin_or x) as [Fx|[->|[->| ->]]].
  - destruct (fin_or y) as [Fy|[->|[->| ->]]].
    + generalize (Bminus_correct 53 1024 _ _ mode_NE x y Fx Fy). case Rlt_bool_spec; intros Hr.
      * intros (E & F & _). apply lt_fin in H; [|reflexivity|assumption]. simpl B2R in H at 1. rewrite E in H. apply lt_fin; [assumption..|].
        destruct (Rlt_dec (B2R y) (B2R x)); [assumption|]. exfalso. assert (rnd (B2R x - B2R y) <= rnd 0)%R by (apply rnd_le; lra). rewrite rnd_0 in *. lra.
      * intros (E & Es). apply overflow_sign in E. rewrite E in H. destruct (Bsign x) eqn:Sx; [discriminate|].
        assert (Sy : Bsign y = true) by (now destruct (Bsign y)). apply lt_fin; [assumption..|].
        assert (B2R y <= 0 <= B2R x)%R.
        { split; [destruct y as [| | |[] ? ? ?]|destruct x as [| | |[] ? ? ?]]; simpl in *; try discriminate; try lra; [apply Rlt_le, F2R_lt_0|apply Rlt_le, F2R_gt_0]; reflexivity. }
        destruct (Rlt_dec (B2R y) (B2R x)); [assumption|]. exfalso. replace (B2R x - B2R y)%R with 0%R in Hr by lra. rewrite rnd_0, Rabs_R0 in Hr. pose proof (bpow_gt_0 radix2 1024). lra.
    + now destruct x as [| | |[]].
    + now apply lt_ninf_l.
    + now destruct x as [| | |[]].
  - discriminate.
  - now destruct y as [|[]| |[]].
  - destruct y as [|[]| |[]]; try easy; now apply lt_inf_r.
Qed.
Lemma ordered64 : ordered f64.
Proof. split; [exact lt_trans64|exact sub_pos64]. Qed.

(** the constants *)
Lemma const_fin : fin64 (ratio 5 100) /\ fin64 (ratio 9 10) /\ fin64 (ratio 25 100).
Proof. split; [|split]; vm_compute; reflexivity. Qed.
Lemma const_pos : Bltb (B754_zero false) (ratio 5 100) = true /\ Bltb (B754_zero false) (ratio 9 10) = true.
Proof. split; vm_compute; reflexivity. Qed.
Lemma quarter_is : B2R (ratio 25 100) = (1 / 4)%R.
Proof.
  assert (E : B2SF (ratio 25 100) = SpecFloat.S754_finite false 4503599627370496%positive (-54)%Z) by (vm_compute; reflexivity).
  destruct (ratio 25 100) as [| | |s m e Hb]; try discriminate. simpl in E. injection E as -> -> ->. unfold B2R, F2R. simpl cond_Zopp. simpl Fnum. simpl Fexp.
  replace (bpow radix2 (-54)) with (/ IZR (2 ^ 54))%R by reflexivity. simpl. lra.
Qed.
Lemma ratio64 (x : b64) : ~ nan64 x -> Bltb (B754_zero false) x = false -> Bltb x (ratio 5 100) = true /\ Bltb (ratio 9 10) x = false.
Proof.
  destruct const_fin as (F1 & F2 & _). destruct const_pos as [P1 P2]. intros Hn H. apply lt_fin in P1; [|reflexivity|assumption]. apply lt_fin in P2; [|reflexivity|assumption]. simpl B2R in P1 at 1. simpl B2R in P2 at 1.
  destruct (fin_or x) as [Fx|[->|[->| ->]]].
  - apply lt_fin_false in H; [|reflexivity|assumption]. simpl B2R in H at 2. split; [apply lt_fin; [assumption..|lra]|apply lt_fin_false; [assumption..|lra]].
  - now elim Hn.
  - split; [now apply lt_ninf_l|apply lt_ninf_r].
  - discriminate.
Qed.
(** quartering *)
Lemma quarter_fin (d : b64) : fin64 d -> fin64 (Bmult mode_NE d (ratio 25 100)) /\ (Rabs (B2R (Bmult mode_NE d (ratio 25 100))) <= Rabs (B2R d) / 2)%R.
Proof.
  intros Fd. destruct const_fin as (_ & _ & F). generalize (Bmult_correct 53 1024 _ _ mode_NE d (ratio 25 100)). rewrite quarter_is.
  assert (B : (Rabs (rnd (B2R d * (1 / 4))) <= Rabs (B2R d) / 2)%R).
  { set (y := (B2R d * (1 / 4))%R). destruct (round_N_pt radix2 fexp64 (fun x => negb (Z.even x)) y) as [_ Hn].
    specialize (Hn 0%R (generic_format_0 radix2 fexp64)). change (round radix2 fexp64 (Znearest _) y) with (rnd y) in Hn.
    assert (Ey : (Rabs y = Rabs (B2R d) * (1 / 4))%R) by (unfold y; rewrite Rabs_mult, (Rabs_pos_eq (1 / 4)) by lra; reflexivity).
    assert (T : (Rabs (rnd y) <= Rabs (rnd y - y) + Rabs y)%R). { replace (rnd y) with ((rnd y - y) + y)%R at 1 by ring. apply Rabs_triang. }
    rewrite Rminus_0_l, Rabs_Ropp in Hn. lra. }
  case Rlt_bool_spec; intros Hr.
  - intros (E & Ff & _). split; [unfold fin64; rewrite Ff; now rewrite Fd, F|]. rewrite E. exact B.
  - exfalso. pose proof (abs_B2R_lt_emax 53 1024 d). pose proof (Rabs_pos (B2R d)). lra.
Qed.
Lemma quartered_fin n (d : b64) : fin64 d -> fin64 (quartered f64 n d) /\ (Rabs (B2R (quartered f64 n d)) <= Rabs (B2R d) / 2 ^ n)%R.
Proof.
  intros Fd. induction n as [|n [IH1 IH2]]; [split; [exact Fd|]; simpl; lra|].
  change (quartered f64 (S n) d) with (Bmult mode_NE (quartered f64 n d) (ratio 25 100)). destruct (quarter_fin _ IH1) as [H1 H2]. split; [exact H1|].
  simpl pow. assert (0 < 2 ^ n)%R by (apply pow_lt; lra). apply (Rle_trans _ _ _ H2). replace (Rabs (B2R d) / (2 * 2 ^ n))%R with (Rabs (B2R d) / 2 ^ n / 2)%R by (field; lra). lra.
Qed.
Lemma tiny (x : b64) : fin64 x -> (Rabs (B2R x) < bpow radix2 (-1074))%R -> B2R x = 0%R.
Proof.
  intros Fx H. destruct (Req_dec (B2R x) 0); [assumption|]. exfalso. pose proof (abs_B2R_ge_emin 53 1024 x) as G.
  assert (Fs : is_finite_strict x = true). { destruct x as [| | |]; try easy; try (simpl in *; lra). }
  specialize (G Fs). change (SpecFloat.emin 53 1024) with (-1074)%Z in G. lra.
Qed.
Lemma radius64 (d : b64) : fin64 d -> exists n, forall k, (n <= k)%nat -> forall t, Bleb (B754_zero false) t = true -> Bleb (quartered f64 k d) t = true.
Proof.
  intros Fd. assert (exists n, (Rabs (B2R d) / 2 ^ n < bpow radix2 (-1074))%R) as [n Hn].
  { pose proof (bpow_gt_0 radix2 (-1074)) as Hb. destruct (Rle_lt_or_eq_dec 0 (Rabs (B2R d)) (Rabs_pos _)) as [Hp|Hz].
    - destruct (Pow_x_infinity 2 ltac:(rewrite Rabs_pos_eq; lra) (Rabs (B2R d) / bpow radix2 (-1074) + 1)%R) as [n Hn]. exists n. specialize (Hn n (le_n n)).
      assert (0 < 2 ^ n)%R by (apply pow_lt; lra). rewrite Rabs_pos_eq in Hn by lra. apply Rmult_lt_reg_r with (2 ^ n)%R; [assumption|].
      unfold Rdiv at 1. rewrite Rmult_assoc, Rinv_l, Rmult_1_r by lra. apply Rmult_lt_reg_r with (/ bpow radix2 (-1074))%R; [now apply Rinv_0_lt_compat|].
      rewrite (Rmult_comm (bpow _ _)), Rmult_assoc, Rinv_r, Rmult_1_r by lra. unfold Rdiv in Hn. lra.
    - exists 0%nat. rewrite <- Hz. simpl. unfold Rdiv. rewrite Rmult_0_l. exact Hb. }
  exists n. intros k Hk t Ht. destruct (quartered_fin k d Fd) as [Fq Bq]. assert (Z : B2R (quartered f64 k d) = 0%R).
  { apply tiny; [exact Fq|]. apply (Rle_lt_trans _ _ _ Bq). apply Rle_lt_trans with (2 := Hn). unfold Rdiv. apply Rmult_le_compat_l; [apply Rabs_pos|].
    apply Rinv_le_contravar; [apply pow_lt; lra|]. apply Rle_pow; [lra|exact Hk]. }
  destruct (fin_or t) as [Ft|[->|[->| ->]]].
  - apply le_fin in Ht; [|reflexivity|assumption]. apply le_fin; [assumption..|]. simpl B2R in Ht at 1. lra.
  - discriminate.
  - discriminate.
  - unfold fin64 in Fq. destruct (quartered f64 k d) as [|[]| |[]]; easy.
Qed.
Lemma shrinking64 : shrinking f64 nan64 fin64.
Proof. split; [exact ratio64|exact radius64]. Qed.
