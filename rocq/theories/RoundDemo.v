(** Concrete numbers for the rounding properties. *)
From Coq Require Import ZArith Reals Lra Lia Bool.
From Flocq Require Import Core IEEE754.BinarySingleNaN.
From Verif Require Import Dog64 RoundModel RoundSpec RoundThms.
Local Open Scope R_scope.

Definition big600 : b64 := of_int (2 ^ 600).
Definition big1000 : b64 := of_int (2 ^ 1000).
Definition tiny600 : b64 := Bdiv mode_NE one64 big600.
Lemma bpow_of (x : b64) k : B2SF x = SpecFloat.S754_finite false (2 ^ 52) k -> B2R x = bpow radix2 (k + 52).
Proof.
  intros E. rewrite (B2R_by _ _ _ _ E). rewrite Z.add_comm, bpow_plus. f_equal.
Qed.
Lemma big600_is : is_finite big600 = true /\ B2R big600 = bpow radix2 600.
Proof. split; [vm_compute; reflexivity|]. now rewrite (bpow_of _ 548) by (vm_compute; reflexivity). Qed.
Lemma big1000_is : is_finite big1000 = true /\ B2R big1000 = bpow radix2 1000.
Proof. split; [vm_compute; reflexivity|]. now rewrite (bpow_of _ 948) by (vm_compute; reflexivity). Qed.
Lemma tiny600_is : is_finite tiny600 = true /\ B2R tiny600 = bpow radix2 (-600).
Proof. split; [vm_compute; reflexivity|]. now rewrite (bpow_of _ (-652)) by (vm_compute; reflexivity). Qed.

(** 2^1000 / 2^600 with respect to the divisor: -2^-200, read as 0. *)
Lemma divide_vanishes : exists x y, is_finite x = true /\ is_finite y = true /\ - B2R x / (B2R y * B2R y) = - bpow radix2 (-200) /\ exactly 0 (d_div_2 x y).
Proof.
  exists big1000, big600. destruct big600_is as [F1 E1], big1000_is as [F2 E2]. rewrite E1, E2. split; [assumption|split; [assumption|split]].
  - rewrite <- bpow_plus. unfold Rdiv. rewrite <- bpow_opp, Ropp_mult_distr_l_reverse, <- bpow_plus. reflexivity.
  - split; [vm_compute; reflexivity|]. now replace (d_div_2 big1000 big600) with (B754_zero true : b64) by (apply B2SF_inj; vm_compute; reflexivity).
Qed.
(** 2^-600 / 2^-600 with respect to the divisor: -2^600, read as minus infinity. *)
Lemma divide_blows_up : exists x y, is_finite x = true /\ is_finite y = true /\ - B2R x / (B2R y * B2R y) = - bpow radix2 600 /\ d_div_2 x y = B754_infinity true.
Proof.
  exists tiny600, tiny600. destruct tiny600_is as [F1 E1]. rewrite E1. split; [assumption|split; [assumption|split]].
  - rewrite <- bpow_plus. unfold Rdiv. rewrite <- bpow_opp, Ropp_mult_distr_l_reverse, <- bpow_plus. reflexivity.
  - apply B2SF_inj. vm_compute. reflexivity.
Qed.
(** (2^600)^2 reads as 0 from power and as infinity from square. *)
Lemma power_vanishes P : power_of P -> exists x, is_finite x = true /\ 0 < B2R x /\ Rpower (B2R x) 2 = B2R x * B2R x /\ exactly 0 (v_power P x two64) /\ visible (v_square x).
Proof.
  intros HP. exists big600. destruct big600_is as [F E]. assert (Hp : 0 < B2R big600) by (rewrite E; apply bpow_gt_0).
  assert (Hr : Rpower (B2R big600) 2 = B2R big600 * B2R big600). { change 2 with (1 + 1) at 1. rewrite Rpower_plus, Rpower_1 by assumption. reflexivity. }
  split; [assumption|split; [assumption|split; [assumption|split]]].
  - apply power_beyond; [assumption|assumption|apply two_is|assumption|]. rewrite (proj2 two_is), Hr, E, <- bpow_plus. change (600 + 600)%Z with 1200%Z. rewrite nearest_bpow by lia.
    rewrite Rabs_right by (apply Rle_ge, bpow_ge_0). apply bpow_le. lia.
  - vm_compute. reflexivity.
Qed.
(** arcsin at 1 - 2^-27: half of the digits of the derivative are lost. *)
Definition near_one : b64 := Bminus mode_NE one64 (Bdiv mode_NE one64 (of_int (2 ^ 27))).
Lemma near_one_is : is_finite near_one = true /\ B2R near_one = 1 - bpow radix2 (-27).
Proof.
  split; [vm_compute; reflexivity|]. rewrite (B2R_by _ false (2 ^ 53 - 2 ^ 26) (-53)) by (vm_compute; reflexivity). cbn [SpecFloat.cond_Zopp].
  change (Zpos (2 ^ 53 - 2 ^ 26)) with (2 ^ 53 - 2 ^ 26)%Z. rewrite minus_IZR. change (2 ^ 53)%Z with (radix2 ^ 53)%Z. change (2 ^ 26)%Z with (radix2 ^ 26)%Z. rewrite !IZR_Zpower by lia.
  rewrite Rmult_minus_distr_r, <- !bpow_plus. reflexivity.
Qed.
Lemma arcsin_near_one : B2R (d_arcsin near_one) = bpow radix2 13.
Proof. now rewrite (bpow_of _ (-39)) by (vm_compute; reflexivity). Qed.
Lemma arcsin_loses : exists x, is_finite x = true /\ -1 < B2R x < 1 /\ ~ close (bpow radix2 23) (/ R_sqrt.sqrt (1 - B2R x * B2R x)) (d_arcsin x).
Proof.
  exists near_one. destruct near_one_is as [F E]. set (a := bpow radix2 (-27)) in *.
  assert (Ha : a = / 134217728) by reflexivity. split; [assumption|split; [rewrite E, Ha; lra|]]. intros [_ H]. rewrite arcsin_near_one, E in H.
  assert (Et : 1 - (1 - a) * (1 - a) = a * 2 - a * a) by ring. rewrite Et in H. set (t := a * 2 - a * a) in *. assert (Ht : 0 < t) by (unfold t; rewrite Ha; lra).
  set (r := R_sqrt.sqrt t) in *. assert (Hr : 0 < r) by (now apply sqrt_lt_R0). assert (Hrr : r * r = t) by (apply sqrt_sqrt; lra).
  rewrite (Rabs_right (/ r)) in H by (apply Rle_ge, Rlt_le; now apply Rinv_0_lt_compat). change (bpow radix2 13) with 8192 in H.
  assert (Hk : bpow radix2 23 * bpow radix2 (-53) = / 1073741824) by (rewrite <- bpow_plus; reflexivity). rewrite Hk in H.
  assert (H2 : Rabs (8192 * r - 1) <= / 1073741824).
  { replace (8192 * r - 1) with ((8192 - / r) * r) by (field; lra). rewrite Rabs_mult, (Rabs_right r) by lra. apply Rmult_le_reg_r with (/ r); [now apply Rinv_0_lt_compat|]. rewrite Rmult_assoc, Rinv_r by lra. lra. }
  apply Rabs_le_inv in H2. assert (Hlo : 1 - / 1073741824 <= 8192 * r) by lra.
  assert ((1 - / 1073741824) * (1 - / 1073741824) <= (8192 * r) * (8192 * r)) by (apply Rmult_le_compat; lra).
  assert ((8192 * r) * (8192 * r) = 67108864 * t) by (rewrite <- Hrr; ring). unfold t in *. rewrite Ha in *. lra.
Qed.
Lemma normal_bpow k : (-1022 <= k <= 1023)%Z -> normal (bpow radix2 k) /\ normal (- bpow radix2 k).
Proof. intros H. unfold normal. rewrite Rabs_Ropp, Rabs_right by (apply Rle_ge, bpow_ge_0). repeat split; apply bpow_le; lia. Qed.
