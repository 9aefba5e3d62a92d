(** C66: elementwise values and derivatives in double precision. *)
From Coq Require Import ZArith Reals Lra Bool.
From Flocq Require Import Core IEEE754.BinarySingleNaN.
From Verif Require Import Dog64 RoundModel RoundSpec RoundThms RoundDemo.
Local Open Scope R_scope.

(** C66. Values are the exact result rounded once, or the infinity of its sign. *)
Theorem C66_value_partial (x y : b64) : is_finite x = true -> is_finite y = true ->
  rounds (B2R x + B2R y) (v_add x y) /\ rounds (B2R x - B2R y) (v_sub x y) /\ rounds (B2R x * B2R y) (v_mul x y) /\ rounds (B2R x * B2R x) (v_square x) /\
  exactly (- B2R x) (v_neg x) /\ exactly (Rabs (B2R x)) (v_abs x) /\
  (B2R y <> 0 -> rounds (B2R x / B2R y) (v_div x y) /\ rounds (/ B2R y) (v_recip y)) /\ (B2R y = 0 -> visible (v_div x y) /\ visible (v_recip y)) /\
  (0 <= B2R x -> rounds (R_sqrt.sqrt (B2R x)) (v_sqrt x)) /\ (B2R x < 0 -> visible (v_sqrt x)).
Proof.
  exact (fun Fx Fy => conj (add_rounds x y Fx Fy) (conj (sub_rounds x y Fx Fy) (conj (mul_rounds x y Fx Fy) (conj (mul_rounds x x Fx Fx) (conj (neg_exact x Fx) (conj (abs_exact x Fx)
    (conj (fun H => conj (div_rounds x y Fx Fy H) (recip_rounds y Fy H)) (conj (fun H => conj (div_zero x y Fx Fy H) (div_zero_recip y Fy H))
    (conj (sqrt_rounds x Fx) (sqrt_negative x)))))))))).
Qed.
Print Assumptions C66_value_partial.
Example C66_value_case : is_finite big600 = true /\ is_finite tiny600 = true /\ B2R tiny600 <> 0 /\ v_div big600 tiny600 = B754_infinity false /\ v_square tiny600 = B754_zero false.
Proof.
  split; [reflexivity|split; [reflexivity|split; [|split; [apply B2SF_inj|apply B2SF_inj]; vm_compute; reflexivity]]].
  rewrite (proj2 tiny600_is). apply Rgt_not_eq, bpow_gt_0.
Qed.

(** C66. Entries that are exact: of sums, differences, products, squares, negatives and
    absolute values. *)
Theorem C66_exact_partial (x : b64) (same first : bool) : is_finite x = true ->
  exactly (if same then 2 else 1) (d_add same) /\ exactly (if first then 1 else -1) (d_sub first) /\ exactly (-1) d_neg /\
  exactly (B2R x) (d_mul_a x) /\ exactly (B2R x) (d_mul_b x) /\
  (Rabs (2 * B2R x) < bpow radix2 1024 -> exactly (2 * B2R x) (d_square x) /\ exactly (2 * B2R x) (d_mul_same x)) /\
  (B2R x <> 0 -> exactly (if Rlt_bool (B2R x) 0 then -1 else 1) (d_abs x)).
Proof.
  exact (fun F => let (a, bc) := d_const same first in let (b, c) := bc in
    conj a (conj b (conj c (conj (mul_a_exact x F) (conj (mul_b_exact x F) (conj (fun H => conj (d_square_exact x F H) (d_mul_same_exact x F H)) (d_abs_exact x F))))))).
Qed.
Print Assumptions C66_exact_partial.
Example C66_exact_case : is_finite big600 = true /\ Rabs (2 * B2R big600) < bpow radix2 1024.
Proof.
  split; [reflexivity|]. rewrite (proj2 big600_is). change 2 with (bpow radix2 1). rewrite <- bpow_plus, Rabs_right by (apply Rle_ge, bpow_ge_0). apply bpow_lt. reflexivity.
Qed.

(** C66. Entries with one or two roundings: of quotients, logarithms, reciprocals, arctan;
    the entry of a quotient for its divisor where the divisor's square is in the normal range. *)
Theorem C66_close_partial (x y : b64) : is_finite x = true -> is_finite y = true -> B2R y <> 0 ->
  rounds (/ B2R y) (d_div_1 y) /\ rounds (/ B2R y) (d_log y) /\
  (normal (- / (B2R y * B2R y)) -> close 4 (- / (B2R y * B2R y)) (d_recip y)) /\
  (Rabs (B2R x) <= bpow radix2 510 -> close 5 (/ (1 + B2R x * B2R x)) (d_arctan x)) /\
  (normal (B2R y * B2R y) -> normal (- B2R x / (B2R y * B2R y)) -> close 3 (- B2R x / (B2R y * B2R y)) (d_div_2 x y)).
Proof.
  exact (fun Fx Fy H => conj (d_div_1_rounds y Fy H) (conj (recip_rounds y Fy H) (conj (d_recip_close y Fy H) (conj (d_arctan_close x Fx) (d_div_2_close x y Fx Fy))))).
Qed.
Print Assumptions C66_close_partial.
Example C66_close_case : is_finite big1000 = true /\ is_finite two64 = true /\ B2R two64 <> 0 /\ normal (- / (B2R two64 * B2R two64)) /\
  Rabs (B2R two64) <= bpow radix2 510 /\ normal (B2R two64 * B2R two64) /\ normal (- B2R big1000 / (B2R two64 * B2R two64)).
Proof.
  rewrite (proj2 big1000_is), (proj2 two_is). change 2 with (bpow radix2 1). unfold Rdiv. rewrite <- !bpow_plus, <- !bpow_opp, Ropp_mult_distr_l_reverse, <- bpow_plus.
  split; [reflexivity|split; [reflexivity|split; [apply Rgt_not_eq, bpow_gt_0|]]]. split; [apply normal_bpow; easy|split; [|split; apply normal_bpow; easy]].
  rewrite Rabs_right by (apply Rle_ge, bpow_ge_0). apply bpow_le. discriminate.
Qed.

(** C66. Powers of positive numbers within the range; the derivative of square roots. *)
Theorem C66_power_partial (P : b64 -> b64 -> b64) (x s : b64) : power_of P -> is_finite x = true -> is_finite s = true -> 0 < B2R x ->
  (Rabs (nearest (Rpower (B2R x) (B2R s))) < bpow radix2 1024 -> rounds (Rpower (B2R x) (B2R s)) (v_power P x s)) /\
  close 1 (/ (2 * R_sqrt.sqrt (B2R x))) (d_sqrt P x).
Proof. exact (fun HP Fx Fs Hx => conj (power_in_range P HP x s Fx Fs Hx) (d_sqrt_close P HP x Fx Hx)). Qed.
Print Assumptions C66_power_partial.
Example C66_power_case : power_of some_power /\ is_finite big600 = true /\ is_finite half64 = true /\ 0 < B2R big600.
Proof. split; [exact some_power_ok|split; [reflexivity|split; [reflexivity|]]]. rewrite (proj2 big600_is). apply bpow_gt_0. Qed.

(* ------------------------------------------------------------------ *)
(** C66 is false of every power beyond the range, and at every pole: it reads as 0. *)
Theorem C66_power_refuted (P : b64 -> b64 -> b64) : power_of P ->
  (exists x, is_finite x = true /\ 0 < B2R x /\ Rpower (B2R x) 2 = B2R x * B2R x /\ exactly 0 (v_power P x two64) /\ visible (v_square x)) /\
  (forall x s, is_finite x = true -> is_finite s = true -> 0 < B2R x -> bpow radix2 1024 <= Rabs (nearest (Rpower (B2R x) (B2R s))) -> exactly 0 (v_power P x s)) /\
  (forall x s, is_finite x = true -> is_finite s = true -> B2R x = 0 -> B2R s < 0 -> exactly 0 (v_power P x s)).
Proof. exact (fun HP => conj (power_vanishes P HP) (conj (power_beyond P HP) (power_pole P HP))). Qed.
Print Assumptions C66_power_refuted.

(** C66 is false of the entry of a quotient for its divisor: the divisor's square leaves the
    range though the entry is far inside it. *)
Theorem C66_divide_refuted :
  (exists x y, is_finite x = true /\ is_finite y = true /\ - B2R x / (B2R y * B2R y) = - bpow radix2 (-200) /\ exactly 0 (d_div_2 x y)) /\
  exists x y, is_finite x = true /\ is_finite y = true /\ - B2R x / (B2R y * B2R y) = - bpow radix2 600 /\ d_div_2 x y = B754_infinity true.
Proof. exact (conj divide_vanishes divide_blows_up). Qed.
Print Assumptions C66_divide_refuted.

(** C66 is false of square roots at 0: no derivative, yet an ordinary number is read; and
    x ** .5 reads 0 there. *)
Theorem C66_sqrt_refuted (P : b64 -> b64 -> b64) : power_of P ->
  (forall l, ~ derivable_pt_lim R_sqrt.sqrt 0 l) /\
  forall x, is_finite x = true -> B2R x = 0 -> is_finite (d_sqrt P x) = true /\ exactly 0 (d_power P x half64).
Proof. exact (fun HP => conj sqrt_no_derivative (fun x F H => conj (d_sqrt_zero P HP x F H) (d_power_zero P HP x F H))). Qed.
Print Assumptions C66_sqrt_refuted.
Example C66_sqrt_case : power_of some_power /\ is_finite (B754_zero false : b64) = true /\ B2R (B754_zero false : b64) = 0.
Proof. exact (conj some_power_ok (conj eq_refl eq_refl)). Qed.

(** C66 is false of arcsin near 1: off by more than 2^23 units of rounding. *)
Theorem C66_arcsin_refuted : exists x, is_finite x = true /\ -1 < B2R x < 1 /\ ~ close (bpow radix2 23) (/ R_sqrt.sqrt (1 - B2R x * B2R x)) (d_arcsin x).
Proof. exact arcsin_loses. Qed.
Print Assumptions C66_arcsin_refuted.
