(** One element of the elementwise operations of chumpy/ch_ops.py in IEEE binary64. *)
From Coq Require Import ZArith Bool.
From Flocq Require Import Core IEEE754.BinarySingleNaN.
From Verif Require Import Dog64.

Definition one64 : b64 := of_int 1.
Definition two64 : b64 := of_int 2.
Definition half64 : b64 := ratio 1 2.
Definition is_inf (x : b64) : bool := match x with B754_infinity _ => true | _ => false end.
(** The largest double, (2^53 - 1) * 2^971. *)
Definition largest64 : b64 := Bmult mode_NE (of_int (2 ^ 53 - 1)) (of_int (2 ^ 971)).

(** compute_r of add, subtract, multiply, divide (ch_ops.py:549-550, 565-566, 707-708,
    400-401), negative, absolute, square, reciprocal and sqrt (222-223, 235-240, 248-249, 284-289) *)
Definition v_add (x y : b64) : b64 := Bplus mode_NE x y.
Definition v_sub (x y : b64) : b64 := Bminus mode_NE x y.
Definition v_mul (x y : b64) : b64 := Bmult mode_NE x y.
Definition v_div (x y : b64) : b64 := Bdiv mode_NE x y.
Definition v_neg (x : b64) : b64 := Bopp x.
Definition v_abs (x : b64) : b64 := Babs x.
Definition v_square (x : b64) : b64 := Bmult mode_NE x x.
Definition v_recip (x : b64) : b64 := Bdiv mode_NE one64 x.
Definition v_sqrt (x : b64) : b64 := Bsqrt mode_NE x.
(** power.safe_power (ch_ops.py:603-607) and power.compute_r (583-584); [P] is np.power *)
Definition safe_power (P : b64 -> b64 -> b64) (x s : b64) : b64 := if is_inf (P x s) then B754_zero false else P x s.
Definition v_power (P : b64 -> b64 -> b64) (x s : b64) : b64 := safe_power P x s.
(** my_power (ch_ops.py:243-246) *)
Definition my_power (P : b64 -> b64 -> b64) (x s : b64) : b64 :=
  match P x s with
  | B754_nan => B754_zero false
  | B754_infinity false => largest64
  | B754_infinity true => Bopp largest64
  | r => r
  end.

(** The entries of compute_dr_wrt: add (ch_ops.py:552-557), with the same operand twice or
    not, subtract (568-573), multiply (710-719), divide (403-414) *)
Definition d_add (same : bool) : b64 := if same then two64 else one64.
Definition d_sub (first : bool) : b64 := if first then one64 else Bopp one64.
Definition d_mul_a (y : b64) : b64 := Bmult mode_NE one64 y.
Definition d_mul_b (x : b64) : b64 := Bmult mode_NE x one64.
Definition d_mul_same (x : b64) : b64 := Bmult mode_NE (Bmult mode_NE x one64) two64.
Definition d_div_1 (y : b64) : b64 := Bdiv mode_NE one64 y.
Definition d_div_2 (x y : b64) : b64 := Bdiv mode_NE (Bopp x) (Bmult mode_NE y y).
(** negative, absolute ((x>0)*2-1.), square (x * 2.), reciprocal (-np.reciprocal(np.square(x)))
    and sqrt (.5 * my_power(x, -0.5)) (ch_ops.py:235-250, 284-290) *)
Definition d_neg : b64 := Bopp one64.
Definition d_abs (x : b64) : b64 := if Bltb (B754_zero false) x then one64 else Bopp one64.
Definition d_square (x : b64) : b64 := Bmult mode_NE x two64.
Definition d_recip (x : b64) : b64 := Bopp (Bdiv mode_NE one64 (Bmult mode_NE x x)).
Definition d_sqrt (P : b64 -> b64 -> b64) (x : b64) : b64 := Bmult mode_NE half64 (my_power P x (Bopp half64)).
(** log (np.reciprocal), arctan (np.reciprocal(np.square(x)+1.)) and arcsin
    (np.reciprocal(np.sqrt(1.-np.square(x)))) (ch_ops.py:256-258, 264-266, 280-282) *)
Definition d_log (x : b64) : b64 := Bdiv mode_NE one64 x.
Definition d_arctan (x : b64) : b64 := Bdiv mode_NE one64 (Bplus mode_NE (Bmult mode_NE x x) one64).
Definition d_arcsin (x : b64) : b64 := Bdiv mode_NE one64 (Bsqrt mode_NE (Bminus mode_NE one64 (Bmult mode_NE x x))).
(** power with respect to x: pow * self.safe_power(x, pow-1.) (ch_ops.py:593-594) *)
Definition d_power (P : b64 -> b64 -> b64) (x s : b64) : b64 := Bmult mode_NE s (safe_power P x (Bminus mode_NE s one64)).
