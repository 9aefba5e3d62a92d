(** Specification: rounding, over the reals. *)
From Coq Require Import ZArith Reals.
From Flocq Require Import Core IEEE754.BinarySingleNaN.
From Verif Require Import Dog64.
Local Open Scope R_scope.

(** The double nearest to a real number, ties to even, if the exponents had no upper end. *)
Definition nearest (e : R) : R := round radix2 (FLT_exp (-1074) 53) ZnearestE e.
(** [x] is the exact result [e] rounded once, or the infinity of its sign beyond the range. *)
Definition rounds (e : R) (x : b64) : Prop :=
  Rabs (nearest e) < bpow radix2 1024 /\ is_finite x = true /\ B2R x = nearest e \/
  bpow radix2 1024 <= Rabs (nearest e) /\ x = B754_infinity (Rlt_bool e 0).
Definition exactly (e : R) (x : b64) : Prop := is_finite x = true /\ B2R x = e.
(** Not an ordinary number. *)
Definition visible (x : b64) : Prop := is_finite x = false.
(** Off by at most [k] units of rounding, relative to the exact result. *)
Definition close (k e : R) (x : b64) : Prop := is_finite x = true /\ Rabs (B2R x - e) <= k * bpow radix2 (-53) * Rabs e.
(** In the normal range, with a factor of two to spare at the top. *)
Definition normal (e : R) : Prop := bpow radix2 (-1022) <= Rabs e <= bpow radix2 1023.
(** What is asked of np.power: the real power, rounded once, of positive numbers; infinity
    for zero to a negative power. *)
Definition power_of (P : b64 -> b64 -> b64) : Prop :=
  forall x s, is_finite x = true -> is_finite s = true ->
    (0 < B2R x -> rounds (Rpower (B2R x) (B2R s)) (P x s)) /\
    (B2R x = 0 -> B2R s < 0 -> P x s = B754_infinity false).
