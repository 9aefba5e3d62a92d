(** The optimizer over the real numbers: exact arithmetic, where a result that is no real
    number (division by zero, root of a negative number) is None and compares false.
    This replaces the rounding arithmetic of numpy (chumpy/optimization_internal.py:158-455
    computes in binary64); vectors are functions of indices below the dimension. *)
From Coq Require Import Reals.
From stdpp Require Import list.
From Verif Require Import ArrModel DogModel.

Definition vec := nat → R.
Definition mat := nat → nat → R.
(** scalar products and Euclidean lengths *)
Definition dot (n : nat) (u v : vec) : R := rsum ((λ i, (u i * v i)%R) <$> seq 0 n).
Definition len (n : nat) (v : vec) : R := R_sqrt.sqrt (dot n v v).
Definition xlift (f : R → R → R) (a b : option R) : option R := x ← a; y ← b; Some (f x y).
Definition xcmp (f : R → R → bool) (a b : option R) : bool := match a, b with Some x, Some y => f x y | _, _ => false end.
Definition reals : num := {|
  K := option R;
  kle := xcmp (λ x y, if Rle_dec x y then true else false);
  klt := xcmp (λ x y, if Rlt_dec x y then true else false);
  kadd := xlift Rplus; ksub := xlift Rminus; kmul := xlift Rmult;
  kdiv := λ a b, x ← a; y ← b; if Req_EM_T y 0 then None else Some (x / y)%R;
  ksqrt := λ a, x ← a; if Rle_dec 0 x then Some (R_sqrt.sqrt x) else None;
  k0 := Some 0%R; k2 := Some 2%R; k005 := Some (5 / 100)%R; k09 := Some (9 / 10)%R; k25 := Some (25 / 10)%R; k025 := Some (25 / 100)%R
|}.
Definition mulv (n : nat) (A : mat) (v : vec) : vec := λ i, dot n (A i) v.
Definition mulvt (m : nat) (A : mat) (v : vec) : vec := λ j, dot m (λ i, A i j) v.
Definition vec2 (f : R → R → R) (u v : option vec) : option vec := a ← u; b ← v; Some (λ i, f (a i) (b i)).
Definition maxabs (n : nat) (v : vec) : R := foldr Rmax 0%R ((λ i, Rabs (v i)) <$> seq 0 n).
(** [m] residuals, [n] parameters *)
Definition exact (m n : nat) (slv : mat → vec → option vec) : lin reals := {|
  V := option vec; W := option vec; M := mat; H := mat;
  vnorm := (λ v, len n <$> v) : option vec → K reals;
  vinf := (λ v, maxabs n <$> v) : option vec → K reals;
  wnorm := (λ v, len m <$> v) : option vec → K reals;
  vadd := vec2 Rplus; vsub := vec2 Rminus;
  vscale := (λ c v, x ← c; a ← v; Some (λ i, (x * a i)%R)) : K reals → option vec → option vec;
  vdot := (λ u v, a ← u; b ← v; Some (dot n a b)) : option vec → option vec → K reals;
  jt_neg := λ J r, (λ a, mulvt m J (λ i, (- a i)%R)) <$> r;
  jdot := λ J v, mulv n J <$> v;
  gram := λ J j k, dot m (λ i, J i j) (λ i, J i k);
  hdot := λ A v, mulv n A <$> v;
  solve := λ A g, match g with Some g => Some <$> slv A g | None => Some None end
|}.
