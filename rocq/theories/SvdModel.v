(** Model of Svd, SvdD, SvdV and SvdU (chumpy/linalg.py:60-80, 178-275) over the reals. *)
From Coq Require Import Reals.
From stdpp Require Import list list_numbers numbers.
From Verif Require Import ArrModel.

(** element [i, j] of a matrix with [n] columns *)
Definition e2 (n : nat) (a : arr R) (i j : nat) : R := dat a (i * n + j).
(** x.T of an m x n matrix (linalg.py:70, 78) *)
Definition tr (m n : nat) (a : arr R) : arr R := Arr_ [n; m] (λ o, e2 n a (o mod m) (o / m)).

(** SvdD.UDV (linalg.py:181-186): np.linalg.svd(x, full_matrices=False) with the third
    matrix transposed.  Which decomposition it returns is left open: [np_svd] is any
    function.  Singular values below np.spacing(1) are set to 0 (linalg.py:185). *)
Definition spacing1 : R := (/ 2 ^ 52)%R.
Definition chop (s : arr R) : arr R := amap (λ x, if Rlt_dec (Rabs x) spacing1 then 0%R else x) s.
Definition UDV (np_svd : arr R → arr R * arr R * arr R) (x : arr R) : arr R * arr R * arr R :=
  let '(u, s, v) := np_svd x in (u, chop s, v).

(** Svd (linalg.py:60-80): the values of the three objects it returns; SvdU.compute_r,
    SvdD.compute_r and SvdV.compute_r (linalg.py:188-189, 211-212, 255-256). *)
Definition svd (np_svd : arr R → arr R * arr R * arr R) (x : arr R) : option (arr R * arr R * arr R) :=
  match sh x with
  | [m; n] =>
      if decide (m < n)
      then let '(u, d, v) := UDV np_svd (tr m n x) in Some (v, d, tr n m u)
      else let '(u, d, v) := UDV np_svd x in Some (u, d, tr n n v)
  | _ => None
  end.

(** SvdD.compute_dr_wrt (linalg.py:191-203) for an m x n matrix x; the slices of u and v
    keep everything. *)
Definition svdd_ent (n : nat) (u v : arr R) (k i j : nat) : R := (e2 n u i k * e2 n v j k)%R.
Definition svdd_jac (m n : nat) (u v : arr R) : spm :=
  dense n (m * n) (λ k q, svdd_ent n u v k (q / n) (q mod n)).

(** SvdV.compute_dr_wrt (linalg.py:214-249).  np.linalg.solve of the 2 x 2 system
    [[dl, dk], [dk, dl]] with right hand side (a, b), second component; LinAlgError if
    the matrix is singular. *)
Definition solve2 (dl dk a b : R) : option R :=
  if Req_EM_T (dl * dl - dk * dk) 0 then None else Some ((dl * b - dk * a) / (dl * dl - dk * dk))%R.
(** omega[i, j, k, l] for k < l (linalg.py:231-241) *)
Definition omega_lt (n : nat) (u d v : arr R) (i j k l : nat) : option R :=
  solve2 (dat d l) (dat d k) (e2 n u i k * e2 n v j l) (- e2 n u i l * e2 n v j k).
(** omega, the lower half negated, zero on the diagonal (linalg.py:224, 243-244) *)
Definition omega (n : nat) (u d v : arr R) (i j k l : nat) : R :=
  if decide (k < l) then default 0%R (omega_lt n u d v i j k l)
  else if decide (l < k) then (- default 0 (omega_lt n u d v i j l k))%R
  else 0%R.
(** np.einsum('ak,ijkl->alij', -V, omega) (linalg.py:249) *)
Definition svdv_ent (n : nat) (u d v : arr R) (a l i j : nat) : R :=
  rsum ((λ k, (- e2 n v a k * omega n u d v i j k l)%R) <$> seq 0 n).
(** It raises if some system has no solution or, by the assertion, if m < n
    (linalg.py:229). *)
Definition svdv_jac (m n : nat) (u d v : arr R) : option spm :=
  if decide (m < n) then None
  else if forallb (λ i, forallb (λ j, forallb (λ k, forallb (λ l,
      if decide (k < l) then if omega_lt n u d v i j k l then true else false else true)
      (seq 0 n)) (seq 0 n)) (seq 0 n)) (seq 0 m)
  then Some (dense (n * n) (m * n) (λ p q, svdv_ent n u d v (p / n) (p mod n) (q / n) (q mod n)))
  else None.

(** NanDivide (ch_ops.py:420-448): infinities and NaN become 0. *)
Definition nan_div (x y : R) : R := if Req_EM_T y 0 then 0%R else (x / y)%R.
(** SvdU.compute_dr_wrt (linalg.py:258-270):
    NanDivide(x.dot(svd_v), svd_d.reshape((1, -1))).dr_wrt(x), written out as the sum
    dr_wrt forms from the Jacobians of NanDivide, of dot with respect to both operands, of
    svd_v and of svd_d. *)
Definition svdu_ent (n : nat) (x u d v : arr R) (a k i j : nat) : R :=
  let dk := dat d k in
  let xv := rsum ((λ b, (e2 n x a b * e2 n v b k)%R) <$> seq 0 n) in
  (nan_div 1 dk * ((if decide (a = i) then e2 n v j k else 0) + rsum ((λ b, e2 n x a b * svdv_ent n u d v b k i j) <$> seq 0 n))
   + nan_div (- xv) (dk * dk) * svdd_ent n u v k i j)%R.
Definition svdu_jac (m n : nat) (x u d v : arr R) : option spm :=
  _ ← svdv_jac m n u d v;
  Some (dense (m * n) (m * n) (λ p q, svdu_ent n x u d v (p / n) (p mod n) (q / n) (q mod n))).
