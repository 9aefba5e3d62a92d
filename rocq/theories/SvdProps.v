(** Property C50: singular value decomposition. *)
From Coq Require Import Reals Lra.
From stdpp Require Import list list_numbers numbers.
From Verif Require Import ArrModel Curve ArrThms SvdModel SvdSpec SvdThms SvdArr SvdDemo.

(** C50. svd returns a decomposition of x, tall or wide, if np.linalg.svd returns one of
    the tall matrix it is given and no singular value lies strictly between 0 and
    np.spacing(1). *)
Theorem C50_value_partial np_svd x m n : sh x = [m; n] →
  (let '(u, s, v) := np_svd (tall x) in
   ∃ p q, is_svd p q q (tall x) u s v ∧ ∀ l, l < q → at_ s [l] = 0%R ∨ (/ 2 ^ 52 <= at_ s [l])%R) →
  ∃ u d v w, svd np_svd x = Some (u, d, w) ∧ is_svd m n (min m n) x u d v ∧ is_transpose v w.
Proof. exact (svd_value np_svd x m n). Qed.
Print Assumptions C50_value_partial.
(** A wide matrix: the transpose of the 3 x 2 one below. *)
Example C50_value_case : let x := tr 3 2 (Xt 0) in let np_svd (_ : arr R) := (Ut 0, St 0, Vt 0) in
  sh x = [2; 3] ∧ let '(u, s, v) := np_svd (tall x) in
  ∃ p q, is_svd p q q (tall x) u s v ∧ ∀ l, l < q → at_ s [l] = 0%R ∨ (/ 2 ^ 52 <= at_ s [l])%R.
Proof.
  split; [done|]. exists 3, 2. split.
  - destruct turn_case as (_ & H & _). apply near_0 in H. destruct H as (Hx & Hu & Hs & Hv & HX & HU & HV & HP).
    split_and!; try done. intros i j Hi Hj. rewrite <- HX by done. change (tall (tr 3 2 (Xt 0))) with (tr 2 3 (tr 3 2 (Xt 0))).
    rewrite (tr_at 2 3) by done. by rewrite (tr_at 3 2).
  - intros l Hl. right. left. by apply turn_case.
Qed.
(** C50's first sentence is false for smaller ones: the 1 x 1 matrix with element
    spacing(1)/2 comes back as 0. *)
Theorem C50_tiny_refuted : ∃ x u s v, is_svd 1 1 1 x u s v ∧
  ∀ w, svd (λ _, (u, s, v)) x = Some w → ∀ v', is_transpose v' w.2 → ¬ is_svd 1 1 1 x w.1.1 w.1.2 v'.
Proof. exact (ex_intro _ tiny tiny_case). Qed.
Print Assumptions C50_tiny_refuted.

(** C50. Along every curve of matrices X whose decompositions are continuous at 0, the
    values of SvdD move with its Jacobian times the velocity of X; equal singular values
    are allowed. *)
Theorem C50_d_jacobian m n X vel U S V : amoves X vel → near (λ t, is_svd m n n (X t) (U t) (S t) (V t)) →
  acont U → acont V → (∀ k, k < n → (/ 2 ^ 52 < at_ (S 0%R) [k])%R) →
  fits (svdd_jac m n (U 0%R) (V 0%R)) n (m * n) ∧
  amoves (λ t, chop (S t)) (mact (svdd_jac m n (U 0%R) (V 0%R)) vel).
Proof. exact (svdd_right m n X vel U S V). Qed.
Print Assumptions C50_d_jacobian.
(** The same for SvdV, if the singular values differ; one of them may be 0. *)
Theorem C50_v_jacobian m n X vel U S V : amoves X vel → near (λ t, is_svd m n n (X t) (U t) (S t) (V t)) →
  acont U → acont V → n <= m → (∀ k l, k < l → l < n → at_ (S 0%R) [k] ≠ at_ (S 0%R) [l]) →
  (∀ k, k < n → at_ (S 0%R) [k] = 0%R ∨ (/ 2 ^ 52 <= at_ (S 0%R) [k])%R) →
  ∃ J, svdv_jac m n (U 0%R) (chop (S 0%R)) (V 0%R) = Some J ∧ fits J (n * n) (m * n) ∧ amoves V (mact J vel).
Proof. exact (svdv_right m n X vel U S V). Qed.
Print Assumptions C50_v_jacobian.
(** The same for SvdU, if they are not 0. *)
Theorem C50_u_jacobian m n X vel U S V : amoves X vel → near (λ t, is_svd m n n (X t) (U t) (S t) (V t)) →
  acont U → acont V → n <= m → (∀ k l, k < l → l < n → at_ (S 0%R) [k] ≠ at_ (S 0%R) [l]) →
  (∀ k, k < n → at_ (S 0%R) [k] = 0%R ∨ (/ 2 ^ 52 <= at_ (S 0%R) [k])%R) →
  (∀ k, k < n → at_ (S 0%R) [k] ≠ 0%R) →
  ∃ J, svdu_jac m n (X 0%R) (U 0%R) (chop (S 0%R)) (V 0%R) = Some J ∧ fits J (m * n) (m * n) ∧ amoves U (mact J vel).
Proof. exact (svdu_right m n X vel U S V). Qed.
Print Assumptions C50_u_jacobian.
(** A turning 3 x 2 matrix. *)
Example C50_jacobian_case : amoves Xt velt ∧ near (λ t, is_svd 3 2 2 (Xt t) (Ut t) (St t) (Vt t)) ∧ acont Ut ∧ acont Vt ∧
  (∀ k, k < 2 → (/ 2 ^ 52 < at_ (St 0%R) [k])%R) ∧ (∀ k l, k < l → l < 2 → at_ (St 0%R) [k] ≠ at_ (St 0%R) [l]).
Proof. exact turn_case. Qed.

(** C50. The Jacobians of u and v raise exactly where two singular values agree. *)
Theorem C50_equal_values m n x u d v : n <= m → is_svd m n n x u d v →
  (svdv_jac m n u d v = None ↔ ∃ k l, k < l ∧ l < n ∧ at_ d [k] = at_ d [l]) ∧
  (svdu_jac m n x u d v = None ↔ svdv_jac m n u d v = None).
Proof. exact (λ Hmn H, conj (svdv_raises m n x u d v Hmn H) (svdu_raises m n x u d v)). Qed.
Print Assumptions C50_equal_values.
Example C50_equal_case : is_svd 3 2 2 (Xt (-2)) (Ut (-2)) (St (-2)) (Vt (-2)) ∧ at_ (St (-2)) [0] = at_ (St (-2)) [1].
Proof.
  split; [apply turn_svd; rewrite Rabs_left; lra|]. cbv [at_ St sh dat ravel size foldr]. simpl. lra.
Qed.
