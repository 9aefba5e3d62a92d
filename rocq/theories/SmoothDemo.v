(** Rosenbrock's function is smooth, and the optimizer without limits on it. *)
From Coq Require Import Reals Lra Lia.
From stdpp Require Import prelude.
From Verif Require Import ArrModel ArrThms DogModel DogSpec DogExact DogGeo DogGeoThms DogBest SmoothSpec SmoothRun.

Lemma smooth_ends m n slv F J x0 (P : problem reals (exact m n slv)) t1 t2 : problem_of m n slv F J P → solves_at m n slv F J x0 → (0 < t1)%R → e1 _ _ P = Some t1 → e2 _ _ P = Some t2 →
  klt reals (Some 0%R) (e3 _ _ P) = false → smooth m n F J x0 → delta0 _ _ P = None ∨ (∃ d, delta0 _ _ P = Some (Some d) ∧ (0 < d)%R) →
  ∃ k s y, run _ _ P (Some x0) k = Returned _ _ s ∧ s_fv _ _ s = Some y ∧ no_worse m F x0 y ∧
    ((maxabs n (gradient m F J y) < t1)%R ∨ (∃ v, s_dl _ _ s = Some v ∧ (0 < len n v <= t2 * len n y)%R) ∨ (∃ d, s_delta _ _ s = Some (Some d) ∧ (0 < d <= t2 * len n y)%R) ∨
     over (maxiter _ _ P) (s_iter _ _ s) = true ∨ over (max_fevals _ _ P) (s_fevals _ _ s) = true).
Proof.
  intros H1 H2 H3 H4 H5 H6 [[B HB] (L & h & Hh & HF)] Hd.
  destruct (run_ends m n slv F J x0 P H1 H2 t1 t2 H3 H4 H5 H6 (Rmax B 1) (Rmax L 0) h) as (k & s & y & Hk); [..|by exists k, s, y].
  - pose proof (Rmax_r B 1). lra.
  - intros x v Hx. eapply Rle_trans; [by apply HB|]. apply Rmult_le_compat_r; [apply dot_nonneg|apply Rmax_l].
  - apply Rmax_r.
  - done.
  - intros x v Hx Hv. eapply Rle_trans; [by apply HF|]. apply Rmult_le_compat_r; [apply dot_nonneg|apply Rmax_l].
  - done.
Qed.
(** evaluations *)
Definition evaluations {m n slv} (c : conf reals (exact m n slv)) : nat := match c with AtOuter _ _ s | AtInner _ _ s | Returned _ _ s => s_fevals _ _ s | Raised _ _ _ => 0 end.
Lemma step_evaluates m n slv (P : problem reals (exact m n slv)) c : evaluations (step _ _ P c) ≤ S (evaluations c).
Proof.
  destruct c as [s|s|s|l]; cbn [step]; [destruct (s_done _ _ s); cbn; lia| |cbn; lia|cbn; lia].
  unfold inner. destruct (update_step _ _ _ _ _ _ _) as [[[gn dl] d]|]; [|cbn; lia]. cbv zeta. destruct (kle _ _ _); [unfold after_inner; repeat destruct (over _ _); cbn; lia|].
  destruct (resid _ _ _ _ _) as [r|]; [|cbn; lia]. match goal with |- context [klt reals (k0 reals) ?a] => destruct (klt reals (k0 reals) a) end.
  - unfold accept. cbv zeta. match goal with |- context [if ?a then inl _ else _] => destruct a end.
    + match goal with |- context [if ?a then stop _ _ _ else _] => destruct a end; rewrite orb_true_r; unfold after_inner; repeat destruct (over _ _); cbn; lia.
    + destruct (jac _ _ _ _ _) as [J|]; [|cbn; lia]. unfold small_gradient. destruct (klt _ _ (e1 _ _ P)).
      all: match goal with |- context [if ?a then stop _ _ _ else _] => destruct a end; rewrite orb_true_r; unfold after_inner; repeat destruct (over _ _); cbn; lia.
  - match goal with |- context [if ?a then stop _ _ _ else _] => destruct a end; match goal with |- context [s_done ?a ?b ?c || false || ?e] => destruct (s_done a b c || false || e) end; unfold after_inner; repeat destruct (over _ _); cbn; lia.
Qed.
Lemma run_evaluates m n slv (P : problem reals (exact m n slv)) x k : evaluations (run _ _ P x k) ≤ S k.
Proof.
  unfold run. induction k as [|k IH].
  - cbn [Nat.iter nat_rect]. unfold start. destruct (jac _ _ _ _ _); [|cbn; lia]. destruct (resid _ _ _ _ _); [|cbn; lia]. unfold small_gradient. destruct (klt _ _ _); cbn; lia.
  - rewrite Nat.iter_succ. etransitivity; [apply step_evaluates|]. lia.
Qed.
Lemma smooth_bound m n slv F J x0 (P : problem reals (exact m n slv)) t1 t2 B L h d k : problem_of m n slv F J P → solves_at m n slv F J x0 → (0 < t1)%R → e1 _ _ P = Some t1 → e2 _ _ P = Some t2 →
  klt reals (Some 0%R) (e3 _ _ P) = false → (0 < B)%R → (0 <= L)%R → (0 < h)%R → smooth_with m n F J x0 B L h → delta0 _ _ P = Some (Some d) → (0 < d)%R →
  (passes B L h t1 (sum_squares m F x0) d < INR k)%R →
  ∃ s y, run _ _ P (Some x0) (2 * k + 1) = Returned _ _ s ∧ s_fevals _ _ s ≤ 2 * k + 2 ∧ s_fv _ _ s = Some y ∧ no_worse m F x0 y ∧
    ((maxabs n (gradient m F J y) < t1)%R ∨ (∃ v, s_dl _ _ s = Some v ∧ (0 < len n v <= t2 * len n y)%R) ∨ (∃ d, s_delta _ _ s = Some (Some d) ∧ (0 < d <= t2 * len n y)%R) ∨
     over (maxiter _ _ P) (s_iter _ _ s) = true ∨ over (max_fevals _ _ P) (s_fevals _ _ s) = true).
Proof.
  intros H1 H2 H3 H4 H5 H6 HB HL Hh [HJ HF] Hd Hd0 Hk.
  destruct (run_bound m n slv F J x0 P H1 H2 t1 t2 H3 H4 H5 H6 B L h HB HJ HL Hh HF d k Hd Hd0 Hk) as (s & y & E1 & E2 & E3 & E4). exists s, y.
  split_and!; [done| |done..]. pose proof (run_evaluates m n slv P (Some x0) (2 * k + 1)) as He. unfold run in He. rewrite E1 in He. cbn [evaluations] in He. lia.
Qed.
Lemma smooth_found m n slv F J x0 (P : problem reals (exact m n slv)) t1 t2 : problem_of m n slv F J P → solves_at m n slv F J x0 → (0 < t1)%R → e1 _ _ P = Some t1 → e2 _ _ P = Some t2 →
  klt reals (Some 0%R) (e3 _ _ P) = false → smooth m n F J x0 → delta0 _ _ P = None ∨ (∃ d, delta0 _ _ P = Some (Some d) ∧ (0 < d)%R) →
  (t2 <= 0)%R → maxiter _ _ P = None → max_fevals _ _ P = None →
  ∃ k s y, run _ _ P (Some x0) k = Returned _ _ s ∧ s_fv _ _ s = Some y ∧ no_worse m F x0 y ∧ (maxabs n (gradient m F J y) < t1)%R.
Proof.
  intros H1 H2 H3 H4 H5 H6 H7 H8 Ht Hm Hf. destruct (smooth_ends m n slv F J x0 P t1 t2) as (k & s & y & E1 & E2 & E3 & E4); try done.
  exists k, s, y. split_and!; [done..|]. pose proof (len_nonneg n y) as Hl. destruct E4 as [?|[(v & _ & Hv)|[(d & _ & Hv)|[Ho|Ho]]]]; [done|nra|nra|by rewrite Hm in Ho|by rewrite Hf in Ho].
Qed.

(** The residuals 10 (x1 - x0^2) and 1 - x0, and their Jacobian. *)
Definition rosen (x : vec) : vec := λ i, match i with 0 => (10 * (x 1%nat - x 0%nat * x 0%nat))%R | 1 => (1 - x 0%nat)%R | _ => 0%R end.
Definition rosen_jac (x : vec) : mat := λ i j, match i, j with 0, 0 => (-20 * x 0%nat)%R | 0, 1 => 10%R | 1, 0 => (-1)%R | _, _ => 0%R end.
(** numpy.linalg.solve of two equations *)
Definition solve2 (A : mat) (g : vec) : option vec :=
  let d := (A 0%nat 0%nat * A 1%nat 1%nat - A 0%nat 1%nat * A 1%nat 0%nat)%R in
  if Req_EM_T d 0 then None else Some (λ j, match j with 0 => ((g 0%nat * A 1%nat 1%nat - A 0%nat 1%nat * g 1%nat) / d)%R | _ => ((A 0%nat 0%nat * g 1%nat - g 0%nat * A 1%nat 0%nat) / d)%R end).
Lemma dot2 u v : dot 2 u v = (u 0%nat * v 0%nat + u 1%nat * v 1%nat)%R.
Proof. unfold dot. cbn. ring. Qed.
Lemma rosen_solves x0 : solves_at 2 2 solve2 rosen rosen_jac x0.
Proof.
  intros x _. unfold solve2. cbv zeta. cbn [gram exact]. rewrite !dot2. cbn [rosen_jac]. set (a := x 0%nat).
  destruct (Req_EM_T _ 0) as [Hz|Hz]; [exfalso; ring_simplify in Hz; lra|].
  eexists. split; [done|]. intros j Hj. unfold normal_eq, descent. destruct j as [|[|j]]; [| |lia].
  - rewrite !dot2. cbn [rosen_jac rosen]. fold a. field. intros Q. ring_simplify in Q. lra.
  - rewrite !dot2. cbn [rosen_jac rosen]. fold a. field. intros Q. ring_simplify in Q. lra.
Qed.
Lemma rosen_smooth_with x0 : smooth_with 2 2 rosen rosen_jac x0 (1600 * (1 + sum_squares 2 rosen x0) + 201) 10 1.
Proof.
  split.
  - set (q := sum_squares 2 rosen x0). intros x v Hx. unfold no_worse in Hx. fold q in Hx. unfold sum_squares in Hx. rewrite dot2 in Hx. cbn [rosen] in Hx.
    unfold mulv. rewrite !dot2. cbn [rosen_jac]. set (a := x 0%nat) in *. set (b := x 1%nat) in *. set (c := v 0%nat). set (d := v 1%nat).
    pose proof (Rle_0_sqr (b - a * a)) as S1. unfold Rsqr in S1. assert (Ha : ((1 - a) * (1 - a) <= q)%R) by nra. pose proof (Rle_0_sqr (a - 2)) as S2. unfold Rsqr in S2.
    assert (Ha2 : (a * a <= 2 * (1 + q))%R) by nra. pose proof (Rle_0_sqr (20 * a * c + 10 * d)) as S3. unfold Rsqr in S3. pose proof (Rle_0_sqr c) as S4. pose proof (Rle_0_sqr d) as S5. unfold Rsqr in S4, S5.
    assert (H1 : (a * a * (c * c) <= 2 * (1 + q) * (c * c))%R) by (by apply Rmult_le_compat_r). assert (Hq : (0 <= q)%R) by apply dot_nonneg.
    assert (H2 : (0 <= (1 + q) * (d * d))%R) by (apply Rmult_le_pos; lra). nra.
  - intros x v _ _. unfold len. rewrite dot2. unfold linear. rewrite !dot2. cbn [rosen_jac rosen]. set (a := x 0%nat). set (b := x 1%nat). set (c := v 0%nat). set (d := v 1%nat).
    rewrite <- (sqrt_Rsqr (10 * (c * c + d * d))); [|pose proof (Rle_0_sqr c); pose proof (Rle_0_sqr d); unfold Rsqr in *; lra]. apply sqrt_le_1_alt. unfold Rsqr.
    replace (10 * (b + d - (a + c) * (a + c)) - (10 * (b - a * a) + (-20 * a * c + 10 * d)))%R with (-10 * (c * c))%R by ring. replace (1 - (a + c) - (1 - a + (-1 * c + 0 * d)))%R with 0%R by ring.
    pose proof (Rle_0_sqr c) as S4. pose proof (Rle_0_sqr d) as S5. unfold Rsqr in S4, S5. assert (0 <= c * c * (d * d))%R by (by apply Rmult_le_pos). assert (0 <= d * d * (d * d))%R by (by apply Rmult_le_pos). nra.
Qed.
Lemma rosen_smooth x0 : smooth 2 2 rosen rosen_jac x0.
Proof. destruct (rosen_smooth_with x0) as [H1 H2]. split; [by eexists|]. exists 10%R, 1%R. split; [lra|done]. Qed.
Definition rosen_run (t1 : R) (d : option (option R)) : problem reals (exact 2 2 solve2) :=
  {| resid := λ _ x, Some ((rosen <$> x) : W (exact 2 2 solve2)); jac := λ _ x, Some ((match x with Some y => rosen_jac y | None => λ _ _, 0%R end) : M (exact 2 2 solve2)); maxiter := None; max_fevals := None;
     e1 := Some t1 : K reals; e2 := Some 0%R : K reals; e3 := Some 0%R : K reals; delta0 := d |}.
Lemma rosen_problem t1 d : problem_of 2 2 solve2 rosen rosen_jac (rosen_run t1 d).
Proof. done. Qed.
