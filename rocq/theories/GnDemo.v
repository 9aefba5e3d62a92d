(** The Gauss-Newton step on smooth objectives, and examples. *)
From Coq Require Import Reals Lra Lia String.
From stdpp Require Import prelude.
From Verif Require Import ArrModel ArrThms DogModel DogSpec DogExact DogGeo DogGeoThms LsqSpec LsqThms SmoothSpec SmoothDemo GnModel GnSpec GnThms.

Lemma smooth_dense m n l solve F J x0 : (∀ x, no_worse m F x0 x → numpy_right l n (squared m (J x))) → solves_at m n (gn_solver l solve false n) F J x0.
Proof. intros H. apply smooth_solves. intros x Hx. by apply shortest_solves, dense_right, H. Qed.
Lemma smooth_sparse m n l solve F J x0 : 1 < n → (∀ x, no_worse m F x0 x → sound l solve n (squared m (J x))) → solves_at m n (gn_solver l solve true n) F J x0.
Proof. intros Hn H. apply smooth_solves. intros x Hx. by apply sparse_sound, H. Qed.
Lemma smooth_gn_found m n l solve sparse F J x0 (P : problem reals (exact m n (gn_solver l solve sparse n))) t1 t2 :
  problem_of m n (gn_solver l solve sparse n) F J P →
  (if sparse then 1 < n ∧ ∀ x, no_worse m F x0 x → sound l solve n (squared m (J x)) else ∀ x, no_worse m F x0 x → numpy_right l n (squared m (J x))) →
  (0 < t1)%R → e1 _ _ P = Some t1 → e2 _ _ P = Some t2 → klt reals (Some 0%R) (e3 _ _ P) = false →
  smooth m n F J x0 → delta0 _ _ P = None ∨ (∃ d, delta0 _ _ P = Some (Some d) ∧ (0 < d)%R) → (t2 <= 0)%R → maxiter _ _ P = None → max_fevals _ _ P = None →
  ∃ k s y, run _ _ P (Some x0) k = Returned _ _ s ∧ s_fv _ _ s = Some y ∧ no_worse m F x0 y ∧ (maxabs n (gradient m F J y) < t1)%R.
Proof.
  intros HP H. apply smooth_found; [done|]. destruct sparse; [destruct H; by apply smooth_sparse|by apply smooth_dense].
Qed.

(** Solvers of two equations that raise, or have no finite answer, if the matrix is singular *)
Definition cramer : library :=
  Library (λ _, solve2) (λ _ _ g, Some (half g)) (λ _ A g, match solve2 A g with Some y => Finite y | None => NotFinite end)
    (λ _ _ _, Finite (λ _, 0%R)) (λ _ _ g, Finite (half g)).
Lemma solve2_right A g y : solve2 A g = Some y → regular 2 A ∧ solution 2 A g y.
Proof.
  unfold solve2. cbv zeta. destruct (Req_EM_T _ 0) as [|Hd]; [done|]. intros [= <-]. split.
  - intros v Hv. pose proof (Hv 0 ltac:(lia)) as H0. pose proof (Hv 1 ltac:(lia)) as H1. rewrite dot2 in H0, H1. set (d := (A 0%nat 0%nat * A 1%nat 1%nat - A 0%nat 1%nat * A 1%nat 0%nat)%R) in *.
    assert (E0 : (d * v 0%nat = 0)%R). { replace (d * v 0%nat)%R with (A 1%nat 1%nat * (A 0%nat 0%nat * v 0%nat + A 0%nat 1%nat * v 1%nat) - A 0%nat 1%nat * (A 1%nat 0%nat * v 0%nat + A 1%nat 1%nat * v 1%nat))%R by (unfold d; ring). rewrite H0, H1. ring. }
    assert (E1 : (d * v 1%nat = 0)%R). { replace (d * v 1%nat)%R with (A 0%nat 0%nat * (A 1%nat 0%nat * v 0%nat + A 1%nat 1%nat * v 1%nat) - A 1%nat 0%nat * (A 0%nat 0%nat * v 0%nat + A 0%nat 1%nat * v 1%nat))%R by (unfold d; ring). rewrite H0, H1. ring. }
    intros j Hj. destruct j as [|[|j]]; [| |lia]; [by destruct (Rmult_integral _ _ E0)|by destruct (Rmult_integral _ _ E1)].
  - intros j Hj. rewrite dot2. destruct j as [|[|j]]; [| |lia]; by field.
Qed.
Lemma rosen_regular x g : is_Some (solve2 (squared 2 (rosen_jac x)) g).
Proof.
  unfold solve2. cbv zeta. destruct (Req_EM_T _ 0) as [Hz|Hz]; [|by eexists]. exfalso. unfold squared in Hz. rewrite !dot2 in Hz. cbn [rosen_jac] in Hz. ring_simplify in Hz. lra.
Qed.
Lemma rosen_numpy x : numpy_right cramer 2 (squared 2 (rosen_jac x)).
Proof. split; [intros g y; apply solve2_right|]. intros g Hg. destruct (rosen_regular x g) as [y Hy]. cbn in Hg. by rewrite Hy in Hg. Qed.
Lemma rosen_direct x : direct cramer (sp_spsolve cramer) 2 (squared 2 (rosen_jac x)).
Proof.
  split_and!; intros g; destruct (rosen_regular x g) as [y Hy]; cbn; rewrite Hy; [|done..]. intros z [= <-]. by apply solve2_right.
Qed.
Lemma rosen_sound x : sound cramer (sp_spsolve cramer) 2 (squared 2 (rosen_jac x)).
Proof. destruct (rosen_direct x) as (H1 & H2 & H3). split_and!; [|done..]. intros g y Hy. by destruct (H1 g y Hy). Qed.
(** An iterative solver that stops early: finite, but no solution *)
Lemma wrong_finite : update_gn cramer (sp_cg cramer) true 2 (squared 2 (rosen_jac (λ _, 0%R))) (descent 2 (rosen_jac (λ _, 0%R)) (rosen (λ _, 0%R))) = Some (Some (λ _, 0%R)) ∧
  ¬ normal_eq 2 2 (rosen_jac (λ _, 0%R)) (rosen (λ _, 0%R)) (λ _, 0%R).
Proof.
  split; [done|]. intros H. specialize (H 0 ltac:(lia)). unfold normal_eq, descent in H. rewrite !dot2 in H. cbn [rosen_jac rosen] in H. lra.
Qed.
(** The same function as sparse_solver that raises, and as np.linalg.solve *)
Definition raising : library := Library (λ _ _ _, None) (λ _ _ g, Some (half g)) (λ _ _ _, Raises) (λ _ _ _, Raises) (λ _ _ g, Finite (half g)).
Lemma raise_ends : numpy_right raising 2 (squared 1 both) ∧ (∀ g, ∃ y, sp_lsqr raising 2 (squared 1 both) g = Finite y ∧ shortest_least 2 (squared 1 both) g y) ∧
  ∀ r, is_Some (update_gn raising (sp_spsolve raising) false 2 (squared 1 both) (descent 1 both r)) ∧ update_gn raising (sp_spsolve raising) true 2 (squared 1 both) (descent 1 both r) = None.
Proof.
  split_and!.
  - split; [done|]. intros g _. eexists. split; [done|]. apply both_shortest.
  - intros g. eexists. split; [done|]. apply both_shortest.
  - intros r. split; [by eexists|done].
Qed.
Lemma zero_refuted : ∃ (m : nat) (J : mat) (r : vec), ∀ l solve,
  update_gn l solve true 1 (squared m J) (descent m J r) = Some None ∧ ∀ y, normal_eq m 1 J r y.
Proof.
  exists 1, (λ _ _, 0%R), (λ _, 1%R). intros l solve. split; [apply zero_not_finite|]. intros y j Hj. unfold descent, dot. cbn. ring.
Qed.
Lemma wrong_refuted : ∃ (l : library) (m n : nat) (J : mat) (r y : vec),
  numpy_right l n (squared m J) ∧ update_gn l (sp_cg l) true n (squared m J) (descent m J r) = Some (Some y) ∧ ¬ normal_eq m n J r y.
Proof. exists cramer, 2, 2, (rosen_jac (λ _, 0%R)), (rosen (λ _, 0%R)), (λ _, 0%R). split; [apply rosen_numpy|apply wrong_finite]. Qed.
Lemma raise_refuted : ∃ (l : library) (n : nat) (A : mat) (g : vec),
  (∃ y, sp_lsqr l n A g = Finite y ∧ shortest_least n A g y) ∧ is_Some (update_gn l (sp_spsolve l) false n A g) ∧ update_gn l (sp_spsolve l) true n A g = None.
Proof.
  destruct raise_ends as (_ & H1 & H2). exists raising, 2, (squared 1 both), (descent 1 both (λ _, 1%R)). split; [apply H1|apply H2].
Qed.
