(** Proofs about the Gauss-Newton step. *)
From Coq Require Import Reals Lra Lia String.
From stdpp Require Import prelude.
From Verif Require Import ArrModel ArrThms DogModel DogSpec DogExact DogGeo DogGeoThms LsqSpec LsqThms SmoothSpec GnModel GnSpec.

Section gn.
  Context (m n : nat) (J : mat) (r : vec).
  Notation JJ := (squared m J).
  Notation g := (descent m J r).
  Lemma gram_row j y : dot n (JJ j) y = dot m (λ i, J i j) (λ i, dot n (J i) y).
  Proof. rewrite (dot_swap m n J (λ i, J i j) y). apply dot_ext; [|done]. intros k _. unfold squared. apply dot_comm. Qed.
  Lemma solution_normal y : solution n JJ g y ↔ normal_eq m n J r y.
  Proof. unfold solution, normal_eq. split; intros H j Hj; [rewrite <- gram_row; by apply H|rewrite gram_row; by apply H]. Qed.
  Lemma solution_misfit y : solution n JJ g y → misfit n JJ g y = 0%R.
  Proof. intros H. unfold misfit. cbv zeta. apply dot_zeros. intros j Hj. rewrite H by done. lra. Qed.
  Lemma misfit_nonneg A b y : (0 <= misfit n A b y)%R.
  Proof. apply dot_nonneg. Qed.
  Lemma solution_least y : solution n JJ g y → least n JJ g y.
  Proof. intros H z. rewrite (solution_misfit y H). apply misfit_nonneg. Qed.
  Lemma least_zero A b y v : least n A b y → dot n (λ j, dot n (A j) v) (λ j, dot n (A j) y - b j)%R = 0%R.
  Proof.
    intros H. set (u := λ j, (dot n (A j) y - b j)%R). set (w := λ j, dot n (A j) v). set (a := dot n w u). set (c := dot n w w).
    assert (Hm : ∀ t, misfit n A b (λ k, y k + t * v k)%R = (dot n u u + 2 * t * a + t * t * c)%R).
    { intros t. unfold misfit. cbv zeta. rewrite (dot_ext n _ (λ j, u j + t * w j)%R _ (λ j, u j + t * w j)%R).
      - rewrite dot_add_r, !dot_add_l, !dot_scal_r, !dot_scal_l. rewrite (dot_comm n u w). fold a c. ring.
      - intros j _. unfold u, w. rewrite dot_add_r, dot_scal_r. ring.
      - intros j _. unfold u, w. rewrite dot_add_r, dot_scal_r. ring. }
    assert (H0 : ∀ t, (0 <= 2 * t * a + t * t * c)%R). { intros t. pose proof (H (λ k, y k + t * v k)%R) as Ht. rewrite Hm in Ht. unfold misfit in Ht. cbv zeta in Ht. fold u in Ht. lra. }
    assert (Hc : (0 <= c)%R) by apply dot_nonneg. destruct (Req_dec c 0) as [Hz|Hz].
    - pose proof (H0 (- a)%R). rewrite Hz in *. nra.
    - pose proof (H0 (- a / c)%R) as Hq. replace (2 * (- a / c) * a + - a / c * (- a / c) * c)%R with (- (a * a) / c)%R in Hq by (field; lra).
      assert (0 < / c)%R by (apply Rinv_0_lt_compat; lra). unfold Rdiv in Hq. apply Rsqr_0_uniq. unfold Rsqr. assert (a * a <= 0)%R by (apply (Rmult_le_reg_r (/ c)); [done|lra]). pose proof (Rle_0_sqr a) as Hs. unfold Rsqr in Hs. lra.
  Qed.
  (** normal equations are solved by whatever has the least misfit *)
  Lemma least_solution y : least n JJ g y → solution n JJ g y.
  Proof.
    intros H. set (u := λ j, (dot n (JJ j) y - g j)%R). set (w := λ i, (dot n (J i) y + r i)%R).
    assert (Hu : ∀ j, u j = dot m (λ i, J i j) w).
    { intros j. unfold u, w. rewrite gram_row, dot_add_r. unfold descent. lra. }
    assert (Ju : dot m (λ i, dot n (J i) u) (λ i, dot n (J i) u) = 0%R).
    { rewrite (dot_swap m n J (λ i, dot n (J i) u) u). pose proof (least_zero JJ g y u H) as Hz. rewrite <- Hz. apply dot_ext; [|done]. intros j _. by rewrite gram_row. }
    assert (Huu : dot n u u = 0%R).
    { rewrite (dot_ext n u (λ j, dot m (λ i, J i j) w) u u); [|intros; apply Hu|done]. rewrite <- (dot_swap m n J w u). rewrite dot_comm. by apply dot_zero_l. }
    intros j Hj. pose proof (dot_zero n u Huu j Hj) as H1. unfold u in H1. lra.
  Qed.
  Lemma shortest_right y : shortest_least n JJ g y → normal_eq m n J r y ∧ ∀ z, normal_eq m n J r z → (len n y <= len n z)%R.
  Proof.
    intros [H1 H2]. split; [by apply solution_normal, least_solution|]. intros z Hz. apply H2, solution_least. by apply solution_normal.
  Qed.
  Lemma regular_right y : regular n JJ → solution n JJ g y → normal_eq m n J r y ∧ ∀ z, normal_eq m n J r z → (len n y <= len n z)%R.
  Proof.
    intros Hr Hs. split; [by apply solution_normal|]. intros z Hz. apply solution_normal in Hz. unfold len. rewrite (dot_ext n y z y z); [lra| |].
    all: intros j Hj; pose proof (Hr (λ k, y k - z k)%R) as Hd; cbv beta in Hd; apply Rminus_diag_uniq, Hd; [|done]; intros i Hi; rewrite dot_sub_r, Hs, Hz by done; lra.
  Qed.
End gn.
Lemma dense_right l solve m n J : numpy_right l n (squared m J) → solves_shortest m n (gn_solver l solve false n) J.
Proof.
  intros [H1 H2] r. change (gram (exact m n (gn_solver l solve false n)) J) with (squared m J). unfold gn_solver, update_gn.
  destruct (np_solve l n (squared m J) (descent m J r)) as [y|] eqn:E.
  - exists y. split; [done|]. destruct (H1 _ _ E). by apply regular_right.
  - destruct (H2 (descent m J r) E) as (y & -> & Hy). exists y. split; [done|]. by apply shortest_right.
Qed.
Lemma sparse_right l solve m n J : 1 < n → direct l solve n (squared m J) → solves_shortest m n (gn_solver l solve true n) J.
Proof.
  intros Hn (Hd & H1 & Hr) r. change (gram (exact m n (gn_solver l solve true n)) J) with (squared m J). unfold gn_solver, update_gn. rewrite (proj2 (Nat.ltb_lt 1 n) Hn).
  destruct (solve n (squared m J) (descent m J r)) as [y| |] eqn:E; [| |by apply Hr in E].
  - exists y. split; [done|]. destruct (Hd _ _ E). by apply regular_right.
  - destruct (H1 (descent m J r) E) as (y & -> & Hy). exists y. split; [done|]. by apply shortest_right.
Qed.
Lemma sparse_sound l solve m n J : 1 < n → sound l solve n (squared m J) → solves m n (gn_solver l solve true n) J.
Proof.
  intros Hn (Hd & H1 & Hr) r. change (gram (exact m n (gn_solver l solve true n)) J) with (squared m J). unfold gn_solver, update_gn. rewrite (proj2 (Nat.ltb_lt 1 n) Hn).
  destruct (solve n (squared m J) (descent m J r)) as [y| |] eqn:E; [| |by apply Hr in E].
  - exists y. split; [done|]. by apply solution_normal, (Hd _ _ E).
  - destruct (H1 (descent m J r) E) as (y & -> & Hy). exists y. split; [done|]. by apply shortest_right.
Qed.
Lemma one_right l solve m J : (∃ i, i < m ∧ J i 0 ≠ 0%R) → solves_shortest m 1 (gn_solver l solve true 1) J.
Proof.
  intros (i & Hi & Hn) r. change (gram (exact m 1 (gn_solver l solve true 1)) J) with (squared m J). unfold gn_solver, update_gn. cbn [Nat.ltb Nat.leb Nat.eqb].
  assert (Hz : squared m J 0 0 ≠ 0%R). { intros Hz. apply Hn. by apply (dot_zero m (λ i, J i 0)). }
  destruct (Req_EM_T (squared m J 0 0) 0) as [|_]; [done|]. eexists. split; [done|]. apply regular_right.
  - intros v Hv j Hj. destruct j; [|lia]. specialize (Hv 0 ltac:(lia)). unfold dot in Hv. cbn in Hv. ring_simplify in Hv. by destruct (Rmult_integral _ _ Hv).
  - intros j Hj. destruct j; [|lia]. unfold dot at 1. cbn -[squared descent]. by field.
Qed.
Lemma zero_not_finite l solve : update_gn l solve true 1 (squared 1 (λ _ _, 0%R)) (descent 1 (λ _ _, 0%R) (λ _, 1%R)) = Some None.
Proof. cbn [update_gn Nat.ltb Nat.leb Nat.eqb]. destruct (Req_EM_T _ 0) as [|Hn]; [done|]. exfalso. apply Hn. unfold squared, dot. cbn. ring. Qed.
Lemma setup_choice l c f : setup_sparse_solver l c = Some f ↔ c = Function f ∨ (c = Name "cg" ∧ f = sp_cg l) ∨ (c = Name "spsolve" ∧ f = sp_spsolve l).
Proof.
  destruct c as [s|h|]; cbn.
  - destruct (String.eqb_spec s "cg") as [->|H1]; [|destruct (String.eqb_spec s "spsolve") as [->|H2]].
    + split; [intros [= <-]; by right; left|]. intros [Hf|[[_ ->]|[Hf _]]]; [done|done|by injection Hf].
    + split; [intros [= <-]; by right; right|]. intros [Hf|[[Hf _]|[_ ->]]]; [done|by injection Hf|done].
    + split; [done|]. intros [Hf|[[Hf _]|[Hf _]]]; [done|by injection Hf|by injection Hf].
  - split; [intros [= <-]; by left|]. intros [[= ->]|[[Hf _]|[Hf _]]]; done.
  - split; [done|]. by intros [Hf|[[Hf _]|[Hf _]]].
Qed.
Lemma smooth_solves m n l solve sparse F J x0 : (∀ x, no_worse m F x0 x → solves m n (gn_solver l solve sparse n) (J x)) → solves_at m n (gn_solver l solve sparse n) F J x0.
Proof. intros H x Hx. exact (H x Hx (F x)). Qed.
Lemma shortest_solves m n slv J : solves_shortest m n slv J → solves m n slv J.
Proof. intros H r. destruct (H r) as (y & ? & ? & _). by exists y. Qed.

(** One residual that is the sum of two parameters: J'J is singular. numpy for this matrix: *)
Definition both : mat := λ _ _, 1%R.
Definition half (g : vec) : vec := λ _, ((g 0%nat + g 1%nat) / 4)%R.
Definition lib2 : library := Library (λ _ _ _, None) (λ _ _ g, Some (half g)) (λ _ _ _, NotFinite) (λ _ _ g, Finite (half g)) (λ _ _ g, Finite (half g)).
Lemma dot_two u v : dot 2 u v = (u 0%nat * v 0%nat + u 1%nat * v 1%nat)%R.
Proof. unfold dot. cbn. ring. Qed.
Lemma both_squared j k : squared 1 both j k = 1%R.
Proof. unfold squared, dot, both. cbn. ring. Qed.
Lemma both_misfit g z : misfit 2 (squared 1 both) g z = (2 * ((z 0%nat + z 1%nat - (g 0%nat + g 1%nat) / 2) * (z 0%nat + z 1%nat - (g 0%nat + g 1%nat) / 2)) + (g 0%nat - g 1%nat) * (g 0%nat - g 1%nat) / 2)%R.
Proof. unfold misfit. cbv zeta. rewrite !dot_two, !both_squared. field. Qed.
Lemma both_shortest g : shortest_least 2 (squared 1 both) g (half g).
Proof.
  assert (H0 : misfit 2 (squared 1 both) g (half g) = ((g 0%nat - g 1%nat) * (g 0%nat - g 1%nat) / 2)%R) by (rewrite both_misfit; unfold half; field).
  split.
  - intros z. rewrite H0, both_misfit. set (a := (z 0%nat + z 1%nat - _)%R). pose proof (Rle_0_sqr a) as Ha. unfold Rsqr in Ha. lra.
  - intros z Hz. specialize (Hz (half g)). rewrite H0, both_misfit in Hz. set (s := ((g 0%nat + g 1%nat) / 2)%R) in *. assert (Hs : (z 0%nat + z 1%nat = s)%R).
    { apply Rminus_diag_uniq, Rsqr_0_uniq. unfold Rsqr. pose proof (Rle_0_sqr (z 0%nat + z 1%nat - s)) as Ha. unfold Rsqr in Ha. lra. }
    unfold len. apply sqrt_le_1_alt. rewrite !dot_two. replace (half g 0) with (s / 2)%R by (unfold half, s; field). replace (half g 1) with (s / 2)%R by (unfold half, s; field).
    pose proof (Rle_0_sqr (z 0%nat - z 1%nat)) as Ha. unfold Rsqr in Ha. nra.
Qed.
Lemma both_numpy : numpy_right lib2 2 (squared 1 both).
Proof. split; [done|]. intros g _. eexists. split; [done|]. apply both_shortest. Qed.
Lemma both_direct : direct lib2 (sp_spsolve lib2) 2 (squared 1 both).
Proof. split_and!; [done| |done]. intros g _. eexists. split; [done|]. apply both_shortest. Qed.
