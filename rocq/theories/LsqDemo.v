(** Two least squares problems: x0 + 3 for two parameters, of which one has no influence,
    and x0 + 1, x0 - 5 for one. *)
From Coq Require Import Reals Lra Lia.
From stdpp Require Import list.
From Verif Require Import ArrModel ArrThms DogModel DogSpec DogExact DogGeo DogGeoThms LsqSpec.

Definition affine_run (m n : nat) (slv : mat → vec → option vec) (J : mat) (b : vec) (t1 t2 : R) (d : option (option R)) : problem reals (exact m n slv) :=
  {| resid := λ _ x, Some ((linear n J b <$> x) : W (exact m n slv)); jac := λ _ _, Some (J : M (exact m n slv)); maxiter := None; max_fevals := None;
     e1 := Some t1 : K reals; e2 := Some t2 : K reals; e3 := Some 0%R : K reals; delta0 := d |}.
Lemma affine_run_ok m n slv J b t1 t2 d : affine_problem m n slv J b (affine_run m n slv J b t1 t2 d).
Proof. done. Qed.
(** one residual, two parameters *)
Definition flat : mat := λ i j, match j with O => 1%R | S _ => 0%R end.
Definition flat_solve (A : mat) (g : vec) : option vec := Some (λ j, match j with O => g 0 | S _ => 0%R end).
Lemma flat_solves : solves_shortest 1 2 flat_solve flat.
Proof.
  intros r. eexists. split; [done|]. split.
  - intros [|[|j]] Hj; [..|lia]; cbv -[Rplus Rmult Ropp IZR]; ring.
  - intros z Hz. specialize (Hz 0 ltac:(lia)). assert (Z : z 0 = descent 1 flat r 0). { rewrite <- Hz. cbv -[Rplus Rmult Ropp IZR]. ring. }
    unfold len. apply sqrt_le_1_alt. unfold dot. cbn [seq fmap list_fmap]. rewrite !rsum_cons, rsum_nil, Z. pose proof (Rle_0_sqr (z 1)). unfold Rsqr in *. lra.
Qed.
(** two residuals, one parameter *)
Definition tall : mat := λ _ _, 1%R.
Definition tall_solve (A : mat) (g : vec) : option vec := Some (λ j, g j / 2)%R.
Lemma tall_solves : solves 2 1 tall_solve tall.
Proof. intros r. eexists. split; [done|]. intros [|j] Hj; [|lia]. cbv -[Rplus Rmult Ropp IZR Rinv]. field. Qed.
Lemma tall_rank : full_rank 2 1 tall.
Proof. intros v H j Hj. specialize (H 0 ltac:(lia)). cbv -[Rplus Rmult Ropp IZR] in H. assert (j = 0) as -> by lia. lra. Qed.
Lemma tall_unsolved : ¬ (maxabs 1 (descent 2 tall (linear 1 tall (λ i, match i with O => 1 | S _ => -5 end)%R (λ _, 0%R))) < 1 / 1000)%R.
Proof.
  intros H. assert (E : descent 2 tall (linear 1 tall (λ i, match i with O => 1 | S _ => -5 end)%R (λ _, 0%R)) 0 = 4%R) by (cbv -[Rplus Rmult Ropp IZR]; lra).
  unfold maxabs in H. cbn [seq fmap list_fmap foldr] in H. rewrite E in H. pose proof (Rmax_l (Rabs 4) 0) as Q. rewrite (Rabs_pos_eq 4) in *; lra.
Qed.
