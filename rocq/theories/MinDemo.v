(** Concrete objectives. *)
From Coq Require Import Reals String Lra Lia.
From stdpp Require Import list.
From Verif Require Import ArrModel ArrThms DogExact MinModel MinSpec MinThms.
Local Open Scope string_scope.

Definition only (a : R) : vec := λ j, match j with O => a | S _ => 0%R end.
(** x itself, one variable; x*x and x *)
Definition t_x : term := Term (λ x, [x 0]) (λ _, [only 1]).
Definition t_xx : term := Term (λ x, [Rmult (x 0) (x 0); x 0]) (λ x, [only (Rmult 2 (x 0)); only 1]).
Lemma dot1 (u d : vec) : dot 1 u d = Rmult (u 0) (d 0).
Proof. unfold dot. cbn. ring. Qed.
Lemma line_deriv x d : derivable_pt_lim (λ s, along x d s 0) 0 (d 0).
Proof.
  unfold along. eapply deriv_val; [|exact (derivable_pt_lim_plus _ _ _ _ _ (derivable_pt_lim_const (x 0) 0) (derivable_pt_lim_mult _ _ _ _ _ (derivable_pt_lim_id 0) (derivable_pt_lim_const (d 0) 0)))].
  unfold id, fct_cte. ring.
Qed.
Lemma smooth_x x : smooth_at 1 x t_x.
Proof.
  exists 1. split_and!; [done..|]. intros [|i] v Hv d; [|done]. injection Hv as <-. rewrite dot1. cbn [t_val t_jac t_x lookup list_lookup]. eapply deriv_val; [|exact (line_deriv x d)]. unfold only. cbn. ring.
Qed.
Lemma smooth_xx x : smooth_at 1 x t_xx.
Proof.
  exists 2. split_and!; [done..|]. intros [|[|i]] v Hv d; [| |done]; injection Hv as <-; rewrite dot1; cbn [t_val t_jac t_xx lookup list_lookup].
  - eapply deriv_val; [|exact (derivable_pt_lim_mult _ _ _ _ _ (line_deriv x d) (line_deriv x d))]. unfold along. cbn. ring.
  - eapply deriv_val; [|exact (line_deriv x d)]. unfold only. cbn. ring.
Qed.
Lemma affine_x : affine 1 t_x.
Proof. exists [only 1]. split; [done|apply smooth_x]. Qed.
Definition labelled : objective := Labelled [("data", t_xx); ("prior", t_x)].
Lemma labelled_smooth x : Forall (smooth_at 1 x) (objects labelled).
Proof. repeat constructor; [apply smooth_xx|apply smooth_x]. Qed.
Definition pair_x : objective := Several [t_x; t_x].
Lemma pair_affine : Forall (affine 1) (objects pair_x).
Proof. repeat constructor; apply affine_x. Qed.

(** One element: dogleg minimizes x * x, scipy's methods x. *)
Definition at_ (a : R) : vec := λ _, a.
Lemma one_element : ∃ t a b va vb, scipy_value (Single t) a a = Some va ∧ scipy_value (Single t) a b = Some vb ∧ (va < vb)%R ∧
  ∃ ca cb, dogleg_cost (Single t) a = Some ca ∧ dogleg_cost (Single t) b = Some cb ∧ (cb < ca)%R.
Proof.
  exists t_x, (at_ (-1)), (at_ 0), (-1)%R, 0%R. split_and!; [done..|lra|]. exists (total (Single t_x) (at_ (-1))), (total (Single t_x) (at_ 0)).
  split_and!; [by apply dogleg_total..|]. unfold total. cbn. unfold at_. lra.
Qed.
(** x*x and x: the Hessian of x^4 + x^2 at 1 is 14, the matrix given to scipy is 10. *)
Lemma curved_hessian : ∃ h, scipy_hess (Single t_xx) (at_ 1) (at_ 1) = Some h ∧ ¬ derivative_at 1 (λ x, default nov (scipy_grad (Single t_xx) (at_ 1) x)) (at_ 1) h.
Proof.
  eexists. split; [done|]. intros H. specialize (H (at_ 1) 0 ltac:(lia)). rewrite dot1 in H. cbn in H. unfold at_ in H.
  pose proof (line_deriv (at_ 1) (at_ 1)) as D. pose proof (derivable_pt_lim_mult _ _ _ _ _ (derivable_pt_lim_mult _ _ _ _ _ D D) D) as D3.
  pose proof (derivable_pt_lim_plus _ _ _ _ _ (derivable_pt_lim_scal _ 4 _ _ D3) (derivable_pt_lim_scal _ 2 _ _ D)) as D4.
  eapply deriv_ext in D4; [pose proof (uniqueness_limite _ _ _ _ H D4) as E|].
  - unfold along, at_, mult_fct in E. cbn in E. lra.
  - intros s. unfold plus_fct, mult_real_fct, mult_fct. cbn. unfold along, at_. change (scalar_itself t_xx (λ _ : nat, 1%R)) with false. cbv iota. unfold times. cbn. unfold only. ring.
Qed.
