(** Concrete runs of the optimizer meeting the hypotheses of the theorems. *)
From Coq Require Import Reals Lra Lia ZArith.
From Flocq Require Import Core IEEE754.BinarySingleNaN.
From stdpp Require Import prelude.
From Verif Require Import ArrModel ArrThms DogModel DogSpec DogExact DogGeo DogGeoThms DogLive DogBest DogStops Dog64 DogPlane.

(** a step that interpolates: weight 1/2 between 1 and 3 *)
Example between_half : dogleg 1 (λ _, 1%R) (λ _, 3%R) 2 (λ _, 2%R).
Proof.
  assert (L : ∀ c, (0 <= c)%R → len 1 (λ _, c) = c). { intros c Hc. apply len_is; [done|]. unfold dot. cbn. lra. }
  apply (dog_between _ _ _ _ _ (1 / 2)); rewrite ?L by lra; try lra. intros _. lra.
Qed.
(** one residual, one parameter: the residual is the parameter; the solver divides *)
Definition div_solver (A : mat) (g : vec) : option vec := Some (λ _, if Req_EM_T (A 0 0) 0 then 0%R else (g 0%nat / A 0%nat 0%nat)%R).
Definition ident_problem : problem reals (exact 1 1 div_solver) := Build_problem reals (exact 1 1 div_solver)
  (λ _ x, Some x) (λ _ _, Some (λ _ _, 1%R)) (Some 5) None (Some (1 / 10)%R : K reals) (Some (1 / 10)%R : K reals) (Some 0%R : K reals) (Some (Some 1%R : K reals)).
Example div_solver_right J r y : div_solver (gram (exact 1 1 div_solver) J) (descent 1 J r) = Some y → normal_eq 1 1 J r y.
Proof.
  intros [= <-]. intros [|j] Hj; [|lia]. unfold descent, dot. cbn -[Req_EM_T]. unfold dot. cbn -[Req_EM_T]. destruct (Req_EM_T _ 0) as [H|H].
  - assert (H0 : J 0%nat 0%nat = 0%R) by nra. rewrite H0. lra.
  - field. intros H0. apply H. rewrite H0. ring.
Qed.
Example ident_problem_meets : (∀ k (x : vec), resid _ _ ident_problem k (Some x) ≠ Some None) ∧ e1 _ _ ident_problem = Some (1 / 10)%R ∧ (0 < 1 / 10)%R ∧ positive (delta0 _ _ ident_problem).
Proof. split_and!; [done|done|lra|]. right. exists 1%R. split; [done|lra]. Qed.
(** the gradient is not zero and the normal equations are solved *)
Example normal_at_two : (0 < dot 1 (descent 1 (λ _ _, 1%R) (λ _, 2%R)) (descent 1 (λ _ _, 1%R) (λ _, 2%R)))%R ∧ normal_eq 1 1 (λ _ _, 1%R) (λ _, 2%R) (λ _, (-2)%R).
Proof. split; [unfold descent, dot; cbn; lra|]. intros [|j] Hj; [|lia]. unfold descent, dot. cbn. lra. Qed.

(** a run in binary64 numbers that is tame *)
Definition tameb {slv} (P : problem f64 (plane slv)) (l : list (event f64 (plane slv))) : bool :=
  forallb (λ e : event f64 (plane slv), match e with
    | ETrial _ _ rho _ => negb (is_nan (rho : b64))
    | EStep _ _ _ d => is_finite (d : b64)
    | ECall _ _ x => Bleb (B754_zero false) (kmul f64 (e2 _ _ P) (norm2 x))
    | _ => true end) l.
Lemma tameb_tame {slv} (P : problem f64 (plane slv)) l : tameb P l = true → tame P nan64 fin64 l.
Proof.
  intros H e He. unfold tameb in H. rewrite forallb_forall in H. specialize (H e ltac:(by apply elem_of_list_In)). destruct e; try done.
  intros Hn. unfold nan64 in Hn. simpl in H. by rewrite Hn in H.
Qed.
Lemma returned_stays {slv} (P : problem f64 (plane slv)) x n k : finished (run _ _ P x n) → run _ _ P x (k + n) = run _ _ P x n.
Proof. intros H. unfold run in *. rewrite (iter_add _ _ P). set (c := Nat.iter n _ _) in *. induction k as [|k IH]; [done|]. simpl. rewrite IH. by destruct c. Qed.
Example simple_tame n : tame simple nan64 fin64 (events (run _ _ simple unit_pt n)).
Proof.
  apply tameb_tame. destruct (decide (n ≤ 3)) as [Hn|Hn].
  - do 4 (destruct n as [|n]; [vm_compute; reflexivity|]). lia.
  - replace n with ((n - 3) + 3) by lia. rewrite returned_stays by apply simple_two. vm_compute. reflexivity.
Qed.
Example simple_limits : maxiter _ _ simple = Some 3 ∧ max_fevals _ _ simple = Some 1.
Proof. done. Qed.
