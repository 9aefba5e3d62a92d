(** Concrete variables and objectives. *)
From Coq Require Import Reals Lra Lia.
From stdpp Require Import list.
From Verif Require Import SlotModel SlotSpec SlotThms.

Definition first (e : env) (v : nat) : R := default 0%R (head (e v)).
(** the first variable's element, and its sum with the second's *)
Definition f_first (e : env) : R := first e 0.
Definition lop_first (v : nat) (e : env) : option (list R) := if decide (v = 0) then Some [1%R] else None.
Definition f_both (e : env) : R := (first e 0 + 3 * first e 1)%R.
Definition lop_both (v : nat) (e : env) : option (list R) := if decide (v = 0) then Some [1%R] else if decide (v = 1) then Some [3%R] else None.
Lemma lin_deriv a c : derivable_pt_lim (λ s, a + c * s)%R 0 c.
Proof.
  pose proof (derivable_pt_lim_plus (λ _, a) (mult_real_fct c id) 0 0 (c * 1) (derivable_pt_lim_const a 0) (derivable_pt_lim_scal id c 0 1 (derivable_pt_lim_id 0))) as D.
  replace (0 + c * 1)%R with c in D by ring. exact D.
Qed.
Lemma both_partials e a b : e 0 = [a] → e 1 = [b] → ∀ x, x ∈ [(0, 1); (1, 1)] → ∃ g, lop_both x.1 e = Some g ∧ length g = x.2 ∧ partials f_both e x.1 g.
Proof.
  intros E0 E1 x Hx. apply elem_of_cons in Hx as [->|Hx]; [|apply elem_of_list_singleton in Hx as ->]; (eexists; split; [done|]; split; [done|]; split; [cbn; by rewrite ?E0, ?E1|]);
    intros [|j] d Hd; try done; injection Hd as <-; cbn [fst].
  - eapply (derivable_pt_lim_ext (λ s, (a + 3 * b) + 1 * s)%R); [|apply lin_deriv]. intros s. unfold f_both, first. rewrite assign_same, assign_other, E0, E1 by done. cbn. ring.
  - eapply (derivable_pt_lim_ext (λ s, (a + 3 * b) + 3 * s)%R); [|apply lin_deriv]. intros s. unfold f_both, first. rewrite assign_same, assign_other, E0, E1 by done. cbn. ring.
Qed.
Definition zero_env : env := λ _, [0%R].
Lemma both_case : let fv := [(0, 1); (1, 1)] in let vs := [2; 5]%R in NoDup fv.*1 ∧ length vs = total fv ∧
  ∀ x, x ∈ fv → length (changevars zero_env fv vs x.1) = x.2 → ∃ g, lop_both x.1 (changevars zero_env fv vs) = Some g ∧ length g = x.2 ∧ partials f_both (changevars zero_env fv vs) x.1 g.
Proof. split_and!; [by apply (bool_decide_unpack _)|done|]. intros x Hx _. by apply (both_partials _ 2 5). Qed.

Lemma first_partials e : length (e 0) = 1 → partials f_first e 0 [1%R].
Proof.
  intros L. destruct (e 0) as [|a [|]] eqn:E0; try done. split; [cbn; by rewrite E0|]. intros [|j] d Hd; [|done]. injection Hd as <-.
  eapply (derivable_pt_lim_ext (λ s, a + 1 * s)%R); [|apply lin_deriv]. intros s. unfold f_first, first. rewrite assign_same, E0. cbn. ring.
Qed.
Lemma no_influence : ∃ f lop e fv vs F G, NoDup fv.*1 ∧ length vs = foldr Nat.add 0 fv.*2 ∧
  (∀ x, x ∈ fv → (∃ g, lop x.1 (changevars e fv vs) = Some g ∧ partials f (changevars e fv vs) x.1 g) ∨ (lop x.1 (changevars e fv vs) = None ∧ indifferent f x.1)) ∧
  scipy_problem f lop e fv = Some (F, G) ∧ G vs = [Some 1%R; None] ∧ length vs = 3 ∧ ¬ lines_up F vs (G vs).
Proof.
  exists f_first, lop_first, zero_env, [(0, 1); (1, 2)], [2; 5; 7]%R. eexists _, _. split_and!; [by apply (bool_decide_unpack _)|done| |done|done|done|].
  - intros x Hx. apply elem_of_cons in Hx as [->|Hx]; [|apply elem_of_list_singleton in Hx as ->].
    + left. eexists. split; [done|]. by apply first_partials.
    + right. split; [done|]. intros e l. unfold f_first, first. by rewrite assign_other.
  - intros [H _]. done.
Qed.
Lemma twice : ∃ f lop e fv vs F G, dogleg_accepts fv = false ∧ length vs = foldr Nat.add 0 fv.*2 ∧
  (∀ x, x ∈ fv → ∃ g, lop x.1 (changevars e fv vs) = Some g ∧ length g = x.2 ∧ partials f (changevars e fv vs) x.1 g) ∧
  scipy_problem f lop e fv = Some (F, G) ∧ ¬ lines_up F vs (G vs).
Proof.
  exists f_first, lop_first, zero_env, [(0, 1); (0, 1)], [2; 5]%R. eexists _, _. split_and!; [done|done| |done|].
  - intros x Hx. assert (x = (0, 1)) as ->. { apply elem_of_cons in Hx as [->|Hx]; [done|]. by apply elem_of_list_singleton in Hx. }
    eexists. split_and!; [done|done|]. by apply first_partials.
  - intros [_ H]. destruct (H 0) as (d & Hd & D); [cbn; lia|]. change (Some (Some 1%R) = Some (Some d)) in Hd. injection Hd as <-. assert (D0 : derivable_pt_lim (λ _, 5%R) 0%R 0%R) by apply derivable_pt_lim_const.
    assert (X : 1%R = 0%R); [|lra]. eapply uniqueness_limite; [|exact D0]. eapply (derivable_pt_lim_ext (moved _ [2; 5]%R 0)); [|exact D]. intros s. done.
Qed.
