(** Singular values and vectors along a curve of matrices: continuity implies
    differentiability. *)
From Coq Require Import Reals Lra.
From stdpp Require Import list list_numbers numbers.
From Verif Require Import ArrModel Curve ArrThms.
Local Open Scope R_scope.

Notation rs n f := (rsum (f <$> seq 0 n)).

Lemma rs_ext n (f g : nat → R) : (∀ i, (i < n)%nat → f i = g i) → rs n f = rs n g.
Proof. intros H. apply rsum_ext. intros i Hi%elem_of_seq. apply H. lia. Qed.
Lemma rs_scal n c (f : nat → R) : rs n (λ i, c * f i) = c * rs n f.
Proof. apply rsum_scal. Qed.
Lemma rs_scal_r n c (f : nat → R) : rs n (λ i, f i * c) = rs n f * c.
Proof. rewrite Rmult_comm, <- rs_scal. apply rs_ext. intros. ring. Qed.
Lemma rs_plus n (f g : nat → R) : rs n (λ i, f i + g i) = rs n f + rs n g.
Proof. apply rsum_plus. Qed.
Lemma rs_minus n (f g : nat → R) : rs n (λ i, f i - g i) = rs n f - rs n g.
Proof.
  transitivity (rs n (λ i, f i + (-1) * g i)); [apply rs_ext; intros; ring|].
  rewrite rs_plus, rs_scal. ring.
Qed.
Lemma rs_swap m n (f : nat → nat → R) : rs m (λ i, rs n (f i)) = rs n (λ j, rs m (λ i, f i j)).
Proof. exact (rsum_swap f (seq 0 m) (seq 0 n)). Qed.
Lemma rs_single n (f : nat → R) k : (k < n)%nat → (∀ i, (i < n)%nat → i ≠ k → f i = 0) → rs n f = f k.
Proof.
  intros Hk Hf. apply rsum_single; [apply NoDup_seq_|apply elem_of_seq; lia|].
  intros i Hi%elem_of_seq Hne. apply Hf; [lia|done].
Qed.
Lemma rs_zero n (f : nat → R) : (∀ i, (i < n)%nat → f i = 0) → rs n f = 0.
Proof. intros H. apply rsum_zero. intros i Hi%elem_of_seq. apply H. lia. Qed.

(** Continuity at 0 *)
Lemma cont_ext f g : (∀ t, f t = g t) → continuity_pt f 0 → continuity_pt g 0.
Proof.
  intros Hfg Hf e He. destruct (Hf e He) as (d & Hd & H). exists d. split; [done|].
  intros x Hx. rewrite <- !Hfg. by apply H.
Qed.
Lemma cont_near f g : near (λ t, f t = g t) → continuity_pt f 0 → continuity_pt g 0.
Proof.
  intros Hn Hf e He. pose proof (near_0 _ Hn) as H0. simpl in H0. destruct Hn as (d1 & Hd1 & H1).
  destruct (Hf e He) as (d2 & Hd2 & H2). exists (Rmin d1 d2). split; [by apply Rmin_pos|].
  intros x [HD Hx]. simpl in Hx. unfold R_dist in Hx.
  rewrite <- H0, <- H1.
  - apply H2. split; [done|]. simpl. unfold R_dist. pose proof (Rmin_r d1 d2). lra.
  - pose proof (Rmin_l d1 d2). rewrite Rminus_0_r in Hx. lra.
Qed.
Lemma cont_const c : continuity_pt (λ _, c) 0.
Proof. apply continuity_pt_const. by intros ? ?. Qed.
Lemma cont_mult f g : continuity_pt f 0 → continuity_pt g 0 → continuity_pt (λ t, f t * g t) 0.
Proof. intros. by apply (continuity_pt_mult f g). Qed.
Lemma cont_plus f g : continuity_pt f 0 → continuity_pt g 0 → continuity_pt (λ t, f t + g t) 0.
Proof. intros. by apply (continuity_pt_plus f g). Qed.
Lemma cont_scal c f : continuity_pt f 0 → continuity_pt (λ t, c * f t) 0.
Proof. intros. apply (cont_mult (λ _, c)); [apply cont_const|done]. Qed.
Lemma cont_inv f : continuity_pt f 0 → f 0 ≠ 0 → continuity_pt (λ t, / f t) 0.
Proof. intros. by apply (continuity_pt_inv f). Qed.
Lemma cont_sum n (f : nat → R → R) : (∀ i, (i < n)%nat → continuity_pt (f i) 0) → continuity_pt (λ t, rs n (λ i, f i t)) 0.
Proof.
  assert (H : ∀ l : list nat, (∀ i, i ∈ l → continuity_pt (f i) 0) → continuity_pt (λ t, rsum ((λ i, f i t) <$> l)) 0).
  { induction l as [|a l IH]; intros Hl; [exact (cont_const 0)|].
    apply (cont_ext (λ t, f a t + rsum ((λ i, f i t) <$> l))); [done|].
    apply cont_plus; [apply Hl; left|apply IH; intros; apply Hl; by right]. }
  intros Hf. apply H. intros i Hi%elem_of_seq. apply Hf. lia.
Qed.
Lemma deriv_cont f l : derivable_pt_lim f 0 l → continuity_pt f 0.
Proof. intros H. apply derivable_continuous_pt. by exists l. Qed.
Lemma cont_nonzero f : continuity_pt f 0 → f 0 ≠ 0 → near (λ t, f t ≠ 0).
Proof.
  intros Hf H0. destruct (Hf (Rabs (f 0)) (Rabs_pos_lt _ H0)) as (d & Hd & H). exists d. split; [done|].
  intros t Ht. destruct (Req_EM_T t 0) as [->|Hne]; [done|].
  assert (Hd' : R_dist (f t) (f 0) < Rabs (f 0)).
  { apply H. split; [split; [done|by apply not_eq_sym]|]. simpl. unfold R_dist. by rewrite Rminus_0_r. }
  intros E. unfold R_dist in Hd'. rewrite E, Rminus_0_l, Rabs_Ropp in Hd'. lra.
Qed.
Lemma cont_above f c : continuity_pt f 0 → c < f 0 → near (λ t, c < f t).
Proof.
  intros Hf H0. destruct (Hf (f 0 - c)) as (d & Hd & H); [lra|]. exists d. split; [done|].
  intros t Ht. destruct (Req_EM_T t 0) as [->|Hne]; [done|].
  assert (Hd' : R_dist (f t) (f 0) < f 0 - c).
  { apply H. split; [split; [done|by apply not_eq_sym]|]. simpl. unfold R_dist. by rewrite Rminus_0_r. }
  unfold R_dist in Hd'. apply Rabs_def2 in Hd'. lra.
Qed.

(** The product of a differentiable function that vanishes at 0 and a continuous one. *)
Lemma deriv_zero_mult f g l : f 0 = 0 → derivable_pt_lim f 0 l → continuity_pt g 0 →
  derivable_pt_lim (λ t, f t * g t) 0 (l * g 0).
Proof.
  intros H0 Hf Hg.
  set (phi := λ h, if Req_EM_T h 0 then l else f h / h).
  assert (Hphi : continuity_pt phi 0).
  { intros e He. destruct (Hf e He) as [d Hd]. exists (pos d). split; [apply cond_pos|].
    intros x [[_ Hx0] Hx]. simpl in Hx |- *. unfold R_dist in Hx |- *. rewrite Rminus_0_r in Hx.
    unfold phi. destruct (Req_EM_T x 0) as [->|_]; [done|]. destruct (Req_EM_T 0 0) as [_|]; [|done].
    specialize (Hd x (not_eq_sym Hx0) Hx). by rewrite Rplus_0_l, H0, Rminus_0_r in Hd. }
  pose proof (cont_mult _ _ Hphi Hg) as Hc. intros e He. destruct (Hc e He) as (d & Hd & H).
  exists (mkposreal d Hd). intros h Hh0 Hh. simpl in Hh.
  assert (HH : R_dist (phi h * g h) (phi 0 * g 0) < e).
  { apply H. split; [split; [done|by apply not_eq_sym]|]. simpl. unfold R_dist. by rewrite Rminus_0_r. }
  unfold R_dist, phi in HH. destruct (Req_EM_T h 0) as [|_]; [done|]. destruct (Req_EM_T 0 0) as [_|]; [|done].
  rewrite Rplus_0_l, H0. replace ((f h * g h - 0 * g 0) / h) with (f h / h * g h) by (field; done). done.
Qed.
Lemma deriv_plus f g a b : derivable_pt_lim f 0 a → derivable_pt_lim g 0 b → derivable_pt_lim (λ t, f t + g t) 0 (a + b).
Proof. apply (derivable_pt_lim_plus f g). Qed.
Lemma deriv_mult f g a b : derivable_pt_lim f 0 a → derivable_pt_lim g 0 b →
  derivable_pt_lim (λ t, f t * g t) 0 (a * g 0 + f 0 * b).
Proof. apply (derivable_pt_lim_mult f g). Qed.
Lemma deriv_rs n (f : nat → R → R) f' : (∀ i, (i < n)%nat → derivable_pt_lim (f i) 0 (f' i)) →
  derivable_pt_lim (λ t, rs n (λ i, f i t)) 0 (rs n f').
Proof. intros H. apply deriv_rsum. intros i Hi%elem_of_seq. apply H. lia. Qed.
Lemma deriv_eq f a b : derivable_pt_lim f 0 a → a = b → derivable_pt_lim f 0 b.
Proof. by intros ? <-. Qed.

(* ------------------------------------------------------------------ *)
(** Vectors u_l(0) and v_k(t): the first of the two equations. *)
Section half.
Context (m n K : nat) (X : R → nat → nat → R) (X' : nat → nat → R) (U V : R → nat → nat → R) (S : R → nat → R).
Definition inner (N : nat) (W : R → nat → nat → R) (l k : nat) (t : R) : R := rs N (λ i, W 0 i l * W t i k).
Definition shift (l k : nat) (t : R) : R := rs m (λ i, rs n (λ j, U 0 i l * (X t i j - X 0 i j) * V t j k)).
Definition rights (t : R) : Prop := ∀ i k, (i < m)%nat → (k < K)%nat → rs n (λ j, X t i j * V t j k) = S t k * U t i k.
Definition lefts (t : R) : Prop := ∀ j k, (j < n)%nat → (k < K)%nat → rs m (λ i, X t i j * U t i k) = S t k * V t j k.

Lemma shift_eq l k t : (l < K)%nat → (k < K)%nat → rights t → lefts 0 →
  shift l k t = S t k * inner m U l k t - S 0 l * inner n V l k t.
Proof.
  intros Hl Hk Hr Hl0. unfold shift.
  assert (E1 : S t k * inner m U l k t = rs m (λ i, rs n (λ j, U 0 i l * X t i j * V t j k))).
  { unfold inner. rewrite <- rs_scal. apply rs_ext. intros i Hi.
    transitivity (U 0 i l * (S t k * U t i k)); [ring|]. rewrite <- Hr by done. rewrite <- rs_scal.
    apply rs_ext. intros. ring. }
  assert (E2 : S 0 l * inner n V l k t = rs m (λ i, rs n (λ j, U 0 i l * X 0 i j * V t j k))).
  { unfold inner. rewrite <- rs_scal, rs_swap. apply rs_ext. intros j Hj.
    transitivity ((S 0 l * V 0 j l) * V t j k); [ring|]. rewrite <- Hl0 by done. rewrite <- rs_scal_r.
    apply rs_ext. intros. ring. }
  rewrite E1, E2, <- rs_minus. apply rs_ext. intros i Hi. rewrite <- rs_minus. apply rs_ext. intros j Hj. ring.
Qed.
Lemma shift_0 l k : shift l k 0 = 0.
Proof. apply rs_zero. intros i _. apply rs_zero. intros j _. ring. Qed.
Lemma shift_deriv l k : (k < K)%nat → (∀ i j, (i < m)%nat → (j < n)%nat → derivable_pt_lim (λ t, X t i j) 0 (X' i j)) →
  (∀ j k, (j < n)%nat → (k < K)%nat → continuity_pt (λ t, V t j k) 0) →
  derivable_pt_lim (shift l k) 0 (rs m (λ i, rs n (λ j, U 0 i l * X' i j * V 0 j k))).
Proof.
  intros Hk HX HV. unfold shift. apply deriv_rs. intros i Hi. apply deriv_rs. intros j Hj.
  apply deriv_zero_mult; [ring| |by apply HV]. apply deriv_scal.
  eapply deriv_eq; [apply (deriv_plus (λ t, X t i j) (λ _, - X 0 i j)); [by apply HX|apply deriv_const]|ring].
Qed.
Lemma inner_cont N W l k : (∀ i, (i < N)%nat → continuity_pt (λ t, W t i k) 0) → continuity_pt (inner N W l k) 0.
Proof. intros H. apply (cont_sum N (λ i t, W 0 i l * W t i k)). intros i Hi. apply cont_scal. by apply H. Qed.
End half.

(* ------------------------------------------------------------------ *)
Section curve.
Context (m n K : nat) (X : R → nat → nat → R) (X' : nat → nat → R) (U V : R → nat → nat → R) (S : R → nat → R).
Definition uni (i j : nat) : R := if decide (i = j) then 1 else 0.
Definition ortho (N : nat) (W : R → nat → nat → R) (t : R) : Prop :=
  ∀ p q, (p < K)%nat → (q < K)%nat → rs N (λ i, W t i p * W t i q) = uni p q.
Context (HX : ∀ i j, (i < m)%nat → (j < n)%nat → derivable_pt_lim (λ t, X t i j) 0 (X' i j)).
Context (HR : near (rights m n K X U V S)) (HL : near (lefts m n K X U V S)).
Context (HUU : near (ortho m U)) (HVV : near (ortho n V)).
Context (HU : ∀ i k, (i < m)%nat → (k < K)%nat → continuity_pt (λ t, U t i k) 0).
Context (HV : ∀ j k, (j < n)%nat → (k < K)%nat → continuity_pt (λ t, V t j k) 0).

(** u_l(0)^T X' v_k(0) *)
Definition form (l k : nat) : R := rs m (λ i, rs n (λ j, U 0 i l * X' i j * V 0 j k)).
Definition p l k := inner m U l k.
Definition q l k := inner n V l k.
Definition ee l k := shift m n X U V l k.
Definition gg l k := shift n m (λ t j i, X t i j) V U l k.

Lemma e_eq l k : (l < K)%nat → (k < K)%nat → near (λ t, ee l k t = S t k * p l k t - S 0 l * q l k t).
Proof.
  intros Hl Hk. pose proof (near_0 _ HL) as HL0. eapply near_mono, HR. intros t Ht. by apply (shift_eq m n K).
Qed.
Lemma g_eq l k : (l < K)%nat → (k < K)%nat → near (λ t, gg l k t = S t k * q l k t - S 0 l * p l k t).
Proof.
  intros Hl Hk. pose proof (near_0 _ HR) as HR0. eapply near_mono, HL. intros t Ht. by apply (shift_eq n m K).
Qed.
Lemma e_deriv l k : (k < K)%nat → derivable_pt_lim (ee l k) 0 (form l k).
Proof. intros Hk. by apply (shift_deriv m n K). Qed.
Lemma g_deriv l k : (l < K)%nat → (k < K)%nat → derivable_pt_lim (gg l k) 0 (form k l).
Proof.
  intros Hl Hk. eapply deriv_eq; [apply (shift_deriv n m K _ (λ j i, X' i j)); [done|by intros; apply HX|by apply HU]|].
  unfold form. rewrite rs_swap. apply rs_ext. intros i Hi. apply rs_ext. intros j Hj. ring.
Qed.
Lemma p_cont l k : (k < K)%nat → continuity_pt (p l k) 0.
Proof. intros Hk. apply inner_cont. intros. by apply HU. Qed.
Lemma q_cont l k : (k < K)%nat → continuity_pt (q l k) 0.
Proof. intros Hk. apply inner_cont. intros. by apply HV. Qed.
Lemma p_0 l k : (l < K)%nat → (k < K)%nat → p l k 0 = uni l k.
Proof. exact (near_0 _ HUU l k). Qed.
Lemma q_0 l k : (l < K)%nat → (k < K)%nat → q l k 0 = uni l k.
Proof. exact (near_0 _ HVV l k). Qed.

(** The singular values are differentiable. *)
Lemma value_deriv k : (k < K)%nat → derivable_pt_lim (λ t, S t k) 0 (form k k).
Proof.
  intros Hk.
  assert (Hpq : continuity_pt (λ t, p k k t + q k k t) 0) by (apply cont_plus; [by apply p_cont|by apply q_cont]).
  assert (H2 : p k k 0 + q k k 0 = 2).
  { rewrite p_0, q_0 by done. unfold uni. rewrite decide_True by done. ring. }
  assert (Hne : near (λ t, p k k t + q k k t ≠ 0)) by (apply (cont_nonzero _ Hpq); lra).
  eapply (deriv_near (λ t, S 0 k + (ee k k t + gg k k t) * / (p k k t + q k k t))).
  { eapply near_mono, (near_and _ _ Hne (near_and _ _ (e_eq k k Hk Hk) (g_eq k k Hk Hk))).
    intros t (Ht & He & Hg). rewrite He, Hg. field. done. }
  eapply deriv_eq.
  - apply deriv_plus; [apply deriv_const|]. apply deriv_zero_mult.
    + unfold ee, gg. rewrite !shift_0. ring.
    + apply deriv_plus; [by apply e_deriv|by apply g_deriv].
    + apply cont_inv; [done|lra].
  - cbv beta. rewrite H2. field.
Qed.

Lemma cross_deriv l k : (l < K)%nat → (k < K)%nat → l ≠ k → S 0 k * S 0 k - S 0 l * S 0 l ≠ 0 →
  derivable_pt_lim (q l k) 0 ((S 0 k * form k l + S 0 l * form l k) / (S 0 k * S 0 k - S 0 l * S 0 l)).
Proof.
  intros Hl Hk Hlk Hd.
  pose proof (deriv_cont _ _ (value_deriv k Hk)) as Hs.
  assert (Hdc : continuity_pt (λ t, S t k * S t k + (- (S 0 l * S 0 l))) 0).
  { apply cont_plus; [by apply cont_mult|apply cont_const]. }
  assert (Hne : near (λ t, S t k * S t k + - (S 0 l * S 0 l) ≠ 0)) by (apply (cont_nonzero _ Hdc); lra).
  eapply (deriv_near (λ t, gg l k t * (S t k * / (S t k * S t k + - (S 0 l * S 0 l)))
                         + ee l k t * (S 0 l * / (S t k * S t k + - (S 0 l * S 0 l))))).
  { eapply near_mono, (near_and _ _ Hne (near_and _ _ (e_eq l k Hl Hk) (g_eq l k Hl Hk))).
    intros t (Ht & He & Hg). rewrite He, Hg. field. lra. }
  eapply deriv_eq.
  - apply deriv_plus.
    + apply deriv_zero_mult; [apply shift_0|by apply g_deriv|]. apply cont_mult; [done|]. apply cont_inv; [done|lra].
    + apply deriv_zero_mult; [apply shift_0|by apply e_deriv|]. apply cont_scal. apply cont_inv; [done|lra].
  - simpl. field. lra.
Qed.

(** When V is square, its rows are orthonormal as well, and the columns at t are
    combinations of those at 0. *)
Context (HK : near (λ t, ∀ a b, (a < n)%nat → (b < n)%nat → rs K (λ l, V t a l * V t b l) = uni a b)).
Context (Hdist : ∀ k l, (k < K)%nat → (l < K)%nat → k ≠ l → S 0 k * S 0 k - S 0 l * S 0 l ≠ 0).

Definition rate (l k : nat) : R :=
  if decide (l = k) then 0 else (S 0 k * form k l + S 0 l * form l k) / (S 0 k * S 0 k - S 0 l * S 0 l).

Lemma expand a k t : (a < n)%nat → V t a k = rs K (λ l, V 0 a l * q l k t).
Proof.
  intros Ha. pose proof (near_0 _ HK) as H0. unfold q, inner.
  transitivity (rs K (λ l, rs n (λ j, V 0 a l * V 0 j l * V t j k))).
  - rewrite rs_swap. transitivity (rs n (λ j, uni a j * V t j k)).
    + rewrite (rs_single n _ a Ha); [unfold uni; rewrite decide_True by done; ring|].
      intros i _ Hi. unfold uni. rewrite decide_False by done. ring.
    + apply rs_ext. intros j Hj. by rewrite rs_scal_r, H0.
  - apply rs_ext. intros l Hl. rewrite <- rs_scal. apply rs_ext. intros. ring.
Qed.
Lemma norms k : (k < K)%nat → near (λ t, rs K (λ l, q l k t * q l k t) = 1).
Proof.
  intros Hk. eapply near_mono, HVV. intros t Ht. specialize (Ht k k Hk Hk). unfold uni in Ht. rewrite decide_True in Ht by done.
  rewrite <- Ht. transitivity (rs n (λ j, rs K (λ l, V 0 j l * q l k t) * V t j k)).
  - transitivity (rs K (λ l, rs n (λ j, V 0 j l * q l k t * V t j k))).
    + apply rs_ext. intros l Hl. unfold q at 2. unfold inner. rewrite <- rs_scal. apply rs_ext. intros. ring.
    + rewrite rs_swap. apply rs_ext. intros j Hj. by rewrite rs_scal_r.
  - apply rs_ext. intros j Hj. by rewrite <- expand.
Qed.
Lemma diag_deriv k : (k < K)%nat → derivable_pt_lim (q k k) 0 0.
Proof.
  intros Hk. set (r l t := if decide (l = k) then 0 else q l k t).
  assert (Hr : ∀ l, (l < K)%nat → derivable_pt_lim (λ t, r l t * r l t) 0 0).
  { intros l Hl. unfold r. destruct (decide (l = k)) as [->|Hne].
    - eapply deriv_eq; [apply (deriv_mult (λ _, 0) (λ _, 0)); apply deriv_const|ring].
    - eapply deriv_eq; [apply deriv_mult; apply (cross_deriv l k Hl Hk Hne); by apply Hdist, not_eq_sym|].
      rewrite q_0 by done. unfold uni. rewrite decide_False by done. ring. }
  assert (Hq0 : q k k 0 = 1) by (rewrite q_0 by done; unfold uni; by rewrite decide_True).
  assert (Hc : continuity_pt (λ t, 1 + q k k t) 0) by (apply cont_plus; [apply cont_const|by apply q_cont]).
  assert (Hne : near (λ t, 1 + q k k t ≠ 0)) by (apply (cont_nonzero _ Hc); lra).
  eapply (deriv_near (λ t, 1 + (- 1 * rs K (λ l, r l t * r l t)) * / (1 + q k k t))).
  { eapply near_mono, (near_and _ _ Hne (norms k Hk)). intros t [Ht Hn].
    assert (E : rs K (λ l, q l k t * q l k t) = q k k t * q k k t + rs K (λ l, r l t * r l t)).
    { transitivity (rs K (λ l, (if decide (l = k) then q k k t * q k k t else 0) + r l t * r l t)).
      - apply rs_ext. intros l Hl. unfold r. destruct (decide (l = k)) as [->|]; ring.
      - rewrite rs_plus. f_equal. rewrite (rs_single K _ k Hk); [by rewrite decide_True|].
        intros i _ Hi. by rewrite decide_False. }
    replace (rs K (λ l, r l t * r l t)) with (1 - q k k t * q k k t) by lra. field. done. }
  eapply deriv_eq.
  - apply deriv_plus; [apply deriv_const|]. apply deriv_zero_mult.
    + rewrite rs_zero; [ring|]. intros l Hl. unfold r. destruct (decide (l = k)); [ring|]. rewrite q_0 by done. unfold uni. rewrite decide_False by done. ring.
    + apply deriv_scal. apply (deriv_rs K (λ l t, r l t * r l t) (λ _, 0)). done.
    + apply cont_inv; [done|lra].
  - rewrite rs_zero by done. ring.
Qed.
Lemma q_deriv l k : (l < K)%nat → (k < K)%nat → derivable_pt_lim (q l k) 0 (rate l k).
Proof.
  intros Hl Hk. unfold rate. destruct (decide (l = k)) as [->|Hne]; [by apply diag_deriv|].
  apply cross_deriv; try done. by apply Hdist, not_eq_sym.
Qed.
(** The right singular vectors are differentiable. *)
Lemma vector_deriv a k : (a < n)%nat → (k < K)%nat → derivable_pt_lim (λ t, V t a k) 0 (rs K (λ l, V 0 a l * rate l k)).
Proof.
  intros Ha Hk. apply (deriv_ext (λ t, rs K (λ l, V 0 a l * q l k t))); [intros t; by rewrite <- expand|].
  apply (deriv_rs K (λ l t, V 0 a l * q l k t)). intros l Hl. apply deriv_scal. by apply q_deriv.
Qed.
(** The left ones are X v / s. *)
Lemma left_deriv a k : (a < m)%nat → (k < K)%nat → S 0 k ≠ 0 →
  derivable_pt_lim (λ t, U t a k) 0
    ((rs n (λ j, X' a j * V 0 j k + X 0 a j * rs K (λ l, V 0 j l * rate l k))) / S 0 k
     - rs n (λ j, X 0 a j * V 0 j k) * form k k / (S 0 k * S 0 k)).
Proof.
  intros Ha Hk Hs. pose proof (value_deriv k Hk) as HS.
  assert (Hne : near (λ t, S t k ≠ 0)) by (apply (cont_nonzero _ (deriv_cont _ _ HS)); done).
  eapply (deriv_near (λ t, rs n (λ j, X t a j * V t j k) / S t k)).
  { eapply near_mono, (near_and _ _ Hne HR). intros t [Ht Hr]. rewrite Hr by done. field. done. }
  eapply deriv_eq.
  - apply (derivable_pt_lim_div (λ t, rs n (λ j, X t a j * V t j k)) (λ t, S t k)); [|exact HS|done].
    apply (deriv_rs n (λ j t, X t a j * V t j k)). intros j Hj. apply deriv_mult; [by apply HX|by apply vector_deriv].
  - unfold Rsqr. field. done.
Qed.
End curve.
