(** The values returned by Svd, when the Jacobians raise, and an example. *)
From Coq Require Import Reals Lra.
From stdpp Require Import list list_numbers numbers.
From Verif Require Import ArrModel Curve ArrThms SvdModel SvdSpec SvdThms SvdArr.
Local Open Scope R_scope.

Lemma tr_at m n a i j : sh a = [m; n] → (i < m)%nat → (j < n)%nat → at_ (tr m n a) [j; i] = at_ a [i; j].
Proof.
  intros Ha Hi Hj. rewrite (at_2 _ n m), (at_2 a m n) by done. simpl. unfold e2. by rewrite flat_div, flat_mod.
Qed.
Lemma tr_is m n a : sh a = [m; n] → is_transpose a (tr m n a).
Proof. intros Ha. exists m, n. split_and!; [done|done|]. intros i j Hi Hj. by apply tr_at. Qed.
Lemma chop_svd m n k x u s v : is_svd m n k x u s v → (∀ l, (l < k)%nat → at_ s [l] = 0 ∨ spacing1 <= at_ s [l]) →
  is_svd m n k x u (chop s) v.
Proof.
  intros (Hx & Hu & Hs & Hv & HX & HU & HV & HP) Hc.
  assert (E : ∀ l, (l < k)%nat → at_ (chop s) [l] = at_ s [l]).
  { intros l Hl. specialize (Hc l Hl). rewrite (at_1 s k) in Hc |- * by done. rewrite (at_1 _ k) by done. by apply chop_id. }
  split_and!; try done.
  - intros i j Hi Hj. rewrite HX by done. apply rs_ext. intros l Hl. by rewrite E.
  - intros l Hl. rewrite E by done. by apply HP.
Qed.
Lemma svd_swap m n k x u s v : sh x = [m; n] → is_svd n m k (tr m n x) u s v → is_svd m n k x v s u.
Proof.
  intros Hx (_ & Hu & Hs & Hv & HX & HU & HV & HP). split_and!; try done.
  intros i j Hi Hj. rewrite <- (tr_at m n) by done. rewrite HX by done. apply rs_ext. intros. ring.
Qed.

(** The matrix handed to np.linalg.svd *)
Definition tall (x : arr R) : arr R := match sh x with [m; n] => if decide (m < n)%nat then tr m n x else x | _ => x end.
Lemma svd_value np_svd x m n : sh x = [m; n] →
  (let '(u, s, v) := np_svd (tall x) in ∃ p q, is_svd p q q (tall x) u s v ∧ ∀ l, (l < q)%nat → at_ s [l] = 0 ∨ spacing1 <= at_ s [l]) →
  ∃ u d v w, svd np_svd x = Some (u, d, w) ∧ is_svd m n (min m n) x u d v ∧ is_transpose v w.
Proof.
  intros Hx. unfold svd, UDV, tall. rewrite Hx. destruct (decide (m < n)%nat) as [Hlt|Hge].
  - destruct (np_svd (tr m n x)) as [[u s] v]. intros (p & q & H & Hc). assert (E : [n; m] = [p; q]) by (rewrite <- (proj1 H); done).
    injection E as <- <-. exists v, (chop s), u, (tr n m u). split; [done|]. rewrite Nat.min_l by lia. split.
    + apply chop_svd; [|done]. by apply svd_swap.
    + apply tr_is. by destruct H as (_ & ? & _).
  - destruct (np_svd x) as [[u s] v]. intros (p & q & H & Hc). assert (E : [m; n] = [p; q]) by (rewrite <- Hx; apply (proj1 H)).
    injection E as <- <-. exists u, (chop s), v, (tr n n v). split; [done|]. rewrite Nat.min_r by lia. split.
    + by apply chop_svd.
    + apply tr_is. by destruct H as (_ & _ & _ & ? & _).
Qed.

(** v's and u's Jacobians raise exactly if two singular values agree. *)
Lemma svdv_raises m n x u d v : (n <= m)%nat → is_svd m n n x u d v →
  svdv_jac m n u d v = None ↔ ∃ k l, (k < l)%nat ∧ (l < n)%nat ∧ at_ d [k] = at_ d [l].
Proof.
  intros Hmn H. assert (Hd : sh d = [n]) by (by destruct H as (_ & _ & ? & _)). unfold svdv_jac. rewrite decide_False by lia. split.
  - intros E. destruct (forallb _ (seq 0 m)) eqn:F; [done|]. clear E.
    apply not_true_iff_false in F. destruct (decide (Exists (λ k, Exists (λ l, (k < l)%nat ∧ is_Some (if Req_EM_T (dat d k) (dat d l) then Some () else None)) (seq 0 n)) (seq 0 n))) as [HE|HN].
    + apply list.Exists_exists in HE as (k & Hk & HE). apply list.Exists_exists in HE as (l & Hl & Hlt & HE).
      exists k, l. apply elem_of_seq in Hl. rewrite !(at_1 d n) by done. destruct (Req_EM_T _ _) as [E|_]; [|by destruct HE]. split_and!; [done|lia|done].
    + destruct F. apply forallb_forall. intros i _. apply forallb_forall. intros j _. apply forallb_forall. intros k Hk. apply forallb_forall. intros l Hl.
      destruct (decide (k < l)%nat) as [Hlt|]; [|done]. unfold omega_lt, solve2. destruct (Req_EM_T _ _) as [E|_]; [|done].
      destruct HN. apply list.Exists_exists. exists k. split; [by apply elem_of_list_In|]. apply list.Exists_exists. exists l. split; [by apply elem_of_list_In|]. split; [done|].
      apply in_seq in Hk, Hl. assert (Hk' : (k < n)%nat) by lia. assert (Hl' : (l < n)%nat) by lia.
      pose proof (svd_pos m n _ _ _ _ H k Hk'). pose proof (svd_pos m n _ _ _ _ H l Hl').
      destruct (Req_EM_T (dat d k) (dat d l)) as [|Hne]; [by eexists|]. destruct Hne. nra.
  - intros (k & l & Hlt & Hl & E). rewrite !(at_1 d n) in E by done. destruct (forallb _ (seq 0 m)) eqn:F; [|done]. exfalso.
    rewrite forallb_forall in F. assert (I0 : In 0%nat (seq 0 m)) by (apply in_seq; lia). specialize (F _ I0).
    rewrite forallb_forall in F. assert (J0 : In 0%nat (seq 0 n)) by (apply in_seq; lia). specialize (F _ J0).
    rewrite forallb_forall in F. assert (K0 : In k (seq 0 n)) by (apply in_seq; lia). specialize (F _ K0).
    rewrite forallb_forall in F. assert (L0 : In l (seq 0 n)) by (apply in_seq; lia). specialize (F _ L0).
    rewrite decide_True in F by done. unfold omega_lt, solve2 in F. rewrite E in F. destruct (Req_EM_T _ _) as [|Hne]; [done|]. destruct Hne. ring.
Qed.
Lemma svdu_raises m n x u d v : svdu_jac m n x u d v = None ↔ svdv_jac m n u d v = None.
Proof. unfold svdu_jac. by destruct (svdv_jac m n u d v). Qed.

(* ------------------------------------------------------------------ *)
(** A 3 x 2 matrix turning: u by the angle t, v by 2 t, singular values 3 + t and 1. *)
Definition rot (c : R) (i k : nat) (t : R) : R :=
  match i, k with 0%nat, 0%nat => cos (c * t) | 0%nat, 1%nat => - sin (c * t) | 1%nat, 0%nat => sin (c * t) | 1%nat, 1%nat => cos (c * t) | _, _ => 0 end.
Definition rot' (c : R) (i k : nat) : R := match i, k with 0%nat, 1%nat => - c | 1%nat, 0%nat => c | _, _ => 0 end.
Definition sv (l : nat) (t : R) : R := match l with 0%nat => 3 + t | _ => 1 end.
Definition sv' (l : nat) : R := match l with 0%nat => 1 | _ => 0 end.
Definition Ut (t : R) : arr R := Arr_ [3; 2]%nat (λ o, rot 1 (o / 2) (o mod 2) t).
Definition Vt (t : R) : arr R := Arr_ [2; 2]%nat (λ o, rot 2 (o / 2) (o mod 2) t).
Definition St (t : R) : arr R := Arr_ [2]%nat (λ o, sv o t).
Definition Xt (t : R) : arr R := Arr_ [3; 2]%nat (λ o, rs 2 (λ l, rot 1 (o / 2) l t * sv l t * rot 2 (o mod 2) l t)).
Definition velt (o : nat) : R := if decide (o < 6)%nat then
  rs 2 (λ l, (rot' 1 (o / 2) l * sv l 0 + rot 1 (o / 2) l 0 * sv' l) * rot 2 (o mod 2) l 0 + rot 1 (o / 2) l 0 * sv l 0 * rot' 2 (o mod 2) l) else 0.

Lemma deriv_lin c : derivable_pt_lim (λ t, c * t) 0 c.
Proof. eapply deriv_eq; [apply (deriv_scal c (λ t, t)); apply derivable_pt_lim_id|ring]. Qed.
Lemma deriv_sin c : derivable_pt_lim (λ t, sin (c * t)) 0 c.
Proof.
  eapply deriv_eq; [apply (derivable_pt_lim_comp (λ t, c * t) sin); [apply deriv_lin|apply derivable_pt_lim_sin]|].
  rewrite Rmult_0_r, cos_0. ring.
Qed.
Lemma deriv_cos c : derivable_pt_lim (λ t, cos (c * t)) 0 0.
Proof.
  eapply deriv_eq; [apply (derivable_pt_lim_comp (λ t, c * t) cos); [apply deriv_lin|apply derivable_pt_lim_cos]|].
  rewrite Rmult_0_r, sin_0. ring.
Qed.
Lemma rot_deriv c i k : derivable_pt_lim (rot c i k) 0 (rot' c i k).
Proof.
  destruct i as [|[|i]], k as [|[|k]]; simpl; try exact (deriv_const 0).
  - exact (deriv_cos c).
  - eapply deriv_eq; [apply (derivable_pt_lim_opp (λ t, sin (c * t))), deriv_sin|done].
  - exact (deriv_sin c).
  - exact (deriv_cos c).
Qed.
Lemma sv_deriv l : derivable_pt_lim (sv l) 0 (sv' l).
Proof.
  destruct l as [|l]; [|exact (deriv_const 1)].
  eapply deriv_eq; [apply (deriv_plus (λ _, 3) (λ t, t)); [apply deriv_const|apply derivable_pt_lim_id]|simpl; ring].
Qed.
Lemma turn_moves : amoves Xt velt.
Proof.
  apply (amoves_intro _ _ [3; 2]%nat); [by apply near_always| |].
  - intros o Ho. rewrite size_2 in Ho. unfold velt. rewrite decide_True by lia. simpl dat.
    apply (deriv_rs 2 (λ l t, rot 1 (o / 2) l t * sv l t * rot 2 (o mod 2) l t)). intros l Hl.
    apply (deriv_mult (λ t, rot 1 (o / 2) l t * sv l t) (rot 2 (o mod 2) l)); [|apply rot_deriv].
    apply deriv_mult; [apply rot_deriv|apply sv_deriv].
  - intros o Ho. rewrite size_2 in Ho. unfold velt. by rewrite decide_False by lia.
Qed.
Lemma turn_svd t : Rabs t < 3 → is_svd 3 2 2 (Xt t) (Ut t) (St t) (Vt t).
Proof.
  intros Ht. apply Rabs_def2 in Ht.
  assert (Hsc : ∀ x, sin x * sin x + cos x * cos x = 1) by (intros x; pose proof (sin2_cos2 x) as E; unfold Rsqr in E; lra).
  split_and!; try done.
  - intros i j Hi Hj. destruct i as [|[|[|i]]]; try lia; destruct j as [|[|j]]; try lia; cbv [at_ Xt Ut St Vt sh dat ravel size foldr fmap list_fmap seq rsum]; simpl; done.
  - intros p q Hp Hq. destruct p as [|[|p]]; try lia; destruct q as [|[|q]]; try lia; cbv [at_ Ut sh dat ravel size foldr fmap list_fmap seq rsum]; simpl; unfold unit_; simpl; rewrite ?Rmult_1_l; specialize (Hsc t); lra.
  - intros p q Hp Hq. destruct p as [|[|p]]; try lia; destruct q as [|[|q]]; try lia; cbv [at_ Vt sh dat ravel size foldr fmap list_fmap seq rsum]; simpl; unfold unit_; simpl; specialize (Hsc (2 * t)); lra.
  - intros l Hl. destruct l as [|[|l]]; try lia; cbv [at_ St sh dat ravel size foldr]; simpl; lra.
Qed.
Lemma rot_acont s c n : (∀ t : R, sh (s t) = sh (s 0)) → (∀ t o, dat (s t) o = rot c (o / n) (o mod n) t) → acont s.
Proof.
  intros Hs Hd i. destruct (decide (i < asize (s 0%R))%nat) as [Hi|Hi].
  - apply (cont_ext (rot c (i / n) (i mod n))); [|exact (deriv_cont _ _ (rot_deriv c _ _))].
    intros t. rewrite elem_in by (unfold asize; by rewrite Hs). by rewrite Hd.
  - apply (cont_ext (λ _, 0)); [|apply cont_const]. intros t. by rewrite elem_out by (unfold asize; rewrite Hs; unfold asize in Hi; lia).
Qed.
Lemma turn_case : amoves Xt velt ∧ near (λ t, is_svd 3 2 2 (Xt t) (Ut t) (St t) (Vt t)) ∧ acont Ut ∧ acont Vt ∧
  (∀ k, (k < 2)%nat → spacing1 < at_ (St 0) [k]) ∧ (∀ k l, (k < l)%nat → (l < 2)%nat → at_ (St 0) [k] ≠ at_ (St 0) [l]).
Proof.
  split; [exact turn_moves|]. split; [exists 3; split; [lra|exact turn_svd]|].
  split; [by apply (rot_acont _ 1 2)|]. split; [by apply (rot_acont _ 2 2)|]. split.
  - assert (Hs : spacing1 < 1). { unfold spacing1. rewrite <- Rinv_1. apply Rinv_lt_contravar; [rewrite Rmult_1_l; apply pow_lt; lra|]. apply Rlt_pow_R1; [lra|lia]. }
    intros k Hk. destruct k as [|[|k]]; try lia; cbv [at_ St sh dat ravel size foldr]; simpl; lra.
  - intros k l Hkl Hl. assert (k = 0%nat) as -> by lia. assert (l = 1%nat) as -> by lia.
    cbv [at_ St sh dat ravel size foldr]; simpl. lra.
Qed.

(* ------------------------------------------------------------------ *)
(** A singular value below np.spacing(1) is lost. *)
Definition one1 : arr R := full [1; 1]%nat 1.
Definition tiny : arr R := full [1; 1]%nat (spacing1 / 2).
Lemma tiny_case : ∃ u s v, is_svd 1 1 1 tiny u s v ∧
  ∀ w, svd (λ _, (u, s, v)) tiny = Some w → ∀ v', is_transpose v' w.2 → ¬ is_svd 1 1 1 tiny w.1.1 w.1.2 v'.
Proof.
  pose proof spacing1_pos as Hp. exists one1, (full [1]%nat (spacing1 / 2)), one1. split.
  - split_and!; try done.
    + intros [|i] [|j] Hi Hj; try lia. cbv [at_ tiny one1 full dat sh fmap list_fmap seq rsum foldr]. lra.
    + intros [|i] [|j] Hi Hj; try lia. cbv [at_ tiny one1 full dat sh fmap list_fmap seq rsum foldr]. unfold unit_. simpl. lra.
    + intros [|i] [|j] Hi Hj; try lia. cbv [at_ tiny one1 full dat sh fmap list_fmap seq rsum foldr]. unfold unit_. simpl. lra.
    + intros [|l] Hl; [|lia]. cbv [at_ full dat sh]. lra.
  - intros w E v' _ (_ & _ & _ & _ & H & _). injection E as <-. specialize (H 0%nat 0%nat Nat.lt_0_1 Nat.lt_0_1).
    cbv [at_ tiny one1 chop amap full dat sh fst snd fmap list_fmap seq rsum foldr] in H.
    rewrite Rabs_pos_eq in H by lra. destruct (Rlt_dec _ _); lra.
Qed.
