(** Proofs about step functions and NanDivide. *)
From Coq Require Import Reals Lra.
From stdpp Require Import list list_numbers numbers gmap.
From Verif Require Import ArrModel Curve ArrThms ElemModel ElemSpec ElemThms SvdThms InterpSpec InterpThms StepModel StepSpec.

(** Values *)
Lemma int_part x : (IZR (Int_part x) <= x < IZR (Int_part x) + 1)%R.
Proof. destruct (base_Int_part x). lra. Qed.
Lemma int_part_is x k : (IZR k <= x < IZR k + 1)%R → Int_part x = k.
Proof.
  intros [H1 H2]. destruct (int_part x) as [B1 B2].
  assert (k < Int_part x + 1)%Z by (apply lt_IZR; rewrite plus_IZR; lra).
  assert (Int_part x < k + 1)%Z by (apply lt_IZR; rewrite plus_IZR; lra). lia.
Qed.
Lemma s_f_is f x : step_of f x (s_f f x).
Proof.
  destruct f; simpl.
  - split; [by eexists|]. apply int_part.
  - split; [exists (- Int_part (- x))%Z; by rewrite opp_IZR|]. pose proof (int_part (- x)). lra.
  - destruct (Rlt_dec 0 x); [by left|]. destruct (Rlt_dec x 0); [by right; left|]. right; right. split; [lra|done].
Qed.
Lemma step_value f a : sh (step_r f a) = sh a ∧ ∀ ix, inside (sh a) ix → step_of f (at_ a ix) (at_ (step_r f a) ix).
Proof. split; [done|]. intros ix _. apply s_f_is. Qed.
Lemma bop_at {V} (g : R → R → V) a b out ix : bshape (sh a) (sh b) = Some out → inside out ix →
  sh (bop g a b) = out ∧ ∃ jx kx, feeds (sh a) ix jx ∧ feeds (sh b) ix kx ∧ inside (sh a) jx ∧ inside (sh b) kx ∧
    at_ (bop g a b) ix = g (at_ a jx) (at_ b kx).
Proof.
  intros Hb Hin. split; [by apply bop_sh|]. pose proof (ravel_lt _ _ Hin) as Hlt.
  destruct (bidx_feeds (sh a) out (ravel out ix)) as (jx & Hj & Hji & Hje & _); [by eapply bshape_l|done|].
  destruct (bidx_feeds (sh b) out (ravel out ix)) as (kx & Hk & Hki & Hke & _); [by eapply bshape_r|done|].
  rewrite unravel_ravel in Hj, Hk by done. exists jx, kx. split_and!; try done.
  unfold at_. rewrite (bop_dat _ _ _ out), (bop_sh _ _ _ out) by done. by rewrite Hje, Hke.
Qed.
Lemma c_f_is f x y : (holds f x y → c_f f x y = 1%R) ∧ (¬ holds f x y → c_f f x y = 0%R).
Proof.
  destruct f; simpl; match goal with |- context [if ?d then _ else _] => destruct d end; split; intros H; try done; exfalso; first [apply H; lra|lra|done|idtac].
  all: try (apply H; done).
Qed.
Lemma cmp_value f a b out ix : bshape (sh a) (sh b) = Some out → inside out ix → sh (cmp_r f a b) = out ∧
  ∃ jx kx, feeds (sh a) ix jx ∧ feeds (sh b) ix kx ∧ inside (sh a) jx ∧ inside (sh b) kx ∧
    (holds f (at_ a jx) (at_ b kx) → at_ (cmp_r f a b) ix = 1%R) ∧ (¬ holds f (at_ a jx) (at_ b kx) → at_ (cmp_r f a b) ix = 0%R).
Proof.
  intros Hb Hi. destruct (bop_at (c_f f) a b out ix Hb Hi) as (Hs & jx & kx & H1 & H2 & H3 & H4 & E). split; [done|]. exists jx, kx. split_and!; try done.
  - unfold cmp_r. rewrite E. apply c_f_is.
  - unfold cmp_r. rewrite E. apply c_f_is.
Qed.

(** A differentiable function with whole values is locally constant. *)
Lemma whole_flat (f : R → R) l : near (λ t, ∃ k, f t = IZR k) → derivable_pt_lim f 0%R l → l = 0%R.
Proof.
  intros HN Hd. pose proof (near_between f (f 0%R - 1) (f 0%R + 1) l ltac:(lra) Hd) as HB.
  apply (deriv_unique f l 0%R Hd). apply (deriv_near (λ _, f 0%R)); [|apply deriv_const].
  destruct (near_0 _ HN) as [k0 E0]. eapply near_mono; [|exact (near_and _ _ HN HB)]. intros t [[k Ek] Hb]. cbv beta in *.
  rewrite E0 in *. rewrite Ek in *.
  assert (k < k0 + 1)%Z by (apply lt_IZR; rewrite plus_IZR; lra).
  assert (k0 - 1 < k)%Z by (apply lt_IZR; rewrite minus_IZR; lra). f_equal. lia.
Qed.
Lemma s_f_whole f x : ∃ k, s_f f x = IZR k.
Proof.
  destruct f; simpl; [by eexists|exists (- Int_part (- x))%Z; by rewrite opp_IZR|].
  destruct (Rlt_dec 0 x); [by exists 1%Z|]. destruct (Rlt_dec x 0); [by exists (-1)%Z|by exists 0%Z].
Qed.
Lemma c_f_whole f x y : ∃ k, c_f f x y = IZR k.
Proof. destruct f; simpl; match goal with |- context [if ?d then _ else _] => destruct d end; (by exists 1%Z) || by exists 0%Z. Qed.
Lemma whole_moves (y : R → arr R) w : (∀ t i, ∃ k, dat (y t) i = IZR k) → amoves y w → ∀ i, w i = 0%R.
Proof.
  intros HW [_ Hd] i. apply (whole_flat (λ t, elem (y t) i)); [|apply Hd]. apply near_always. intros t. unfold elem.
  case_decide; [apply HW|by exists 0%Z].
Qed.
Lemma step_flat f u w : amoves (λ t, step_r f (u t)) w → ∀ i, w i = 0%R.
Proof. apply whole_moves. intros t i. apply s_f_whole. Qed.
Lemma cmp_flat f u z w : amoves (λ t, cmp_r f (u t) (z t)) w → ∀ i, w i = 0%R.
Proof. apply whole_moves. intros t i. apply c_f_whole. Qed.

(** Away from the jumps the derivative exists. *)
Lemma zero_act r c v i : mact (zero_jac r c) v i = 0%R.
Proof. done. Qed.
Lemma lt_of_le x y : (x <= y)%R → x ≠ y → (x < y)%R.
Proof. lra. Qed.
Lemma s_f_near f (x : R → R) l : derivable_pt_lim x 0%R l → ¬ jumps f (x 0%R) → near (λ t, s_f f (x t) = s_f f (x 0%R)).
Proof.
  intros Hd Hj. destruct f; simpl in *.
  - pose proof (int_part (x 0%R)) as [B1 B2]. assert (B3 : IZR (Int_part (x 0%R)) ≠ x 0%R) by (intros E; apply Hj; by eexists).
    eapply near_mono; [|exact (near_between x _ _ l (conj (lt_of_le _ _ B1 B3) B2) Hd)]. intros t Ht. cbv beta in Ht. f_equal. apply int_part_is. lra.
  - pose proof (int_part (- x 0%R)) as [B1 B2]. assert (B3 : IZR (Int_part (- x 0%R)) ≠ (- x 0%R)%R).
    { intros E. apply Hj. exists (- Int_part (- x 0%R))%Z. rewrite opp_IZR. lra. }
    pose proof (derivable_pt_lim_opp x 0%R l Hd) as Hd'.
    eapply near_mono; [|exact (near_between (λ t, - x t)%R _ _ _ (conj (lt_of_le _ _ B1 B3) B2) Hd')]. intros t Ht. cbv beta in Ht. f_equal. f_equal. apply int_part_is. lra.
  - destruct (Rlt_dec 0 (x 0%R)) as [Hp|Hp].
    + eapply near_mono; [|exact (near_between x 0 (x 0%R + 1) l ltac:(lra) Hd)]. intros t Ht. cbv beta in Ht. destruct (Rlt_dec 0 (x t)); [done|lra].
    + eapply near_mono; [|exact (near_between x (x 0%R - 1) 0 l ltac:(lra) Hd)]. intros t Ht. cbv beta in Ht. destruct (Rlt_dec 0 (x t)); [lra|].
      destruct (Rlt_dec (x t) 0); [|lra]. destruct (Rlt_dec (x 0%R) 0); [done|lra].
Qed.
Lemma step_diff f a : (∀ i, i < asize a → ¬ jumps f (dat a i)) → diff1 (step_r f) (zero_jac (asize a) (asize a)) a.
Proof.
  intros Hj u v Hu Mu. apply (amoves_intro _ _ (sh a)).
  - eapply near_mono; [|exact (amoves_shape _ _ Mu)]. intros t Et. cbv beta in Et. simpl. by rewrite Et, Hu.
  - intros i Hi. rewrite zero_act. apply (deriv_near (λ _, s_f f (dat (u 0%R) i))); [|apply deriv_const].
    eapply near_mono; [|apply (s_f_near f (λ t, dat (u t) i) (v i))].
    + intros t Et. simpl. by rewrite Et.
    + apply amoves_dat; [done|]. by rewrite Hu.
    + cbv beta. rewrite Hu. by apply Hj.
  - intros i _. apply zero_act.
Qed.
Lemma c_f_near f (x y : R → R) l m : derivable_pt_lim x 0%R l → derivable_pt_lim y 0%R m → x 0%R ≠ y 0%R →
  near (λ t, c_f f (x t) (y t) = c_f f (x 0%R) (y 0%R)).
Proof.
  intros Hx Hy Hne. pose proof (derivable_pt_lim_minus x y 0%R l m Hx Hy) as Hd.
  assert (HN : near (λ t, x 0%R < y 0%R ∧ x t < y t ∨ y 0%R < x 0%R ∧ y t < x t)%R).
  { destruct (Rlt_dec (x 0%R) (y 0%R)) as [H|H].
    - eapply near_mono; [|exact (near_between (λ t, x t - y t)%R (x 0%R - y 0%R - 1) 0 _ ltac:(lra) Hd)]. intros t Ht. cbv beta in Ht. left. lra.
    - eapply near_mono; [|exact (near_between (λ t, x t - y t)%R 0 (x 0%R - y 0%R + 1) _ ltac:(lra) Hd)]. intros t Ht. cbv beta in Ht. right. lra. }
  eapply near_mono; [|exact HN]. intros t Ht. cbv beta in Ht. destruct f; simpl; 
    match goal with |- (if ?d then _ else _) = (if ?e then _ else _) => destruct d, e end; first [done|lra].
Qed.
Lemma meeting_dat P a b out i : bshape (sh a) (sh b) = Some out → meeting P a b → i < size out →
  P (dat a (bidx (sh a) out i)) (dat b (bidx (sh b) out i)).
Proof.
  intros Hb Hm Hi.
  destruct (bidx_feeds (sh a) out i) as (jx & Hj & Hji & Hje & _); [by eapply bshape_l|done|].
  destruct (bidx_feeds (sh b) out i) as (kx & Hk & Hki & Hke & _); [by eapply bshape_r|done|].
  pose proof (Hm out _ jx kx Hb (unravel_inside _ _ Hi) Hj Hk) as H. unfold at_ in H. by rewrite Hje, Hke.
Qed.
Lemma cmp_diff f a b out : bshape (sh a) (sh b) = Some out → meeting (λ x y, x ≠ y) a b →
  diff2 (cmp_r f) (zero_jac (size out) (asize a)) (zero_jac (size out) (asize b)) a b.
Proof.
  intros Hb Hm u v z w Hu Hz Mu Mz. pose proof (curve_shape2 u z v w Mu Mz) as Hs. apply (amoves_intro _ _ out).
  - eapply near_mono; [|exact Hs]. intros t (H1 & _). unfold cmp_r. apply bop_sh. by rewrite H1, Hu, Hz.
  - intros i Hi. rewrite !zero_act, Rplus_0_l.
    apply (deriv_near (λ _, c_f f (dat (u 0%R) (bidx (sh a) out i)) (dat (z 0%R) (bidx (sh b) out i)))); [|apply deriv_const].
    eapply near_mono; [|apply near_and; [exact Hs|apply (c_f_near f (λ t, dat (u t) (bidx (sh a) out i)) (λ t, dat (z t) (bidx (sh b) out i)) (v (bidx (sh a) out i)) (w (bidx (sh b) out i)))]].
    + intros t ((H1 & H2 & H3) & H4). cbv beta in *. unfold cmp_r. rewrite (bop_dat _ _ _ out) by (by rewrite H1, Hu, Hz). rewrite H2, H3, Hu, Hz. rewrite H4. by rewrite Hu, Hz.
    + apply amoves_dat; [done|]. rewrite Hu. apply bidx_lt; [by eapply bshape_l|done].
    + apply amoves_dat; [done|]. rewrite Hz. apply bidx_lt; [by eapply bshape_r|done].
    + cbv beta. rewrite Hu, Hz. by apply (meeting_dat (λ x y, x ≠ y) a b).
  - intros i _. rewrite !zero_act. lra.
Qed.

(* ------------------------------------------------------------------ *)
(** NanDivide *)
Lemma nandiv_sh a b out : bshape (sh a) (sh b) = Some out → sh (nandiv_r a b) = out.
Proof. intros Hb. unfold nandiv_r. simpl. by rewrite Hb. Qed.
Lemma nandiv_dat a b out i : bshape (sh a) (sh b) = Some out →
  dat (nandiv_r a b) i = cleaned (quot (dat a (bidx (sh a) out i)) (dat b (bidx (sh b) out i))).
Proof. intros Hb. unfold nandiv_r. simpl. by rewrite Hb. Qed.
Lemma nandiv_value a b out ix : bshape (sh a) (sh b) = Some out → inside out ix → sh (nandiv_r a b) = out ∧
  ∃ jx kx, feeds (sh a) ix jx ∧ feeds (sh b) ix kx ∧ inside (sh a) jx ∧ inside (sh b) kx ∧
    (at_ b kx = 0%R → at_ (nandiv_r a b) ix = 0%R) ∧ (at_ b kx ≠ 0%R → (at_ (nandiv_r a b) ix * at_ b kx = at_ a jx)%R).
Proof.
  intros Hb Hi. destruct (bop_at quot a b out ix Hb Hi) as (Hs & jx & kx & H1 & H2 & H3 & H4 & E).
  assert (E' : at_ (nandiv_r a b) ix = cleaned (quot (at_ a jx) (at_ b kx))). { rewrite <- E. unfold at_, nandiv_r. simpl. done. }
  split; [by apply nandiv_sh|]. exists jx, kx. rewrite E'. unfold quot. split_and!; try done; destruct (Req_EM_T (at_ b kx) 0) as [Z|Z]; intros; simpl; try done. by field.
Qed.
Definition q_d (first : bool) (x y : R) : R := cleaned (if first then quot 1 y else quot (- x) (y * y)).
Lemma nandiv_rows wa a b out : bshape (sh a) (sh b) = Some out →
  ∃ J, nandiv_jac wa (negb wa) a b = Some J ∧
    rows_are J (size out) (size (if wa then sh a else sh b)) (wcol (sh a) (sh b) wa out)
      (λ i, q_d wa (dat a (bidx (sh a) out i)) (dat b (bidx (sh b) out i))).
Proof.
  intros Hb. unfold nandiv_jac. replace (eqb wa (negb wa)) with false by (by destruct wa).
  destruct (broadcast_setup (sh a) (sh b) wa (negb wa)) as [IS JS] eqn:Es. cbv zeta.
  eexists. split; [reflexivity|]. rewrite Hb. cbn [default from_option Datatypes.id].
  assert (HS : IS = seq 0 (size out) ∧ JS = (λ i, wcol (sh a) (sh b) wa out i) <$> seq 0 (size out)).
  { revert Es. unfold broadcast_setup. rewrite Hb. cbn [default from_option Datatypes.id]. case_decide as Hs; intros [= <- <-].
    - rewrite Hs in *. rewrite bshape_same in Hb. injection Hb as <-. split; [done|].
      rewrite <- (list_fmap_id (seq 0 (size (sh b)))) at 1. apply list_fmap_ext_ne. intros i Hi%elem_of_seq.
      unfold wcol. destruct wa; rewrite bidx_same by lia; done.
    - split; [done|]. by apply bcols_lookup; [|destruct wa]. }
  destruct HS as [-> ->].
  match goal with |- rows_are (coo _ _ ?x _ _) _ _ _ _ => set (D := x) end.
  assert (HD : D = (λ i, q_d wa (dat a (bidx (sh a) out i)) (dat b (bidx (sh b) out i))) <$> seq 0 (size out)).
  { unfold D. destruct wa; rewrite (bop_elems _ _ _ out) by done; by rewrite <- list_fmap_compose. }
  rewrite HD. unfold coo.
  assert (Hz : ∀ (g : nat → nat) (h : nat → R) l, zip (zip l (g <$> l)) (h <$> l) = (λ i, (i, g i, h i)) <$> l).
  { intros g h l. rewrite <- (list_fmap_id l) at 1. by rewrite !zip_fmap_same. }
  rewrite Hz. split; [|done]. split_and!; [done|by destruct wa|]. apply list.Forall_forall. simpl.
  intros [[i c] x] (k & [= -> -> ->] & Hk%elem_of_seq)%elem_of_list_fmap. simpl.
  split; [lia|]. unfold wcol. destruct wa; apply bidx_lt; [by eapply bshape_l|lia|by eapply bshape_r|lia].
Qed.
Lemma q_deriv x y x' y' : y 0%R ≠ 0%R → derivable_pt_lim x 0%R x' → derivable_pt_lim y 0%R y' →
  derivable_pt_lim (λ t, cleaned (quot (x t) (y t))) 0%R (q_d true (x 0%R) (y 0%R) * x' + q_d false (x 0%R) (y 0%R) * y')%R.
Proof.
  intros Hn Hx Hy. apply (deriv_near (λ t, x t / y t)%R).
  - eapply near_mono; [|exact (cont_nonzero y (deriv_cont y _ Hy) Hn)]. intros t Ht. cbv beta in *. unfold quot. by destruct (Req_EM_T (y t) 0).
  - eapply lim_eq; [|by apply (derivable_pt_lim_div x y)]. unfold q_d, quot. destruct (Req_EM_T (y 0%R) 0); [done|].
    destruct (Req_EM_T (y 0%R * y 0%R) 0) as [Z|Z]; [apply Rmult_integral in Z; tauto|]. unfold Rsqr. simpl. by field.
Qed.
Lemma nandiv_jacobian a b out : bshape (sh a) (sh b) = Some out → meeting (λ _ y, y ≠ 0%R) a b →
  ∃ Ja Jb, nandiv_jac true false a b = Some Ja ∧ nandiv_jac false true a b = Some Jb ∧
    fits Ja (size out) (asize a) ∧ fits Jb (size out) (asize b) ∧ diff2 nandiv_r Ja Jb a b.
Proof.
  intros Hb Hm. destruct (nandiv_rows true a b out Hb) as (Ja & HJa & Ra). destruct (nandiv_rows false a b out Hb) as (Jb & HJb & Rb).
  exists Ja, Jb. split_and!; [done|done|apply Ra|apply Rb|]. intros u v z w Hu Hz Mu Mz. pose proof (curve_shape2 u z v w Mu Mz) as Hs.
  apply (amoves_intro _ _ out).
  - eapply near_mono; [|exact Hs]. intros t (H1 & _). apply nandiv_sh. by rewrite H1, Hu, Hz.
  - intros i Hi. rewrite (rows_mact Ja _ _ _ _ _ _ Ra), (rows_mact Jb _ _ _ _ _ _ Rb), !decide_True by done. unfold wcol.
    apply (deriv_near (λ t, cleaned (quot (dat (u t) (bidx (sh a) out i)) (dat (z t) (bidx (sh b) out i))))).
    + eapply near_mono; [|exact Hs]. intros t (H1 & H2 & H3). rewrite (nandiv_dat _ _ out) by (by rewrite H1, Hu, Hz). by rewrite H2, H3, Hu, Hz.
    + rewrite <- Hu, <- Hz at 1. pose proof (q_deriv (λ t, dat (u t) (bidx (sh a) out i)) (λ t, dat (z t) (bidx (sh b) out i)) (v (bidx (sh a) out i)) (w (bidx (sh b) out i))) as Q.
      cbv beta in Q. rewrite Hu, Hz in *. apply Q.
      * by apply (meeting_dat (λ _ y, y ≠ 0%R) a b).
      * apply amoves_dat; [done|]. rewrite Hu. apply bidx_lt; [by eapply bshape_l|done].
      * apply amoves_dat; [done|]. rewrite Hz. apply bidx_lt; [by eapply bshape_r|done].
  - intros i Hi. rewrite (rows_mact Ja _ _ _ _ _ _ Ra), (rows_mact Jb _ _ _ _ _ _ Rb), !decide_False by lia. lra.
Qed.
(** With respect to the numerator, whatever the divisors are. *)
Lemma nandiv_numerator a b out : bshape (sh a) (sh b) = Some out →
  ∃ J, nandiv_jac true false a b = Some J ∧ fits J (size out) (asize a) ∧ diff1 (λ x, nandiv_r x b) J a.
Proof.
  intros Hb. destruct (nandiv_rows true a b out Hb) as (J & HJ & Ra). exists J. split_and!; [done|apply Ra|].
  intros u v Hu Mu. pose proof (amoves_shape _ _ Mu) as Hs. apply (amoves_intro _ _ out).
  - eapply near_mono; [|exact Hs]. intros t H1. cbv beta in *. apply nandiv_sh. by rewrite H1, Hu.
  - intros i Hi. rewrite (rows_mact J _ _ _ _ _ _ Ra), decide_True by done. unfold wcol.
    apply (deriv_near (λ t, cleaned (quot (dat (u t) (bidx (sh a) out i)) (dat b (bidx (sh b) out i))))).
    + eapply near_mono; [|exact Hs]. intros t H1. cbv beta in *. rewrite (nandiv_dat _ _ out) by (by rewrite H1, Hu). by rewrite H1, Hu.
    + unfold q_d, quot. destruct (Req_EM_T (dat b (bidx (sh b) out i)) 0) as [Z|Z]; simpl.
      * apply (lim_eq _ _ 0%R); [lra|]. apply deriv_const.
      * apply (lim_ext (λ t, (1 / dat b (bidx (sh b) out i)) * dat (u t) (bidx (sh a) out i))%R); [intros t; by field|].
        apply deriv_scal. apply amoves_dat; [done|]. rewrite Hu. apply bidx_lt; [by eapply bshape_l|done].
  - intros i Hi. rewrite (rows_mact J _ _ _ _ _ _ Ra), decide_False by lia. done.
Qed.
(** x / x *)
Lemma nandiv_same a : (∀ i, i < asize a → dat a i ≠ 0%R) →
  nandiv_jac true true a a = None ∧ diff1 (λ x, nandiv_r x x) (zero_jac (asize a) (asize a)) a.
Proof.
  intros Hn. split; [done|]. intros u v Hu Mu. pose proof (amoves_shape _ _ Mu) as Hs. apply (amoves_intro _ _ (sh a)).
  - eapply near_mono; [|exact Hs]. intros t H1. cbv beta in *. rewrite Hu in H1. rewrite (nandiv_sh _ _ (sh a)); [done|]. rewrite H1. apply bshape_same.
  - intros i Hi. rewrite zero_act. apply (deriv_near (λ _, 1%R)); [|apply deriv_const].
    assert (Hd : derivable_pt_lim (λ t, dat (u t) i) 0%R (v i)) by (apply amoves_dat; [done|]; by rewrite Hu).
    assert (H0 : dat (u 0%R) i ≠ 0%R) by (rewrite Hu; by apply Hn).
    eapply near_mono; [|exact (near_and _ _ Hs (cont_nonzero _ (deriv_cont _ _ Hd) H0))]. intros t [H1 H2]. cbv beta in *. rewrite Hu in H1.
    rewrite (nandiv_dat _ _ (sh a)) by (rewrite H1; apply bshape_same). rewrite H1, bidx_same by done.
    unfold quot. destruct (Req_EM_T (dat (u t) i) 0); [done|]. simpl. by field.
  - intros i _. apply zero_act.
Qed.
