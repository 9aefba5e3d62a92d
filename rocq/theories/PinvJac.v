(** Jacobians of Pinv, lstsq and norm. *)
From Coq Require Import Reals Lra.
From stdpp Require Import list list_numbers numbers gmap.
From Verif Require Import ArrModel Curve ArrThms ElemModel ElemSpec ElemThms ReorderModel ReorderThms ReorderCache RedModel RedSpec RedThms RedFine
  DotModel DotThms DotThms2 DotOps LinModel LinSpec LinThms LinJac LinOps SvdModel SvdThms SvdArr PinvModel PinvSpec PinvThms PinvArr.

Lemma amoves_near y z v : near (λ t, y t = z t) → amoves y v → amoves z v.
Proof.
  intros HN [H1 H2]. split.
  - eapply near_mono; [|apply (near_and _ _ HN H1)]. intros t [E1 E2]. rewrite <- E1, E2. by rewrite (near_0 _ HN).
  - intros i. eapply deriv_near; [|apply H2]. eapply near_mono; [|exact HN]. intros t E. cbv beta. by rewrite E.
Qed.

(** [f] is defined around [a] and [J] is its derivative. *)
Definition pdiff (f : arr R → option (arr R)) (J : spm) (a : arr R) : Prop :=
  ∀ u v, u 0%R = a → amoves u v → ∃ y, near (λ s, f (u s) = Some (y s)) ∧ amoves y (mact J v).
Lemma pdiff_diff f J a : pdiff f J a → diff1 (λ x, default x (f x)) J a.
Proof.
  intros H u v Hu Hm. destruct (H u v Hu Hm) as (y & HN & Hy). eapply amoves_near; [|exact Hy].
  eapply near_mono; [|exact HN]. intros s E. cbv beta. by rewrite E.
Qed.
Lemma transp_track a t : transp a = Some t → ∃ T, reorder_jac (Transpose None) a = Some T ∧ fits T (asize t) (asize a) ∧ pdiff transp T a.
Proof.
  intros Ht. destruct (reorder_rows (Transpose None) a t Ht) as (T & HT & HF & HD & _); [by intros []|]. exists T. split_and!; try done.
  intros u v Hu Hm. exists (λ s, default (u s) (transp (u s))). split; [|by apply HD].
  eapply near_mono; [|exact (amoves_shape _ _ Hm)]. intros s E. cbv beta in E. rewrite Hu in E.
  unfold transp, reorder in *. rewrite E. by destruct (plan_of _ _).
Qed.
Lemma dot_track a b y : np_dot a b = Some y → length (sh b) ≤ 2 → 0 < nth 0 (sh b) 0 →
  ∃ Ja Jb, dot_ja a b = Some Ja ∧ dot_jb a b = Some Jb ∧ fits Ja (asize y) (asize a) ∧ fits Jb (asize y) (asize b) ∧
    ∀ u v w z, u 0%R = a → w 0%R = b → amoves u v → amoves w z →
      ∃ o, near (λ s, np_dot (u s) (w s) = Some (o s)) ∧ amoves o (λ i, mact Ja v i + mact Jb z i)%R.
Proof.
  intros Hy Hl Hp. destruct (dot_both a b y Hy Hl Hp) as (Ja & Jb & HJa & HJb & Fa & Fb & HD). exists Ja, Jb. unfold dot_ja, dot_jb. rewrite HJa, HJb.
  split_and!; try done. intros u v w z Hu Hw Hm1 Hm2. exists (λ s, default (u s) (np_dot (u s) (w s))). split; [|by apply HD].
  eapply near_mono; [|apply (near_and _ _ (amoves_shape _ _ Hm1) (amoves_shape _ _ Hm2))]. intros s [E1 E2]. cbv beta in *. rewrite Hu in E1. rewrite Hw in E2.
  by apply (np_dot_same_shapes a b y).
Qed.
Lemma inv_track g i : np_inv g = Some i → length (sh g) = 2 → ∃ I, inv_jac g = Some I ∧ fits I (asize i) (asize g) ∧ pdiff np_inv I g.
Proof.
  intros Hi Hl. destruct (inv_right g i Hi (or_introl Hl)) as (I & HI & HF & HD). exists I. split_and!; try done.
  intros u v Hu Hm. exists (λ s, default (u s) (np_inv (u s))). split; [by apply (inv_near g i u v)|by apply HD].
Qed.
Lemma track_at (f : arr R → option (arr R)) (u : R → arr R) y a b : near (λ s, f (u s) = Some (y s)) → u 0%R = a → f a = Some b → y 0%R = b.
Proof. intros HN Hu Hf. pose proof (near_0 _ HN) as E. cbv beta in E. rewrite Hu, Hf in E. by injection E. Qed.

Lemma mmul_fits A B r k c : fits A r k → fits B k c → fits (mmul A B) r c.
Proof.
  intros (H1 & H2 & H3) (K1 & K2 & K3). split_and!; [done..|]. unfold in_range in *. rewrite list.Forall_forall in *.
  intros e. unfold mmul. simpl. intros (x & He & Hx)%elem_of_list_bind. apply elem_of_list_bind in He as (f & He & Hf).
  apply elem_of_list_singleton in He as ->. apply elem_of_list_filter in Hf as [_ Hf]. simpl.
  destruct (H3 x Hx). destruct (K3 f Hf). done.
Qed.

Lemma asize_2 (a : arr R) m n : sh a = [m; n] → asize a = m * n.
Proof. intros Ha. unfold asize. rewrite Ha. apply size_2. Qed.
Lemma pinv_track a y m n : sh a = [m; n] → 0 < m → 0 < n → pinv_r a = Some y →
  ∃ J, pinv_jac a = Some J ∧ fits J (asize y) (asize a) ∧ pdiff pinv_r J a.
Proof.
  intros Ha Hm Hn Hy. unfold pinv_r, pinv_jac, dims2 in *. rewrite Ha in *. cbn [mbind option_bind] in *.
  destruct (transp_is a m n Ha) as (t & Et & Ht & _). rewrite Et in *. cbn [mbind option_bind] in *.
  destruct (transp_track a t Et) as (T & HT & FT & DT). rewrite HT. cbn [mbind option_bind].
  destruct (decide (m < n)) as [Hlt|Hge].
  - destruct (dot_is a t m n m Ha Ht) as (g & Eg & Hg & _). rewrite Eg in *. cbn [mbind option_bind] in *.
    destruct (np_inv g) as [i|] eqn:Ei; [|done]. cbn [mbind option_bind] in *. destruct (inv_is g m Hg) as [Hi _]. destruct (Hi i Ei) as [Hsi _].
    destruct (dot_track a t g Eg) as (G1 & G2 & -> & -> & FG1 & FG2 & DG); [by rewrite Ht|by rewrite Ht|].
    destruct (inv_track g i Ei) as (I & -> & FI & DI); [by rewrite Hg|].
    destruct (dot_track t i y Hy) as (P1 & P2 & -> & -> & FP1 & FP2 & DP); [by rewrite Hsi|by rewrite Hsi|].
    eexists. split; [reflexivity|]. split.
    { apply madd_fits; [by eapply mmul_fits|]. eapply mmul_fits; [done|]. eapply mmul_fits; [done|]. apply madd_fits; [done|]. by eapply mmul_fits. }
    intros u v Hu Mu. destruct (DT u v Hu Mu) as (ut & Nt & Mt). pose proof (track_at _ _ _ _ _ Nt Hu Et) as Ut.
    destruct (DG u v ut _ Hu Ut Mu Mt) as (ug & Ng & Mg).
    assert (Ug : ug 0%R = g). { pose proof (near_0 _ Ng) as E. cbv beta in E. rewrite Hu, Ut, Eg in E. by injection E. }
    destruct (DI ug _ Ug Mg) as (ui & Ni & Mi). pose proof (track_at _ _ _ _ _ Ni Ug Ei) as Ui.
    destruct (DP ut _ ui _ Ut Ui Mt Mi) as (uy & Ny & My). exists uy. split.
    + eapply near_mono; [|apply (near_and _ _ (amoves_shape _ _ Mu) (near_and _ _ Nt (near_and _ _ Ng (near_and _ _ Ni Ny))))].
      intros s (Es & E1 & E2 & E3 & E4). cbv beta in *. rewrite Hu, Ha in Es. unfold pinv_r, dims2. rewrite Es. cbn [mbind option_bind].
      rewrite E1. cbn [mbind option_bind]. rewrite decide_True by done. rewrite E2. cbn [mbind option_bind]. rewrite E3. cbn [mbind option_bind]. by rewrite E4.
    + eapply amoves_ext; [|exact My]. intros k. cbv beta. rewrite mact_madd, !mact_mmul. f_equal.
      apply mact_ext. intros k2. rewrite mact_mmul. apply mact_ext. intros k3. by rewrite mact_madd, mact_mmul.
  - destruct (dot_is t a n m n Ht Ha) as (g & Eg & Hg & _). rewrite Eg in *. cbn [mbind option_bind] in *.
    destruct (np_inv g) as [i|] eqn:Ei; [|done]. cbn [mbind option_bind] in *. destruct (inv_is g n Hg) as [Hi _]. destruct (Hi i Ei) as [Hsi _].
    destruct (dot_track t a g Eg) as (G1 & G2 & -> & -> & FG1 & FG2 & DG); [by rewrite Ha|by rewrite Ha|].
    destruct (inv_track g i Ei) as (I & -> & FI & DI); [by rewrite Hg|].
    destruct (dot_track i t y Hy) as (P1 & P2 & -> & -> & FP1 & FP2 & DP); [by rewrite Ht|by rewrite Ht|].
    eexists. split; [reflexivity|]. split.
    { apply madd_fits; [|by eapply mmul_fits]. eapply mmul_fits; [done|]. eapply mmul_fits; [done|]. apply madd_fits; [|done]. by eapply mmul_fits. }
    intros u v Hu Mu. destruct (DT u v Hu Mu) as (ut & Nt & Mt). pose proof (track_at _ _ _ _ _ Nt Hu Et) as Ut.
    destruct (DG ut _ u v Ut Hu Mt Mu) as (ug & Ng & Mg).
    assert (Ug : ug 0%R = g). { pose proof (near_0 _ Ng) as E. cbv beta in E. rewrite Hu, Ut, Eg in E. by injection E. }
    destruct (DI ug _ Ug Mg) as (ui & Ni & Mi). pose proof (track_at _ _ _ _ _ Ni Ug Ei) as Ui.
    destruct (DP ui _ ut _ Ui Ut Mi Mt) as (uy & Ny & My). exists uy. split.
    + eapply near_mono; [|apply (near_and _ _ (amoves_shape _ _ Mu) (near_and _ _ Nt (near_and _ _ Ng (near_and _ _ Ni Ny))))].
      intros s (Es & E1 & E2 & E3 & E4). cbv beta in *. rewrite Hu, Ha in Es. unfold pinv_r, dims2. rewrite Es. cbn [mbind option_bind].
      rewrite E1. cbn [mbind option_bind]. rewrite decide_False by done. rewrite E2. cbn [mbind option_bind]. rewrite E3. cbn [mbind option_bind]. by rewrite E4.
    + eapply amoves_ext; [|exact My]. intros k. cbv beta. rewrite mact_madd, !mact_mmul. f_equal.
      apply mact_ext. intros k2. rewrite mact_mmul. apply mact_ext. intros k3. by rewrite mact_madd, mact_mmul.
Qed.
Lemma pinv_jacobian a y : pinv_r a = Some y → 0 < asize a →
  ∃ J, pinv_jac a = Some J ∧ fits J (asize y) (asize a) ∧ diff1 (λ x, default x (pinv_r x)) J a.
Proof.
  intros Hy Hp. destruct (pinv_is a y Hy) as (m & n & Ha & _). rewrite (asize_2 a m n Ha) in Hp.
  destruct (pinv_track a y m n Ha ltac:(lia) ltac:(lia) Hy) as (J & HJ & HF & HD). exists J. split_and!; try done. by apply pdiff_diff.
Qed.

(** lstsq *)
Lemma lstsq_jacobian a b x : lstsq_x a b = Some x → 0 < asize a → length (sh b) ≤ 2 →
  ∃ Ja Jb, lstsq_jac true a b = Some Ja ∧ lstsq_jac false a b = Some Jb ∧ fits Ja (asize x) (asize a) ∧ fits Jb (asize x) (asize b) ∧
    diff2 (λ u v, default u (lstsq_x u v)) Ja Jb a b.
Proof.
  intros Hx Hp Hl. unfold lstsq_x in Hx. apply bind_Some in Hx as (p & Ep & Hx). destruct (pinv_is a p Ep) as (m & n & Ha & Hsp & _).
  rewrite (asize_2 a m n Ha) in Hp. destruct (pinv_track a p m n Ha ltac:(lia) ltac:(lia) Ep) as (P & HP & FP & DP).
  assert (Hb : 0 < nth 0 (sh b) 0).
  { assert (Hd : is_Some (np_dot p b)) by (by exists x). unfold np_dot, a_parts, b_parts in Hx. rewrite Hsp in Hx. cbn -[Nat.div Nat.modulo size reverse] in Hx.
    destruct (sh b) as [|b0 [|b1 [|]]]; simpl in Hl; try lia; simpl; cbn -[Nat.div Nat.modulo size] in Hx; try done; case_decide; try done; subst; lia. }
  destruct (dot_track p b x Hx Hl Hb) as (D1 & D2 & H1 & H2 & F1 & F2 & DD). unfold lstsq_jac. rewrite Ep. cbn [mbind option_bind]. rewrite H1, HP, H2. cbn [mbind option_bind].
  exists (mmul D1 P), D2. split_and!; try done.
  { by eapply mmul_fits. }
  intros u v w z Hu Hw Mu Mw. destruct (DP u v Hu Mu) as (up & Np & Mp). pose proof (track_at _ _ _ _ _ Np Hu Ep) as Up.
  destruct (DD up _ w z Up Hw Mp Mw) as (o & No & Mo). eapply amoves_near; [|eapply amoves_ext; [|exact Mo]].
  - eapply near_mono; [|apply (near_and _ _ Np No)]. intros s [E1 E2]. cbv beta in *. unfold lstsq_x. rewrite E1. cbn [mbind option_bind]. by rewrite E2.
  - intros k. cbv beta. by rewrite mact_mmul.
Qed.

(** The residuals of lstsq *)
Lemma bshape_one s : s ≠ [] → bshape s [1] = Some s.
Proof.
  intros Hs. unfold bshape. change (reverse [1]) with [1]. destruct (reverse s) as [|d r] eqn:E.
  { apply (f_equal reverse) in E. rewrite reverse_involutive in E. done. }
  assert (H : bsh_rev (d :: r) [1] = Some (d :: r)). { simpl. repeat case_decide; subst; simpl; by destruct r. }
  rewrite H. simpl. by rewrite <- E, reverse_involutive.
Qed.
Lemma squares_sh a : sh a ≠ [] → sh (binary Bpower a (full [1] 2%R)) = sh a.
Proof. intros Ha. unfold binary, bop. simpl. by rewrite bshape_one. Qed.
Lemma npower_2 x : npower x 2 = (x * x)%R.
Proof. change 2%R with (INR 2). rewrite npower_nat. simpl. ring. Qed.
Lemma squares_dat a i : sh a ≠ [] → i < asize a → dat (binary Bpower a (full [1] 2%R)) i = (dat a i * dat a i)%R.
Proof.
  intros Ha Hi. unfold binary, bop, asize in *. simpl. rewrite bshape_one by done. simpl. rewrite bidx_same by done. apply npower_2.
Qed.
Lemma minus_same a b s : sh a = s → sh b = s → sh (binary Bsubtract a b) = s ∧ ∀ i, i < size s → dat (binary Bsubtract a b) i = (dat a i - dat b i)%R.
Proof.
  intros Ha Hb. unfold binary, bop. simpl. rewrite Ha, Hb, bshape_same. simpl. split; [done|]. intros i Hi. by rewrite !bidx_same.
Qed.
Lemma sum_0 q d s : sh q = d :: s → red_r Fsum (Some 0%Z) q = Some (Arr_ s (λ c, rs d (λ j, at_ q (j :: unravel s c)))).
Proof.
  intros Hq. unfold red_r, np_fold. rewrite Hq. unfold naxis. rewrite decide_True by (simpl length; lia). cbn [mbind option_bind].
  rewrite Z.mod_0_l by (simpl; lia). change (Z.to_nat 0) with 0. unfold fold_axis. rewrite Hq. done.
Qed.
Lemma lstsq_residual a b x r m n : sh a = [m; n] → sh b = [m] ∨ (∃ k, sh b = [m; k]) → lstsq_x a b = Some x → lstsq_res a b = Some r →
  sh r = drop 1 (sh b) ∧ ∀ c, c < columns b → dat r c = misfit m n (matrix_at a []) (column b c) (column x c).
Proof.
  intros Ha Hb Hx Hr. destruct (lstsq_least a b x m n Ha Hb Hx) as (_ & Hsx & _). unfold lstsq_res in Hr. rewrite Hx in Hr. cbn [mbind option_bind] in Hr.
  destruct Hb as [Hb|[k Hb]]; rewrite Hb in *; simpl in Hsx.
  - destruct (dot_is_v a x m n Ha Hsx) as (ax & Eax & Hsax & HX). rewrite Eax in Hr. cbn [mbind option_bind] in Hr.
    destruct (minus_same ax b [m] Hsax Hb) as [Hs1 Hd1]. set (e := binary Bsubtract ax b) in *.
    assert (Hne : sh e ≠ []) by (by rewrite Hs1). pose proof (squares_sh e Hne) as Hs2.
    pose proof (λ i, squares_dat e i Hne) as Hd2. set (q := binary Bpower e (full [1] 2%R)) in *. clearbody q. clearbody e.
    rewrite (sum_0 q _ _ (eq_trans Hs2 Hs1)) in Hr. injection Hr as <-. split; [done|]. cbn [dat].
    intros c Hc. unfold misfit, sq. apply rs_ext. intros i Hi.  cbn [unravel]. rewrite (at_1 q m) by (by rewrite Hs2).
    rewrite Hd2 by (unfold asize; rewrite Hs1, size_1; done).
    rewrite Hd1 by (by rewrite size_1). rewrite HX.
    assert (E : rs n (λ l, e2 n a i l * dat x l)%R = rs n (λ j, matrix_at a [] i j * column x c j)%R).
    { apply rs_ext. intros j Hj. rewrite (matrix_e2 a m n) by done. unfold column. rewrite Hsx. by rewrite (at_1 x n). }
    assert (Eb : column b c i = dat b i) by (unfold column; rewrite Hb; by apply (at_1 b m)). by rewrite E, Eb.
  - destruct (dot_is a x m n k Ha Hsx) as (ax & Eax & Hsax & HX). rewrite Eax in Hr. cbn [mbind option_bind] in Hr.
    destruct (minus_same ax b [m; k] Hsax Hb) as [Hs1 Hd1]. set (e := binary Bsubtract ax b) in *.
    assert (Hne : sh e ≠ []) by (by rewrite Hs1). pose proof (squares_sh e Hne) as Hs2.
    pose proof (λ i, squares_dat e i Hne) as Hd2. set (q := binary Bpower e (full [1] 2%R)) in *. clearbody q. clearbody e.
    rewrite (sum_0 q _ _ (eq_trans Hs2 Hs1)) in Hr. injection Hr as <-. split; [done|]. cbn [dat].
    intros c Hc. unfold columns in Hc. rewrite Hb in Hc. unfold misfit, sq. apply rs_ext. intros i Hi.
    assert (Eix : i :: unravel [k] c = [i; c]). { cbn -[Nat.div Nat.modulo]. by rewrite Nat.div_1_r. }
    change [i; (Nat.divmod c 0 0 0).1] with (i :: unravel [k] c). rewrite Eix. rewrite (at_2 q m k) by (by rewrite Hs2). pose proof (flat_lt m k i c Hi Hc) as Hf.
    rewrite Hd2 by (unfold asize; rewrite Hs1, size_2; done).
    rewrite Hd1 by (by rewrite size_2). fold (e2 k ax i c). rewrite HX by done.
    assert (E : mm n (e2 n a) (e2 k x) i c = rs n (λ j, matrix_at a [] i j * column x c j)%R).
    { unfold mm. apply rs_ext. intros j Hj. rewrite (matrix_e2 a m n) by done. unfold column. rewrite Hsx. by rewrite (at_2 x n k). }
    assert (Eb : column b c i = dat b (i * k + c)) by (unfold column; rewrite Hb; by apply (at_2 b m k)). by rewrite E, Eb.
Qed.
(** The residuals have a value whenever the solution has. *)
Lemma lstsq_res_some a b x m n : sh a = [m; n] → sh b = [m] ∨ (∃ k, sh b = [m; k]) → lstsq_x a b = Some x → is_Some (lstsq_res a b).
Proof.
  intros Ha Hb Hx. destruct (lstsq_least a b x m n Ha Hb Hx) as (_ & Hsx & _). unfold lstsq_res. rewrite Hx. cbn [mbind option_bind].
  destruct Hb as [Hb|[k Hb]]; rewrite Hb in *; simpl in Hsx.
  - destruct (dot_is_v a x m n Ha Hsx) as (ax & Eax & Hsax & HX). rewrite Eax. cbn [mbind option_bind].
    destruct (minus_same ax b [m] Hsax Hb) as [Hs1 _]. rewrite (sum_0 _ m []) by (rewrite squares_sh; by rewrite Hs1). by eexists.
  - destruct (dot_is a x m n k Ha Hsx) as (ax & Eax & Hsax & HX). rewrite Eax. cbn [mbind option_bind].
    destruct (minus_same ax b [m; k] Hsax Hb) as [Hs1 _]. rewrite (sum_0 _ m [k]) by (rewrite squares_sh; by rewrite Hs1). by eexists.
Qed.

(** norm *)
Lemma norm_value a : sh a ≠ [] → ∃ y, norm_r a = Some y ∧ sh y = [1] ∧ dat y 0 = R_sqrt.sqrt (rsum ((λ x, x * x)%R <$> elems a)).
Proof.
  intros Ha. unfold norm_r, norm_sum, red_r, np_fold. cbn [mbind option_bind]. eexists. split; [reflexivity|]. split; [done|].
  simpl. f_equal. f_equal. unfold elems, asize. rewrite squares_sh by done. rewrite <- list_fmap_compose. apply list_fmap_ext_ne.
  intros i Hi%elem_of_seq. simpl. apply squares_dat; [done|]. unfold asize. lia.
Qed.
Lemma elems_squares_pos a : (∃ x, x ∈ elems a ∧ x ≠ 0%R) → (0 < rsum ((λ x, x * x)%R <$> elems a))%R.
Proof.
  intros (x & Hx & Hn). induction (elems a) as [|z l IH]; [by apply elem_of_nil in Hx|].
  assert (Hl : (0 <= rsum ((λ x, x * x)%R <$> l))%R). { clear. induction l as [|w l IH]; simpl; [lra|]. change (0 <= w * w + rsum ((λ x, x * x)%R <$> l))%R. pose proof (Rle_0_sqr w) as H. unfold Rsqr in H. lra. }
  rewrite fmap_cons. change (0 < z * z + rsum ((λ x, x * x)%R <$> l))%R. apply elem_of_cons in Hx as [->|Hx]; [|specialize (IH Hx); pose proof (Rle_0_sqr z) as H; unfold Rsqr in H; lra].
  pose proof (Rsqr_pos_lt z Hn) as H. unfold Rsqr in H. lra.
Qed.
Lemma norm_jacobian a : sh a ≠ [] → (∃ x, x ∈ elems a ∧ x ≠ 0%R) →
  ∃ J, norm_jac a = Some J ∧ fits J 1 (asize a) ∧ diff1 (λ x, default x (norm_r x)) J a.
Proof.
  intros Ha Hx. pose proof (elems_squares_pos a Hx) as Hpos.
  destruct (power_nat_right a (full [1] 2%R) (sh a) []) as (P & HP & FP & DP).
  { by apply bshape_one. } { intros i _. exists 2. simpl. lra. }
  set (q := binary Bpower a (full [1] 2%R)) in *. pose proof (squares_sh a Ha) as Hq. fold q in Hq.
  destruct (sum_jacobian None q (Arr_ [] (λ _, rsum (elems q))) eq_refl) as (S & HS & FS & _ & DS).
  set (s := Arr_ [] (λ _, rsum (elems q))) in *.
  assert (Es : rsum (elems q) = rsum ((λ x, x * x)%R <$> elems a)).
  { f_equal. unfold elems, asize. rewrite Hq. rewrite <- list_fmap_compose. apply list_fmap_ext_ne.
    intros i Hi%elem_of_seq. simpl. apply squares_dat; [done|]. unfold asize. lia. }
  destruct (unary_jacobian Usqrt (atleast_1d s)) as (U & HU & FU & _ & _ & DU).
  { right. split; [done|simpl; lia]. }
  { intros i _. simpl. by rewrite Es. }
  unfold norm_jac. change (norm_sum a) with (Some s). cbn [mbind option_bind]. rewrite HU. cbn [mbind option_bind]. fold q. rewrite HS. cbn [mbind option_bind].
  change no_templates with (after_calls []). rewrite HP. cbn [mbind option_bind]. eexists. split; [reflexivity|]. split.
  - eapply mmul_fits; [exact FU|]. eapply mmul_fits; [exact FS|]. unfold asize at 1. rewrite Hq. exact FP.
  - intros u v Hu Mu. specialize (DP u v Hu Mu). specialize (DS _ _ (f_equal (λ x, binary Bpower x (full [1] 2%R)) Hu) DP).
    apply amoves_at1 in DS. specialize (DU (λ t, atleast_1d (default (binary Bpower (u t) (full [1] 2%R)) (red_r Fsum None (binary Bpower (u t) (full [1] 2%R)))))).
    specialize (DU _ (f_equal (λ x, atleast_1d (default (binary Bpower x (full [1] 2%R)) (red_r Fsum None (binary Bpower x (full [1] 2%R))))) Hu) DS).
    eapply amoves_ext; [|exact DU]. intros i. cbv beta. rewrite mact_mmul. apply mact_ext. intros k. by rewrite mact_mmul.
Qed.
