(** The Jacobians of SvdD, SvdV and SvdU are the derivatives. *)
From Coq Require Import Reals Lra.
From stdpp Require Import list list_numbers numbers.
From Verif Require Import ArrModel Curve ArrThms LinModel LinSpec LinThms SvdModel SvdSpec SvdThms.
Local Open Scope R_scope.

Lemma at_2 {T} (a : arr T) m n i j : sh a = [m; n] → at_ a [i; j] = dat a (i * n + j)%nat.
Proof. intros H. unfold at_. rewrite H. simpl. f_equal. lia. Qed.
Lemma at_1 {T} (a : arr T) n i : sh a = [n] → at_ a [i] = dat a i.
Proof. intros H. unfold at_. rewrite H. simpl. f_equal. lia. Qed.
Lemma size_2 m n : size [m; n] = (m * n)%nat.
Proof. unfold size. simpl. lia. Qed.
Lemma size_1 n : size [n] = n.
Proof. unfold size. simpl. lia. Qed.
Lemma flat_lt m n i j : (i < m)%nat → (j < n)%nat → (i * n + j < m * n)%nat.
Proof. nia. Qed.
Lemma flat_div n i j : (j < n)%nat → ((i * n + j) / n = i)%nat.
Proof. intros. rewrite Nat.div_add_l, Nat.div_small; lia. Qed.
Lemma flat_mod n i j : (j < n)%nat → ((i * n + j) mod n = j)%nat.
Proof. intros. rewrite Nat.add_comm, Nat.mod_add, Nat.mod_small; lia. Qed.
Lemma rs_flat m n (g : nat → R) : rs (m * n) g = rs m (λ i, rs n (λ j, g (i * n + j)%nat)).
Proof.
  induction m as [|m IH]; [done|]. replace (S m * n)%nat with (m * n + n)%nat by lia.
  rewrite seq_app, fmap_app, rsum_app, IH, seq_S, fmap_app, rsum_app. f_equal. simpl. rewrite Rplus_0_r.
  replace (m * n)%nat with (m * n + 0)%nat at 1 by lia.
  rewrite <- (fmap_add_seq (m * n) 0 n), <- list_fmap_compose. done.
Qed.

(** A decomposition as equations between functions. *)
Section one.
Context (m n : nat) (x u s v : arr R) (H : is_svd m n n x u s v).
Let X := e2 n x. Let U := e2 n u. Let V := e2 n v. Let D := dat s.
Lemma svd_prod i j : (i < m)%nat → (j < n)%nat → X i j = rs n (λ l, U i l * D l * V j l).
Proof.
  intros Hi Hj. destruct H as (Hx & Hu & Hs & Hv & HX & _). specialize (HX i j Hi Hj).
  rewrite (at_2 x m n) in HX by done. unfold X, e2. rewrite HX. apply rs_ext. intros l Hl.
  by rewrite (at_2 u m n), (at_1 s n), (at_2 v n n).
Qed.
Lemma svd_uu p q : (p < n)%nat → (q < n)%nat → rs m (λ i, U i p * U i q) = uni p q.
Proof.
  intros Hp Hq. destruct H as (Hx & Hu & Hs & Hv & _ & HU & _). specialize (HU p q Hp Hq).
  unfold uni. unfold unit_ in HU. rewrite <- HU. apply rs_ext. intros i Hi. by rewrite !(at_2 u m n).
Qed.
Lemma svd_vv p q : (p < n)%nat → (q < n)%nat → rs n (λ i, V i p * V i q) = uni p q.
Proof.
  intros Hp Hq. destruct H as (Hx & Hu & Hs & Hv & _ & _ & HV & _). specialize (HV p q Hp Hq).
  unfold uni. unfold unit_ in HV. rewrite <- HV. apply rs_ext. intros i Hi. by rewrite !(at_2 v n n).
Qed.
Lemma svd_pos l : (l < n)%nat → 0 <= D l.
Proof. intros Hl. destruct H as (Hx & Hu & Hs & Hv & _ & _ & _ & HP). specialize (HP l Hl). by rewrite (at_1 s n) in HP. Qed.
Lemma svd_rows a b : (a < n)%nat → (b < n)%nat → rs n (λ l, V a l * V b l) = uni a b.
Proof.
  intros Ha Hb.
  assert (Hr : rinv n (λ i j, V j i) V). { intros i j Hi Hj. unfold mm. by rewrite svd_vv. }
  destruct (rinv_both _ _ _ Hr a b Ha Hb) as [_ E]. exact E.
Qed.
Lemma svd_right i k : (i < m)%nat → (k < n)%nat → rs n (λ j, X i j * V j k) = D k * U i k.
Proof.
  intros Hi Hk. transitivity (rs n (λ l, rs n (λ j, U i l * D l * (V j l * V j k)))).
  - rewrite rs_swap. apply rs_ext. intros j Hj. rewrite svd_prod by done. rewrite <- rs_scal_r. apply rs_ext. intros. ring.
  - rewrite (rs_single n _ k Hk).
    + rewrite rs_scal, svd_vv by done. unfold uni. rewrite decide_True by done. ring.
    + intros l Hl Hne. rewrite rs_scal, svd_vv by done. unfold uni. rewrite decide_False by done. ring.
Qed.
Lemma svd_left j k : (j < n)%nat → (k < n)%nat → rs m (λ i, X i j * U i k) = D k * V j k.
Proof.
  intros Hj Hk. transitivity (rs n (λ l, rs m (λ i, V j l * D l * (U i l * U i k)))).
  - rewrite rs_swap. apply rs_ext. intros i Hi. rewrite svd_prod by done. rewrite <- rs_scal_r. apply rs_ext. intros. ring.
  - rewrite (rs_single n _ k Hk).
    + rewrite rs_scal, svd_uu by done. unfold uni. rewrite decide_True by done. ring.
    + intros l Hl Hne. rewrite rs_scal, svd_uu by done. unfold uni. rewrite decide_False by done. ring.
Qed.
End one.

Lemma acont_dat y s i : near (λ t, sh (y t) = s) → acont y → (i < size s)%nat → continuity_pt (λ t, dat (y t) i) 0.
Proof.
  intros Hs Hy Hi. eapply cont_near; [|exact (Hy i)]. eapply near_mono, Hs. intros t Ht. apply elem_in. unfold asize. by rewrite Ht.
Qed.
Lemma spacing1_pos : 0 < spacing1.
Proof. unfold spacing1. apply Rinv_0_lt_compat, pow_lt. lra. Qed.
Lemma chop_id s k : dat s k = 0 ∨ spacing1 <= dat s k → dat (chop s) k = dat s k.
Proof.
  pose proof spacing1_pos. intros [E|Hge]; unfold chop; simpl.
  - rewrite E. by destruct (Rlt_dec _ _).
  - rewrite Rabs_pos_eq by lra. destruct (Rlt_dec _ _); [lra|done].
Qed.

Section arrays.
Context (m n : nat) (X : R → arr R) (vel : nat → R) (U S V : R → arr R).
Context (HX : amoves X vel) (HD : near (λ t, is_svd m n n (X t) (U t) (S t) (V t))) (HU : acont U) (HV : acont V).
Let X' i j := vel (i * n + j)%nat.
Let eX t := e2 n (X t). Let eU t := e2 n (U t). Let eV t := e2 n (V t). Let eS t := dat (S t).

Lemma X_moves i j : (i < m)%nat → (j < n)%nat → derivable_pt_lim (λ t, eX t i j) 0 (X' i j).
Proof.
  intros Hi Hj. apply (amoves_dat X vel); [done|]. unfold asize.
  destruct (near_0 _ HD) as [E _]. rewrite E, size_2. by apply flat_lt.
Qed.
Lemma U_cont i k : (i < m)%nat → (k < n)%nat → continuity_pt (λ t, eU t i k) 0.
Proof.
  intros Hi Hk. apply (acont_dat U [m; n]); [|done|rewrite size_2; by apply flat_lt].
  eapply near_mono, HD. by intros t (_ & ? & _).
Qed.
Lemma V_cont i k : (i < n)%nat → (k < n)%nat → continuity_pt (λ t, eV t i k) 0.
Proof.
  intros Hi Hk. apply (acont_dat V [n; n]); [|done|rewrite size_2; by apply flat_lt].
  eapply near_mono, HD. by intros t (_ & _ & _ & ? & _).
Qed.
Lemma near_rights : near (rights m n n eX eU eV eS).
Proof. eapply near_mono, HD. intros t Ht i k Hi Hk. by apply (svd_right m n _ _ _ _ Ht). Qed.
Lemma near_lefts : near (lefts m n n eX eU eV eS).
Proof. eapply near_mono, HD. intros t Ht i k Hi Hk. by apply (svd_left m n _ _ _ _ Ht). Qed.
Lemma near_uu : near (ortho n m eU).
Proof. eapply near_mono, HD. intros t Ht i k Hi Hk. by apply (svd_uu m n _ _ _ _ Ht). Qed.
Lemma near_vv : near (ortho n n eV).
Proof. eapply near_mono, HD. intros t Ht i k Hi Hk. by apply (svd_vv m n _ _ _ _ Ht). Qed.
Lemma near_rows : near (λ t, ∀ a b, (a < n)%nat → (b < n)%nat → rs n (λ l, eV t a l * eV t b l) = uni a b).
Proof. eapply near_mono, HD. intros t Ht i k Hi Hk. by apply (svd_rows m n _ _ _ _ Ht). Qed.

Let form_ := form m n X' eU eV.
Lemma S_deriv k : (k < n)%nat → derivable_pt_lim (λ t, dat (S t) k) 0 (form_ k k).
Proof.
  exact (value_deriv m n n eX X' eU eV eS X_moves near_rights near_lefts near_uu near_vv U_cont V_cont k).
Qed.
(** A dense matrix applied to the velocity *)
Lemma act_flat r f p : (p < r)%nat →
  mact (dense r (m * n) (λ p q, f p (q / n)%nat (q mod n)%nat)) vel p = rs m (λ i, rs n (λ j, f p i j * X' i j)).
Proof.
  intros Hp. rewrite mact_dense, decide_True by done. rewrite rs_flat. apply rs_ext. intros i Hi. apply rs_ext. intros j Hj.
  by rewrite flat_div, flat_mod.
Qed.
Lemma act_out r f p : (r <= p)%nat → mact (dense r (m * n) f) vel p = 0.
Proof. intros Hp. rewrite mact_dense, decide_False by lia. done. Qed.

Lemma form_dd k : form_ k k = rs m (λ i, rs n (λ j, svdd_ent n (U 0) (V 0) k i j * X' i j)).
Proof. unfold form_, form. apply rs_ext. intros i Hi. apply rs_ext. intros j Hj. unfold svdd_ent, eU, eV. ring. Qed.

Lemma svdd_right : (∀ k, (k < n)%nat → spacing1 < at_ (S 0) [k]) →
  fits (svdd_jac m n (U 0) (V 0)) n (m * n) ∧ amoves (λ t, chop (S t)) (mact (svdd_jac m n (U 0) (V 0)) vel).
Proof.
  intros Hpos. split; [split_and!; [done|done|apply dense_range]|].
  assert (HsS : near (λ t, sh (S t) = [n])). { eapply near_mono, HD. by intros t (_ & _ & ? & _). }
  apply (amoves_intro _ _ [n]).
  - exact HsS.
  - intros k Hk. rewrite size_1 in Hk. pose proof (S_deriv k Hk) as Hd. pose proof spacing1_pos.
    eapply deriv_near; [|eapply deriv_eq; [exact Hd|]].
    + assert (Hn : near (λ t, spacing1 < dat (S t) k)).
      { apply (cont_above _ _ (deriv_cont _ _ Hd)). specialize (Hpos k Hk). by rewrite (at_1 _ n) in Hpos by (exact (near_0 _ HsS)). }
      eapply near_mono, Hn. intros t Ht. simpl. rewrite Rabs_pos_eq by lra. destruct (Rlt_dec _ _); [lra|done].
    + unfold svdd_jac. rewrite (act_flat n (svdd_ent n (U 0) (V 0))) by done. apply form_dd.
  - intros k Hk. rewrite size_1 in Hk. by apply act_out.
Qed.

(* ------------------------------------------------------------------ *)
Context (Hmn : (n <= m)%nat) (Hdiff : ∀ k l, (k < l)%nat → (l < n)%nat → at_ (S 0) [k] ≠ at_ (S 0) [l])
  (Hclear : ∀ k, (k < n)%nat → at_ (S 0) [k] = 0 ∨ spacing1 <= at_ (S 0) [k]).
Lemma S0_sh : sh (S 0) = [n].
Proof. by destruct (near_0 _ HD) as (_ & _ & ? & _). Qed.
Lemma chopped k : (k < n)%nat → dat (chop (S 0)) k = dat (S 0) k.
Proof. intros Hk. apply chop_id. specialize (Hclear k Hk). by rewrite (at_1 _ n) in Hclear by apply S0_sh. Qed.
Lemma sq_diff k l : (k < n)%nat → (l < n)%nat → k ≠ l → eS 0 k * eS 0 k - eS 0 l * eS 0 l ≠ 0.
Proof.
  intros Hk Hl Hne E. assert (Hkl : eS 0 k ≠ eS 0 l).
  { unfold eS. rewrite <- !(at_1 (S 0) n) by apply S0_sh. destruct (decide (k < l)%nat); [by apply Hdiff|].
    apply not_eq_sym, Hdiff; [lia|done]. }
  pose proof (svd_pos m n _ _ _ _ (near_0 _ HD) k Hk) as Pk. pose proof (svd_pos m n _ _ _ _ (near_0 _ HD) l Hl) as Pl.
  unfold eS in *. apply Hkl. nra.
Qed.
Let rate_ := rate m n X' eU eV eS.
Lemma V_deriv a k : (a < n)%nat → (k < n)%nat → derivable_pt_lim (λ t, eV t a k) 0 (rs n (λ l, eV 0 a l * rate_ l k)).
Proof.
  exact (vector_deriv m n n eX X' eU eV eS X_moves near_rights near_lefts near_uu near_vv U_cont V_cont near_rows sq_diff a k).
Qed.
Lemma omega_val i j k l : (k < n)%nat → (l < n)%nat → k ≠ l →
  omega n (U 0) (chop (S 0)) (V 0) i j k l =
  - (eS 0 l * (eU 0 i l * eV 0 j k) + eS 0 k * (eU 0 i k * eV 0 j l)) / (eS 0 l * eS 0 l - eS 0 k * eS 0 k).
Proof.
  intros Hk Hl Hne. pose proof (sq_diff l k Hl Hk (not_eq_sym Hne)) as Hd1. pose proof (sq_diff k l Hk Hl Hne) as Hd2.
  unfold omega. destruct (decide (k < l)%nat) as [Hlt|Hge]; [|rewrite decide_True by lia];
    unfold omega_lt, solve2; rewrite !chopped by done; fold (eS 0 k) (eS 0 l);
    destruct (Req_EM_T _ _) as [|_]; try done; simpl; unfold eU, eV; field; done.
Qed.
Lemma svdv_rate a k : (k < n)%nat →
  rs n (λ l, eV 0 a l * rate_ l k) = rs m (λ i, rs n (λ j, svdv_ent n (U 0) (chop (S 0)) (V 0) a k i j * X' i j)).
Proof.
  intros Hk.
  transitivity (rs n (λ l, rs m (λ i, rs n (λ j, - eV 0 a l * omega n (U 0) (chop (S 0)) (V 0) i j l k * X' i j)))).
  - apply rs_ext. intros l Hl. unfold rate_, rate. destruct (decide (l = k)) as [->|Hne].
    + rewrite Rmult_0_r. symmetry. apply rs_zero. intros i Hi. apply rs_zero. intros j Hj. unfold omega.
      rewrite !decide_False by lia. ring.
    + pose proof (sq_diff k l Hk Hl (not_eq_sym Hne)) as Hd. unfold form. fold (eS 0 k) (eS 0 l).
      set (d := eS 0 k * eS 0 k - eS 0 l * eS 0 l) in *.
      transitivity (rs m (λ i, rs n (λ j, eV 0 a l / d * (eS 0 k * (eU 0 i k * X' i j * eV 0 j l) + eS 0 l * (eU 0 i l * X' i j * eV 0 j k))))).
      * unfold Rdiv. transitivity (eV 0 a l * / d * (eS 0 k * rs m (λ i, rs n (λ j, eU 0 i k * X' i j * eV 0 j l)) + eS 0 l * rs m (λ i, rs n (λ j, eU 0 i l * X' i j * eV 0 j k)))); [ring|].
        rewrite <- !rs_scal, <- rs_plus, <- rs_scal. apply rs_ext. intros i Hi. rewrite <- !rs_scal, <- rs_plus, <- rs_scal. done.
      * apply rs_ext. intros i Hi. apply rs_ext. intros j Hj. rewrite omega_val by done. unfold d. field. done.
  - rewrite rs_swap. apply rs_ext. intros i Hi. rewrite rs_swap. apply rs_ext. intros j Hj. unfold svdv_ent. rewrite <- rs_scal_r. done.
Qed.
Lemma svdv_some : svdv_jac m n (U 0) (chop (S 0)) (V 0) =
  Some (dense (n * n) (m * n) (λ p q, svdv_ent n (U 0) (chop (S 0)) (V 0) (p / n)%nat (p mod n)%nat (q / n)%nat (q mod n)%nat)).
Proof.
  unfold svdv_jac. rewrite decide_False by lia.
  match goal with |- (if ?b then _ else _) = _ => assert (E : b = true); [|by rewrite E] end.
  apply forallb_forall. intros i _. apply forallb_forall. intros j _. apply forallb_forall. intros k _. apply forallb_forall. intros l Hl%in_seq.
  destruct (decide (k < l)%nat) as [Hlt|]; [|done]. unfold omega_lt, solve2. rewrite !chopped by lia.
  assert (Hk : (k < n)%nat) by lia. assert (Hl' : (l < n)%nat) by lia. assert (Hne : l ≠ k) by lia.
  pose proof (sq_diff l k Hl' Hk Hne). fold (eS 0 k) (eS 0 l). by destruct (Req_EM_T _ _).
Qed.
Lemma svdv_right : ∃ J, svdv_jac m n (U 0) (chop (S 0)) (V 0) = Some J ∧ fits J (n * n) (m * n) ∧ amoves V (mact J vel).
Proof.
  eexists. split; [exact svdv_some|]. split; [split_and!; [done|done|apply dense_range]|].
  apply (amoves_intro _ _ [n; n]).
  - eapply near_mono, HD. by intros t (_ & _ & _ & ? & _).
  - intros o Ho. rewrite size_2 in Ho. assert (Hn : n ≠ 0%nat) by nia.
    pose proof (Nat.mod_upper_bound o n Hn) as Hm. assert (Hq : (o / n < n)%nat) by (apply Nat.div_lt_upper_bound; done).
    eapply deriv_ext; [|eapply deriv_eq; [exact (V_deriv (o / n) (o mod n) Hq Hm)|]].
    + intros t. unfold eV, e2. f_equal. rewrite Nat.mul_comm. symmetry. by apply Nat.div_mod.
    + rewrite (act_flat (n * n) (λ p i j, svdv_ent n (U 0) (chop (S 0)) (V 0) (p / n) (p mod n) i j)) by done. by apply svdv_rate.
  - intros o Ho. rewrite size_2 in Ho. by apply act_out.
Qed.

Lemma svdu_rate a k : (a < m)%nat → (k < n)%nat → eS 0 k ≠ 0 →
  rs n (λ j, X' a j * eV 0 j k + eX 0 a j * rs n (λ l, eV 0 j l * rate_ l k)) / eS 0 k
     - rs n (λ j, eX 0 a j * eV 0 j k) * form_ k k / (eS 0 k * eS 0 k)
  = rs m (λ i, rs n (λ j, svdu_ent n (X 0) (U 0) (chop (S 0)) (V 0) a k i j * X' i j)).
Proof.
  intros Ha Hk Hs. rewrite form_dd. unfold svdu_ent. rewrite chopped by done. fold (eS 0 k).
  unfold nan_div. destruct (Req_EM_T (eS 0 k) 0) as [|_]; [done|]. destruct (Req_EM_T (eS 0 k * eS 0 k) 0) as [E|_]; [nra|].
  fold (eX 0) (eV 0). set (xv := rs n (λ j, eX 0 a j * eV 0 j k)).
  set (A := rs n (λ j, X' a j * eV 0 j k)). set (DD := rs m (λ i, rs n (λ j, svdd_ent n (U 0) (V 0) k i j * X' i j))).
  set (B := rs n (λ b, eX 0 a b * rs m (λ i, rs n (λ j, svdv_ent n (U 0) (chop (S 0)) (V 0) b k i j * X' i j)))).
  assert (HB : rs n (λ j, X' a j * eV 0 j k + eX 0 a j * rs n (λ l, eV 0 j l * rate_ l k)) = A + B).
  { rewrite rs_plus. unfold A, B. f_equal. apply rs_ext. intros b Hb. by rewrite svdv_rate. }
  rewrite HB.
  transitivity (rs m (λ i, rs n (λ j, / eS 0 k * ((if decide (a = i) then eV 0 j k else 0) * X' i j)))
    + (rs m (λ i, rs n (λ j, / eS 0 k * rs n (λ b, eX 0 a b * (svdv_ent n (U 0) (chop (S 0)) (V 0) b k i j * X' i j))))
    + rs m (λ i, rs n (λ j, - xv / (eS 0 k * eS 0 k) * (svdd_ent n (U 0) (V 0) k i j * X' i j))))).
  - assert (E1 : rs m (λ i, rs n (λ j, / eS 0 k * ((if decide (a = i) then eV 0 j k else 0) * X' i j))) = / eS 0 k * A).
    { rewrite (rs_single m _ a Ha).
      - rewrite rs_scal. f_equal. apply rs_ext. intros j Hj. rewrite decide_True by done. ring.
      - intros i Hi Hne. apply rs_zero. intros j Hj. rewrite decide_False by congruence. ring. }
    assert (E2 : rs m (λ i, rs n (λ j, / eS 0 k * rs n (λ b, eX 0 a b * (svdv_ent n (U 0) (chop (S 0)) (V 0) b k i j * X' i j)))) = / eS 0 k * B).
    { transitivity (rs m (λ i, / eS 0 k * rs n (λ j, rs n (λ b, eX 0 a b * (svdv_ent n (U 0) (chop (S 0)) (V 0) b k i j * X' i j))))).
      { apply rs_ext. intros i Hi. by rewrite rs_scal. }
      rewrite rs_scal. f_equal. unfold B.
      transitivity (rs m (λ i, rs n (λ b, rs n (λ j, eX 0 a b * (svdv_ent n (U 0) (chop (S 0)) (V 0) b k i j * X' i j))))).
      { apply rs_ext. intros i Hi. apply rs_swap. }
      rewrite rs_swap. apply rs_ext. intros b Hb. rewrite <- rs_scal. apply rs_ext. intros i Hi. by rewrite rs_scal. }
    assert (E3 : rs m (λ i, rs n (λ j, - xv / (eS 0 k * eS 0 k) * (svdd_ent n (U 0) (V 0) k i j * X' i j))) = - xv / (eS 0 k * eS 0 k) * DD).
    { transitivity (rs m (λ i, - xv / (eS 0 k * eS 0 k) * rs n (λ j, svdd_ent n (U 0) (V 0) k i j * X' i j))).
      - apply rs_ext. intros i Hi. by rewrite rs_scal.
      - by rewrite rs_scal. }
    rewrite E1, E2, E3. field. done.
  - rewrite <- !rs_plus. apply rs_ext. intros i Hi. rewrite <- !rs_plus. apply rs_ext. intros j Hj.
    assert (E : rs n (λ b, eX 0 a b * (svdv_ent n (U 0) (chop (S 0)) (V 0) b k i j * X' i j)) = rs n (λ b, eX 0 a b * svdv_ent n (U 0) (chop (S 0)) (V 0) b k i j) * X' i j).
    { rewrite <- rs_scal_r. apply rs_ext. intros. ring. }
    rewrite E. unfold xv. field. done.
Qed.
Lemma svdu_right : (∀ k, (k < n)%nat → at_ (S 0) [k] ≠ 0) →
  ∃ J, svdu_jac m n (X 0) (U 0) (chop (S 0)) (V 0) = Some J ∧ fits J (m * n) (m * n) ∧ amoves U (mact J vel).
Proof.
  intros Hpos. unfold svdu_jac. rewrite svdv_some. simpl. eexists. split; [done|]. split; [split_and!; [done|done|apply dense_range]|].
  apply (amoves_intro _ _ [m; n]).
  - eapply near_mono, HD. by intros t (_ & ? & _).
  - intros o Ho. rewrite size_2 in Ho. assert (Hn : n ≠ 0%nat) by nia.
    pose proof (Nat.mod_upper_bound o n Hn) as Hm. assert (Hq : (o / n < m)%nat) by (apply Nat.div_lt_upper_bound; lia).
    assert (Hs : eS 0 (o mod n) ≠ 0). { unfold eS. rewrite <- (at_1 (S 0) n) by apply S0_sh. by apply Hpos. }
    eapply deriv_ext; [|eapply deriv_eq; [exact (left_deriv m n n eX X' eU eV eS X_moves near_rights near_lefts near_uu near_vv U_cont V_cont near_rows sq_diff (o / n) (o mod n) Hq Hm Hs)|]].
    + intros t. unfold eU, e2. f_equal. rewrite Nat.mul_comm. symmetry. by apply Nat.div_mod.
    + rewrite (act_flat (m * n) (λ p i j, svdu_ent n (X 0) (U 0) (chop (S 0)) (V 0) (p / n) (p mod n) i j)) by done. by apply svdu_rate.
  - intros o Ho. rewrite size_2 in Ho. by apply act_out.
Qed.
End arrays.
