(** Proofs for the elementwise operations. *)
From Coq Require Import Reals Lra.
From stdpp Require Import list list_numbers numbers gmap.
From Verif Require Import ArrModel Curve ArrThms ElemModel ElemSpec.

(* ------------------------------------------------------------------ *)
(** Unary functions. *)
Lemma lim_eq f x l l' : l = l' → derivable_pt_lim f x l → derivable_pt_lim f x l'.
Proof. by intros ->. Qed.
Lemma lim_ext f g x l : (∀ t, f t = g t) → derivable_pt_lim f x l → derivable_pt_lim g x l.
Proof.
  intros H Hf eps Heps. destruct (Hf eps Heps) as [d Hd]. exists d. intros h Hh Hlt. rewrite <- !H. auto.
Qed.
Lemma lim_asin x : (-1 < x < 1)%R → derivable_pt_lim asin x (/ R_sqrt.sqrt (1 - x * x))%R.
Proof.
  intros Hx. pose proof (derive_pt_asin x Hx) as H. unfold Rsqr in H.
  replace (/ R_sqrt.sqrt (1 - x * x))%R with (derive_pt asin x (derivable_pt_asin x Hx)) by (rewrite H; unfold Rdiv; ring).
  apply (derive_pt_eq_1 _ _ _ (derivable_pt_asin x Hx)). done.
Qed.
Lemma lim_acos x : (-1 < x < 1)%R → derivable_pt_lim acos x (- / R_sqrt.sqrt (1 - x * x))%R.
Proof.
  intros Hx. pose proof (derive_pt_acos x Hx) as H. unfold Rsqr in H.
  replace (- / R_sqrt.sqrt (1 - x * x))%R with (derive_pt acos x (derivable_pt_acos x Hx)) by (rewrite H; unfold Rdiv; ring).
  apply (derive_pt_eq_1 _ _ _ (derivable_pt_acos x Hx)). done.
Qed.
Lemma lim_inv x : (x ≠ 0)%R → derivable_pt_lim (λ x, / x)%R x (- / (x * x))%R.
Proof.
  intros Hx. apply (lim_ext (fct_cte 1 / id)%F); [intros t; unfold div_fct, fct_cte, id, Rdiv; ring|].
  eapply lim_eq; [|apply derivable_pt_lim_div; [apply derivable_pt_lim_const|apply derivable_pt_lim_id|done]].
  unfold id, fct_cte, Rsqr. field. done.
Qed.

Lemma u_deriv f x : u_dom f x → derivable_pt_lim (u_r f) x (u_d f x).
Proof.
  destruct f; simpl; intros Hx.
  - by apply lim_inv.
  - eapply lim_eq; [|apply (derivable_pt_lim_mult id id); apply derivable_pt_lim_id]. unfold id. ring.
  - eapply lim_eq; [|apply derivable_pt_lim_sqrt; done].
    rewrite Rpower_Ropp. replace (1 / 2)%R with (/ 2)%R by field. rewrite Rpower_sqrt by done.
    assert (0 < R_sqrt.sqrt x)%R by (by apply sqrt_lt_R0). field. lra.
  - apply derivable_pt_lim_exp.
  - by apply derivable_pt_lim_ln.
  - apply derivable_pt_lim_sin.
  - by apply lim_asin.
  - apply derivable_pt_lim_cos.
  - by apply lim_acos.
  - eapply lim_eq; [|apply (derivable_pt_lim_div sin cos); [apply derivable_pt_lim_sin|apply derivable_pt_lim_cos|done]].
    unfold Rsqr. replace (cos x * cos x - - sin x * sin x)%R with 1%R; [field; done|].
    pose proof (sin2_cos2 x) as H. unfold Rsqr in H. lra.
  - eapply lim_eq; [|apply derivable_pt_lim_atan]. f_equal. ring.
  - apply (derivable_pt_lim_opp id), derivable_pt_lim_id.
  - destruct (Rlt_dec 0 x) as [H|H].
    + eapply lim_eq; [|by apply Rabs_derive_1]. ring.
    + eapply lim_eq; [|apply Rabs_derive_2; lra]. ring.
Qed.

Lemma unary_diff f a : (∀ i, i < asize a → u_dom f (dat a i)) →
  diff1 (unary f) (diags (elems (amap (u_d f) a))) a.
Proof.
  intros Hdom y v Hy0 Hm. apply (amoves_intro _ _ (sh a)).
  - eapply near_mono; [|exact (amoves_shape _ _ Hm)]. intros t Ht. simpl. by rewrite Ht, Hy0.
  - intros i Hi. rewrite mact_diags, elems_lookup by done. simpl.
    apply (derivable_pt_lim_comp (λ t, dat (y t) i) (u_r f)).
    + apply amoves_dat; [done|]. by rewrite Hy0.
    + rewrite Hy0. apply u_deriv, Hdom, Hi.
  - intros i Hi. by rewrite mact_diags, elems_lookup_None.
Qed.

Lemma entry_diags d i j : entry (diags d) i j = if decide (i = j) then nth i d 0%R else 0%R.
Proof.
  rewrite entry_alt. 
  assert (H : mact (diags d) (λ k, if decide (k = j) then 1%R else 0%R) i =
    rsum ((λ e, if decide (e.1.1 = i ∧ e.1.2 = j) then e.2 else 0%R) <$> trip (diags d))).
  { rewrite mact_alt. apply rsum_ext. intros [[r c] x] _. simpl. destruct (decide (r = i)), (decide (c = j));
      repeat case_decide; try naive_solver; ring. }
  rewrite <- H, mact_diags. destruct (decide (i = j)) as [->|].
  - destruct (d !! j) as [x|] eqn:E; [rewrite (nth_lookup_Some d j 0%R x E); ring|].
    symmetry. apply nth_overflow. by apply lookup_ge_None.
  - destruct (d !! i); [ring|done].
Qed.

Lemma size_1 s : size s = 1 → Forall (λ d, d = 1) s.
Proof.
  induction s as [|d s IH]; simpl; intros H; [constructor|].
  assert (d = 1 ∧ size s = 1) as [-> Hs]; [|constructor; auto].
  destruct d as [|[|d]]; [lia|lia|]. destruct (size s) as [|[|k]]; lia.
Qed.
Lemma dense_1 x : dense 1 1 (λ _ _, x) = diags [x].
Proof. done. Qed.
Lemma unary_jac_diag f a : unary_shape (sh a) → unary_jac f a = Some (diags (elems (amap (u_d f) a))).
Proof.
  unfold unary_shape, unary_jac, elems, asize, atleast_2d. destruct a as [s d]. simpl.
  destruct s as [|n s]; [done|]. intros [Hn|[Hs Hl]].
  { by rewrite decide_True. }
  pose proof (size_1 _ Hs) as H1. inversion H1; subst. rewrite decide_False by lia.
  simpl in Hl. destruct s as [|m [|? ?]]; simpl in *; [done| |lia].
  match goal with H : Forall _ [m] |- _ => inversion H; subst end. simpl. rewrite <- dense_1. done.
Qed.
Lemma diags_fits d : fits (diags d) (length d) (length d).
Proof. split_and!; [done..|]. apply diags_range. Qed.

Lemma unary_right f a : unary_shape (sh a) → (∀ i, i < asize a → u_dom f (dat a i)) →
  ∃ J, unary_jac f a = Some J ∧ fits J (asize a) (asize a) ∧
    (∀ i j, i < asize a → entry J i j = if decide (i = j) then u_d f (dat a i) else 0%R) ∧
    diff1 (unary f) J a.
Proof.
  intros Hs Hd. exists (diags (elems (amap (u_d f) a))). split_and!.
  - by apply unary_jac_diag.
  - pose proof (diags_fits (elems (amap (u_d f) a))) as H. by rewrite elems_length in H.
  - intros i j Hi. rewrite entry_diags. destruct (decide (i = j)) as [->|]; [|done].
    apply nth_lookup_Some. by rewrite elems_lookup.
  - by apply unary_diff.
Qed.

Lemma unary_row : ∃ J, unary_jac Usquare row12 = Some J ∧ nrow J = 1 ∧ ¬ diff1 (unary Usquare) J row12.
Proof.
  eexists. split; [reflexivity|]. split; [done|]. intros Hd.
  set (y := λ t : R, of_list 0%R [1; 2] [1%R; (1 + t)%R]).
  set (v := λ i, if decide (i = 1) then 1%R else 0%R).
  assert (Hm : amoves y v).
  { apply (amoves_intro _ _ [1; 2]); [by apply near_always| |].
    - intros i Hi. simpl in Hi. destruct i as [|[|i]]; [| |lia]; unfold v; simpl.
      + apply deriv_const.
      + eapply lim_eq; [|apply (derivable_pt_lim_plus (fct_cte 1) id);
          [apply derivable_pt_lim_const|apply derivable_pt_lim_id]]. ring.
    - intros i Hi. simpl in Hi. unfold v. rewrite decide_False by lia. done. }
  assert (H0 : y 0%R = row12).
  { unfold y, row12. by rewrite Rplus_0_r. }
  specialize (Hd y v H0 Hm).
  apply amoves_dat with (i := 1) in Hd; [|unfold asize; simpl; lia].
  rewrite mact_dense in Hd. simpl in Hd. unfold unary, y in Hd. simpl in Hd.
  assert (H2 : derivable_pt_lim (λ t, ((1 + t) * (1 + t))%R) 0%R 2%R).
  { assert (Hp : derivable_pt_lim (λ t, 1 + t)%R 0%R 1%R).
    { eapply lim_eq; [|apply (derivable_pt_lim_plus (fct_cte 1) id);
          [apply derivable_pt_lim_const|apply derivable_pt_lim_id]]. ring. }
    eapply lim_eq; [|apply (derivable_pt_lim_mult _ _ _ _ _ Hp Hp)]. simpl. ring. }
  pose proof (deriv_unique _ _ _ Hd H2). lra.
Qed.

(* ------------------------------------------------------------------ *)
(** Broadcasting: which element is taken. *)
Definition fits_in (s out : shp) : Prop :=
  ∃ lead tail, out = lead ++ tail ∧ Forall2 (λ d o, d = o ∨ d = 1) s tail.

Lemma bsh_rev_l r1 r2 r : bsh_rev r1 r2 = Some r →
  ∃ tl ld, r = tl ++ ld ∧ Forall2 (λ d o, d = o ∨ d = 1) r1 tl.
Proof.
  revert r2 r. induction r1 as [|d1 r1 IH]; intros r2 r; simpl.
  { intros [= ->]. exists [], r. done. }
  destruct r2 as [|d2 r2].
  { intros [= <-]. exists (d1 :: r1), []. rewrite app_nil_r. split; [done|]. apply Forall_Forall2_diag, list.Forall_forall. auto. }
  intros (r' & Hr & H)%bind_Some. destruct (IH _ _ Hr) as (tl & ld & -> & Hf).
  repeat case_decide; simplify_eq; eexists (_ :: tl), ld; (split; [reflexivity|constructor; auto]).
Qed.
Lemma bsh_rev_comm r1 r2 : bsh_rev r1 r2 = bsh_rev r2 r1.
Proof.
  revert r2. induction r1 as [|d1 r1 IH]; intros [|d2 r2]; simpl; try done.
  rewrite IH. destruct (bsh_rev r2 r1); simpl; [|done]. repeat case_decide; congruence.
Qed.
Lemma bshape_l s1 s2 out : bshape s1 s2 = Some out → fits_in s1 out.
Proof.
  unfold bshape. intros (r & Hr & ->)%fmap_Some. destruct (bsh_rev_l _ _ _ Hr) as (tl & ld & -> & Hf).
  exists (reverse ld), (reverse tl). rewrite reverse_app. split; [done|].
  apply Forall2_reverse in Hf. by rewrite reverse_involutive in Hf.
Qed.
Lemma bshape_comm s1 s2 : bshape s1 s2 = bshape s2 s1.
Proof. unfold bshape. by rewrite bsh_rev_comm. Qed.
Lemma bshape_r s1 s2 out : bshape s1 s2 = Some out → fits_in s2 out.
Proof. rewrite bshape_comm. apply bshape_l. Qed.
Lemma bsh_rev_same r : bsh_rev r r = Some r.
Proof. induction r as [|d r IH]; simpl; [done|]. rewrite IH. simpl. by rewrite decide_True. Qed.
Lemma bshape_same s : bshape s s = Some s.
Proof. unfold bshape. rewrite bsh_rev_same. simpl. by rewrite reverse_involutive. Qed.

Lemma clamp_inside s tl ix : Forall2 (λ d o, d = o ∨ d = 1) s tl → inside tl ix → inside s (clamp s ix).
Proof.
  intros Hf. revert ix. induction Hf as [|d o s tl Hd Hf IH]; intros ix Hin; inversion Hin; subst; simpl; [constructor|].
  constructor; [|by apply IH]. case_decide; [lia|]. destruct Hd; [by subst|done].
Qed.
Lemma bidx_lt s out i : fits_in s out → i < size out → bidx s out i < size s.
Proof.
  intros (ld & tl & -> & Hf) Hi. unfold bidx. apply ravel_lt. eapply clamp_inside; [done|].
  pose proof (Forall2_length _ _ _ Hf) as Hl. rewrite app_length.
  replace (length ld + length tl - length s) with (length ld) by lia.
  pose proof (unravel_inside _ _ Hi) as Hin. unfold inside in *.
  apply Forall2_app_inv_r in Hin as (l1 & l2 & H1 & H2 & ->).
  apply Forall2_length in H1. by rewrite <- H1, drop_app.
Qed.
Lemma clamp_same s ix : inside s ix → clamp s ix = ix.
Proof.
  unfold inside. intros H. induction H as [|k d ix s Hk H IH]; simpl; [done|]. f_equal; [|done]. case_decide; lia.
Qed.
Lemma bidx_same s i : i < size s → bidx s s i = i.
Proof.
  intros Hi. unfold bidx. rewrite Nat.sub_diag, drop_0, clamp_same by (by apply unravel_inside). by apply ravel_unravel.
Qed.
(** The model's index is the one the broadcasting rule asks for. *)
Lemma bidx_feeds s out i : fits_in s out → i < size out →
  ∃ jx, feeds s (unravel out i) jx ∧ inside s jx ∧ bidx s out i = ravel s jx ∧ unravel s (bidx s out i) = jx.
Proof.
  intros (ld & tl & -> & Hf) Hi. pose proof (Forall2_length _ _ _ Hf) as Hl.
  pose proof (unravel_inside _ _ Hi) as Hin. unfold inside in Hin.
  apply Forall2_app_inv_r in Hin as (l1 & l2 & H1 & H2 & Heq).
  pose proof (Forall2_length _ _ _ H1) as Hl1. pose proof (Forall2_length _ _ _ H2) as Hl2.
  assert (Hb : bidx s (ld ++ tl) i = ravel s (clamp s l2)).
  { unfold bidx. rewrite app_length, Heq.
    replace (length ld + length tl - length s) with (length l1) by lia. by rewrite drop_app. }
  assert (Hi2 : inside s (clamp s l2)) by (eapply clamp_inside; done).
  exists (clamp s l2). split_and!; [|done|done|].
  - exists l1, l2. split_and!; [done|lia|done].
  - rewrite Hb. by apply unravel_ravel.
Qed.

Lemma bop_sh {T U V} (f : T → U → V) a b out : bshape (sh a) (sh b) = Some out → sh (bop f a b) = out.
Proof. intros H. unfold bop. by rewrite H. Qed.
Lemma bop_dat {T U V} (f : T → U → V) a b out i : bshape (sh a) (sh b) = Some out →
  dat (bop f a b) i = f (dat a (bidx (sh a) out i)) (dat b (bidx (sh b) out i)).
Proof. intros H. unfold bop. by rewrite H. Qed.
Lemma bop_elems {T U V} (f : T → U → V) a b out : bshape (sh a) (sh b) = Some out →
  elems (bop f a b) = (λ i, f (dat a (bidx (sh a) out i)) (dat b (bidx (sh b) out i))) <$> seq 0 (size out).
Proof. intros H. unfold elems, asize, bop. by rewrite H. Qed.

(* ------------------------------------------------------------------ *)
(** Compressing columns only reorders. *)
Lemma filter_split {A} (P Q R : A → Prop) `{∀ x, Decision (P x)} `{∀ x, Decision (Q x)} `{∀ x, Decision (R x)} l :
  (∀ x, R x ↔ P x ∨ Q x) → (∀ x, P x → Q x → False) → filter P l ++ filter Q l ≡ₚ filter R l.
Proof.
  intros HR HPQ. induction l as [|x l IH]; [done|]. rewrite !filter_cons.
  specialize (HR x). specialize (HPQ x).
  destruct (decide (P x)), (decide (Q x)), (decide (R x)); try (exfalso; tauto); simpl.
  - by rewrite IH.
  - rewrite <- IH. symmetry. apply Permutation_middle.
  - done.
Qed.
Lemma csc_perm {A} nc (l : list (nat * nat * A)) : Forall (λ e, e.1.2 < nc) l → csc nc l ≡ₚ l.
Proof.
  unfold csc. intros Hl.
  assert (H : ∀ k s, (j ← seq s k; filter (λ e, e.1.2 = j) l) ≡ₚ filter (λ e, s ≤ e.1.2 ∧ e.1.2 < s + k) l).
  { induction k as [|k IH]; intros s; simpl.
    - clear. induction l as [|e l IHl]; [done|]. rewrite filter_cons_False by lia. done.
    - rewrite IH. apply filter_split; intros; lia. }
  rewrite H. clear H. induction Hl as [|e l He Hl IH]; [done|].
  rewrite filter_cons_True by lia. by rewrite IH.
Qed.
Lemma mact_perm r c r' c' t1 t2 v i : t1 ≡ₚ t2 → mact (Spm r c t1) v i = mact (Spm r' c' t2) v i.
Proof. intros H. rewrite !mact_alt. simpl. apply rsum_perm. by rewrite H. Qed.

Lemma csc_diag {A} n (x : A) : csc n (zip (zip (seq 0 n) (seq 0 n)) (replicate n x)) = zip (zip (seq 0 n) (seq 0 n)) (replicate n x).
Proof.
  assert (Hf : zip (zip (seq 0 n) (seq 0 n)) (replicate n x) = (λ i, (i, i, x)) <$> seq 0 n).
  { generalize 0. induction n as [|n IH]; intros s; simpl; [done|]. by rewrite IH. }
  rewrite Hf. unfold csc.
  assert (H : ∀ j, j < n → filter (λ e : nat * nat * A, e.1.2 = j) ((λ i, (i, i, x)) <$> seq 0 n) = [(j, j, x)]).
  { intros j Hj. replace n with (j + (1 + (n - S j))) by lia. rewrite seq_app, fmap_app, filter_app. simpl.
    assert (Hnil : ∀ l : list nat, (∀ k, k ∈ l → k ≠ j) → filter (λ e : nat * nat * A, e.1.2 = j) ((λ i, (i, i, x)) <$> l) = []).
    { intros l Hl. induction l as [|k l IH]; [done|]. rewrite fmap_cons, filter_cons_False.
      - apply IH. intros k' Hk'. apply Hl. by apply elem_of_list_further.
      - simpl. apply Hl. apply elem_of_list_here. }
    rewrite Hnil by (intros k Hk%elem_of_seq; lia). simpl.
    rewrite filter_cons_True by done. rewrite Hnil by (intros k Hk%elem_of_seq; lia). done. }
  clear Hf. revert H.
  assert (Hg : ∀ L k, (∀ j, j < n → filter (λ e : nat * nat * A, e.1.2 = j) L = [(j, j, x)]) →
    Forall (λ j, j < n) k → (j ← k; filter (λ e, e.1.2 = j) L) = (λ i, (i, i, x)) <$> k).
  { intros L k H Hn. induction Hn as [|j l Hj Hl IH]; [done|]. rewrite bind_cons, fmap_cons, H, IH by done. done. }
  intros H. apply Hg; [done|]. apply list.Forall_forall. intros j Hj%elem_of_seq. lia.
Qed.

(* ------------------------------------------------------------------ *)
(** What the templates are good for. *)
Definition tmpl_ok (st : templates) : Prop :=
  (∀ s t, t_same st !! s = Some t → t = build_same s) ∧ (∀ u t, t_diff st !! u = Some t → t = build_diff u).
Lemma no_templates_ok : tmpl_ok no_templates.
Proof. split; intros ? ?; simpl; by rewrite lookup_empty. Qed.

Lemma broadcast_matrix_st sa sb wa wb d st : tmpl_ok st →
  tmpl_ok (broadcast_matrix sa sb wa wb d st).1 ∧
  (broadcast_matrix sa sb wa wb d st).2 = (broadcast_matrix sa sb wa wb d no_templates).2.
Proof.
  intros [H1 H2]. unfold broadcast_matrix. case_decide; cbv zeta.
  - assert (Ht : default (build_same sa) (t_same st !! sa) = build_same sa).
    { destruct (t_same st !! sa) eqn:E; [|done]. simpl. by apply H1. }
    rewrite Ht. split; [|done]. split; [|done]. cbn [fst t_same]. intros s t.
    rewrite lookup_insert_Some. intros [[<- <-]|[_ Hs]]; [done|auto].
  - set (u := (sa, sb, wa, wb)).
    assert (Ht : default (build_diff u) (t_diff st !! u) = build_diff u).
    { destruct (t_diff st !! u) eqn:E; [|done]. exact (H2 _ _ E). }
    rewrite Ht. split; [|done]. split; [done|]. cbn [fst t_diff]. intros u' t.
    rewrite lookup_insert_Some. intros [[<- <-]|[_ Hs]]; [done|auto].
Qed.
Lemma binary_jac_st f wa wb a b st : tmpl_ok st →
  tmpl_ok (binary_jac f wa wb a b st).1 ∧ (binary_jac f wa wb a b st).2 = (binary_jac f wa wb a b no_templates).2.
Proof.
  intros Hst. unfold binary_jac.
  destruct f; try (by destruct (negb wa && negb wb), (eqb wa wb));
    try (match goal with |- context [if ?c then (st, None) else _] => destruct c end; [done|]); cbn zeta.
  - destruct (broadcast_matrix_st (sh a) (sh b) wa wb (DScal (if wa && wb then 2%R else 1%R)) st Hst) as [H1 H2].
    destruct (broadcast_matrix _ _ _ _ _ st), (broadcast_matrix _ _ _ _ _ no_templates). simpl in *. split; [done|by f_equal].
  - destruct (broadcast_matrix_st (sh a) (sh b) wa wb (DScal (if wa then 1%R else (-1)%R)) st Hst) as [H1 H2].
    destruct (broadcast_matrix _ _ _ _ _ st), (broadcast_matrix _ _ _ _ _ no_templates). simpl in *. split; [done|by f_equal].
  - match goal with |- context [DArr ?x] => generalize (DArr x); intros d end.
    destruct (broadcast_matrix_st (sh a) (sh b) wa wb d st Hst) as [H1 H2].
    destruct (broadcast_matrix _ _ _ _ _ st), (broadcast_matrix _ _ _ _ _ no_templates). simpl in *. split; [done|by f_equal].
  - destruct (broadcast_setup _ _ _ _). done.
  - match goal with |- context [DArr ?x] => generalize (DArr x); intros d end.
    destruct (broadcast_matrix_st (sh a) (sh b) wa wb d st Hst) as [H1 H2].
    destruct (broadcast_matrix _ _ _ _ _ st), (broadcast_matrix _ _ _ _ _ no_templates). simpl in *. split; [done|by f_equal].
Qed.
Lemma after_calls_ok l : tmpl_ok (after_calls l).
Proof.
  unfold after_calls. assert (H : ∀ st, tmpl_ok st → tmpl_ok (foldl (λ st (c : jac_call), let '(f, wa, wb, a, b) := c in (binary_jac f wa wb a b st).1) st l)).
  { induction l as [|[[[[f wa] wb] a] b] l IH]; intros st Hst; simpl; [done|]. apply IH. by apply binary_jac_st. }
  apply H, no_templates_ok.
Qed.
(** The matrix does not depend on what was asked before. *)
Lemma binary_jac_history f wa wb a b l :
  (binary_jac f wa wb a b (after_calls l)).2 = (binary_jac f wa wb a b no_templates).2.
Proof. apply binary_jac_st, after_calls_ok. Qed.

(* ------------------------------------------------------------------ *)
(** The matrices row by row. *)
Definition dval (d : bdata) (i : nat) : R := match d with DArr l => nth i l 0%R | DScal x => x end.
Definition dlen (d : bdata) (n : nat) : Prop := match d with DArr l => length l = n | DScal _ => True end.

Lemma list_fmap_ext_ne {A B} (f g : A → B) (l : list A) : (∀ x, x ∈ l → f x = g x) → f <$> l = g <$> l.
Proof.
  induction l as [|x l IH]; intros H; [done|]. rewrite !fmap_cons, (H x) by apply elem_of_list_here. f_equal.
  apply IH. intros y Hy. apply H. by apply elem_of_list_further.
Qed.
Lemma zip_seq_fmap {A} (l : list A) (d : A) s : zip (seq s (length l)) l = (λ i, (i, nth (i - s) l d)) <$> seq s (length l).
Proof.
  revert s. induction l as [|x l IH]; intros s; [done|]. cbn [length seq]. simpl. rewrite Nat.sub_diag. f_equal.
  rewrite IH. apply list_fmap_ext_ne. intros i Hi%elem_of_seq. replace (i - s) with (S (i - S s)) by lia. done.
Qed.
Lemma mact_fun n c (col : nat → nat) (val : nat → R) v i :
  mact (Spm n c ((λ i, (i, col i, val i)) <$> seq 0 n)) v i = if decide (i < n) then (val i * v (col i))%R else 0%R.
Proof.
  rewrite mact_alt. simpl. rewrite <- list_fmap_compose. unfold compose. simpl.
  destruct (decide (i < n)) as [Hi|Hi].
  - rewrite (rsum_single _ _ i); [by rewrite decide_True|apply NoDup_seq_|apply elem_of_seq; lia|].
    intros k _ Hk. by rewrite decide_False.
  - apply rsum_zero. intros k Hk%elem_of_seq. rewrite decide_False by lia. done.
Qed.

Lemma bcols_lookup sa sb wa wb out : bshape sa sb = Some out → wa ≠ wb →
  bcols sa sb wa wb = (λ i, bidx (if wa then sa else sb) out i) <$> seq 0 (size out).
Proof.
  intros Hb Hw. unfold bcols. destruct wa, wb; try done; simpl.
  - rewrite (bop_elems _ _ _ out) by done. simpl. apply list_fmap_ext_ne. intros i _. lia.
  - rewrite (bop_elems _ _ _ out) by done. simpl. done.
Qed.

Definition wcol (sa sb : shp) (wa : bool) (out : shp) (i : nat) : nat := bidx (if wa then sa else sb) out i.

Lemma zip_fmap_same {A B C} (f : A → B) (g : A → C) l : zip (f <$> l) (g <$> l) = (λ x, (f x, g x)) <$> l.
Proof. induction l as [|x l IH]; [done|]. rewrite !fmap_cons, <- IH. done. Qed.

Lemma broadcast_matrix_rows sa sb wa wb d out : bshape sa sb = Some out → (sa ≠ sb → wa ≠ wb) → dlen d (size out) →
  ∃ J, (broadcast_matrix sa sb wa wb d no_templates).2 = J ∧
    fits J (size out) (size (if wa then sa else sb)) ∧
    (trip J ≡ₚ (λ i, (i, wcol sa sb wa out i, dval d i)) <$> seq 0 (size out)).
Proof.
  intros Hb Hw Hd. eexists. split; [reflexivity|].
  assert (Hin : ∀ t r, t ≡ₚ (λ i, (i, wcol sa sb wa out i, dval d i)) <$> seq 0 (size out) → 
    r = size (if wa then sa else sb) → in_range (Spm (size out) r t)).
  { intros t r Ht ->. unfold in_range. simpl. rewrite Ht. apply list.Forall_forall. intros [[i c] x] (k & [= -> -> ->] & Hk%elem_of_seq)%elem_of_list_fmap.
    simpl. split; [lia|]. unfold wcol. apply bidx_lt; [|lia]. destruct wa; [by eapply bshape_l|by eapply bshape_r]. }
  unfold broadcast_matrix. case_decide as Heq; cbv zeta; cbn [snd t_same t_diff no_templates]; rewrite lookup_empty; cbn [default from_option].
  - subst sb. rewrite bshape_same in Hb. injection Hb as <-.
    assert (Ht : fill (build_same sa) d = (λ i, (i, wcol sa sa wa sa i, dval d i)) <$> seq 0 (size sa)).
    { unfold build_same. rewrite csc_diag.
      assert (Hz : zip (zip (seq 0 (size sa)) (seq 0 (size sa))) (replicate (size sa) ()) = (λ i, (i, i, ())) <$> seq 0 (size sa)).
      { generalize 0. generalize (size sa). clear. induction n as [|n IH]; intros s; simpl; [done|]. by rewrite IH. }
      rewrite Hz. clear Hz. destruct d as [l|x]; simpl.
      - rewrite <- list_fmap_compose. unfold compose. simpl. simpl in Hd.
        assert (Hl : l = (λ i, nth i l 0%R) <$> seq 0 (size sa)).
        { rewrite <- Hd. apply list_eq. intros i. rewrite list_lookup_fmap.
          destruct (decide (i < length l)) as [Hi|Hi].
          - rewrite lookup_seq_lt by done. simpl. destruct (lookup_lt_is_Some_2 l i Hi) as [x Hx].
            rewrite Hx. f_equal. symmetry. by apply nth_lookup_Some.
          - rewrite lookup_seq_ge by lia. simpl. apply lookup_ge_None. lia. }
        rewrite Hl at 1. rewrite zip_fmap_same. apply list_fmap_ext_ne. intros i Hi%elem_of_seq.
        unfold wcol. destruct wa; rewrite bidx_same by lia; done.
      - rewrite <- list_fmap_compose. apply list_fmap_ext_ne. intros i Hi%elem_of_seq. unfold compose. simpl.
        unfold wcol. destruct wa; rewrite bidx_same by lia; done. }
    rewrite Ht. split.
    + split_and!; [done|by destruct wa|]. simpl. apply Hin; [done|by destruct wa].
    + done.
  - specialize (Hw Heq).
    assert (Ht : pick (build_diff (sa, sb, wa, wb)) d ≡ₚ (λ i, (i, wcol sa sb wa out i, dval d i)) <$> seq 0 (size out)).
    { unfold build_diff. rewrite Hb. cbn [default from_option Datatypes.id]. rewrite (bcols_lookup _ _ _ _ out) by done.
      assert (Hz : zip (zip (seq 0 (size out)) ((λ i, bidx (if wa then sa else sb) out i) <$> seq 0 (size out))) (seq 0 (size out))
        = (λ i, (i, wcol sa sb wa out i, i)) <$> seq 0 (size out)).
      { transitivity (zip (zip ((λ i, i) <$> seq 0 (size out)) ((λ i, bidx (if wa then sa else sb) out i) <$> seq 0 (size out))) ((λ i, i) <$> seq 0 (size out))).
        - by rewrite list_fmap_id.
        - by rewrite !zip_fmap_same. }
      rewrite Hz. clear Hz.
      rewrite <- (csc_perm (if wa then size sa else size sb) ((λ i, (i, wcol sa sb wa out i, dval d i)) <$> _)).
      2:{ apply list.Forall_forall. intros [[i c] x] (k & [= -> -> ->] & Hk%elem_of_seq)%elem_of_list_fmap. simpl.
          unfold wcol. destruct wa; apply bidx_lt; [by eapply bshape_l|lia|by eapply bshape_r|lia]. }
      assert (Hc : ∀ nc l, pick (csc nc ((λ i, (i, wcol sa sb wa out i, i)) <$> l)) d = csc nc ((λ i, (i, wcol sa sb wa out i, dval d i)) <$> l)).
      { intros nc l. assert (Hp : ∀ t, pick t d = (λ e, (e.1, dval d e.2)) <$> t) by (by destruct d).
        rewrite Hp. unfold csc. clear.
        induction (seq 0 nc) as [|j k IH]; [done|]. rewrite !bind_cons, fmap_app, IH. f_equal.
        clear IH. induction l as [|i l IH]; [done|]. rewrite !fmap_cons. 
        destruct (decide (wcol sa sb wa out i = j)) as [Hj|Hj].
        - rewrite (filter_cons_True (λ e, e.1.2 = j) (i, wcol sa sb wa out i, i)) by done.
          rewrite (filter_cons_True (λ e, e.1.2 = j) (i, wcol sa sb wa out i, dval d i)) by done.
          rewrite fmap_cons, IH. done.
        - rewrite (filter_cons_False (λ e, e.1.2 = j) (i, wcol sa sb wa out i, i)) by done.
          rewrite (filter_cons_False (λ e, e.1.2 = j) (i, wcol sa sb wa out i, dval d i)) by done. done. }
      by rewrite Hc. }
    assert (Hr : size (default [] (bshape sa sb)) = size out) by (by rewrite Hb). rewrite Hr.
    split; [|exact Ht]. split_and!; [done|by destruct wa|]. apply Hin; [done|by destruct wa].
Qed.

(* ------------------------------------------------------------------ *)
(** Derivatives of the binary functions. *)
Definition b_d (f : bfun) (first : bool) (x y : R) : R :=
  match f with
  | Badd => 1
  | Bsubtract => if first then 1 else -1
  | Bmultiply => if first then 1 * y else x * 1
  | Bdivide => if first then 1 / y else - x / (y * y)
  | Bpower => if first then y * npower x (y - 1) else ln x * npower x y
  end%R.

Lemma deriv_cont_pos f l : (0 < f 0%R)%R → derivable_pt_lim f 0%R l → near (λ t, (0 < f t)%R).
Proof.
  intros Hp Hd. assert (Hc : continuity_pt f 0%R) by (apply derivable_continuous_pt; by exists l).
  destruct (Hc (f 0%R) Hp) as (d & Hd0 & H). exists d. split; [done|]. intros t Ht.
  destruct (Req_dec t 0) as [->|Hne]; [done|].
  assert (Hx : (Rabs (f t - f 0) < f 0)%R).
  { apply (H t). split; [split; [done|auto]|]. simpl. unfold R_dist. by rewrite Rminus_0_r. }
  apply Rabs_def2 in Hx. lra.
Qed.

Lemma b_deriv f x y x' y' : b_dom f (x 0%R) (y 0%R) → derivable_pt_lim x 0%R x' → derivable_pt_lim y 0%R y' →
  derivable_pt_lim (λ t, b_f f (x t) (y t)) 0%R (b_d f true (x 0%R) (y 0%R) * x' + b_d f false (x 0%R) (y 0%R) * y')%R.
Proof.
  intros Hdom Hx Hy. destruct f; simpl in *.
  - eapply lim_eq; [|by apply (derivable_pt_lim_plus x y)]. ring.
  - eapply lim_eq; [|by apply (derivable_pt_lim_minus x y)]. ring.
  - eapply lim_eq; [|by apply (derivable_pt_lim_mult x y)]. ring.
  - eapply lim_eq; [|by apply (derivable_pt_lim_div x y)]. unfold Rsqr. field. done.
  - apply (deriv_near (λ t, exp (y t * ln (x t))%R)).
    { eapply near_mono; [|exact (deriv_cont_pos x x' Hdom Hx)]. intros t Ht. unfold npower.
      destruct (Rlt_dec 0 (x t)); [done|lra]. }
    unfold npower. destruct (Rlt_dec 0 (x 0%R)); [|lra].
    assert (Hl : derivable_pt_lim (λ t, ln (x t)) 0%R (/ x 0 * x')%R).
    { apply (derivable_pt_lim_comp x ln); [done|]. by apply derivable_pt_lim_ln. }
    pose proof (derivable_pt_lim_mult y (λ t, ln (x t)) 0%R _ _ Hy Hl) as Hm.
    eapply lim_eq; [|exact (derivable_pt_lim_comp _ exp _ _ _ Hm (derivable_pt_lim_exp _))].
    unfold mult_fct. replace (y 0 - 1)%R with (y 0 + - (1))%R by ring. rewrite Rpower_plus, Rpower_Ropp, Rpower_1 by done.
    unfold Rpower. field. lra.
Qed.

Lemma npower_nat x n : npower x (INR n) = (x ^ n)%R.
Proof.
  unfold npower. destruct (Rlt_dec 0 x) as [Hx|Hx]; [by apply Rpower_pow|].
  assert (Hi : Int_part (INR n) = Z.of_nat n).
  { apply Int_part_INR. }
  rewrite Hi, <- INR_IZR_INZ. destruct (Req_EM_T (INR n) (INR n)) as [_|]; [|done].
  assert (0 <= INR n)%R by apply pos_INR. rewrite <- pow_powerRZ.
  destruct (Req_EM_T x 0); [|done]. destruct (Rlt_dec (INR n) 0); [lra|done].
Qed.
Lemma npower_deriv_nat n x : derivable_pt_lim (λ x, npower x (INR n)) x (INR n * npower x (INR n - 1))%R.
Proof.
  apply (lim_ext (λ x, x ^ n)%R); [intros t; by rewrite npower_nat|].
  eapply lim_eq; [|apply derivable_pt_lim_pow]. destruct n as [|n]; [simpl; ring|].
  replace (INR (S n) - 1)%R with (INR n); [by rewrite npower_nat|]. rewrite S_INR. ring.
Qed.

(* ------------------------------------------------------------------ *)
(** The Jacobians row by row. *)
Definition rows_are (J : spm) (n c : nat) (col : nat → nat) (val : nat → R) : Prop :=
  fits J n c ∧ trip J ≡ₚ (λ i, (i, col i, val i)) <$> seq 0 n.
Lemma rows_mact J n c col val v i : rows_are J n c col val →
  mact J v i = if decide (i < n) then (val i * v (col i))%R else 0%R.
Proof.
  intros [(Hr & Hc & _) Ht]. destruct J as [r c' t]. simpl in *.
  rewrite (mact_perm r c' n c _ _ v i Ht). apply mact_fun.
Qed.
Lemma rows_ext J n c col val val' : (∀ i, i < n → val i = val' i) → rows_are J n c col val → rows_are J n c col val'.
Proof.
  intros H [Hf Ht]. split; [done|]. rewrite Ht. apply Permutation_refl'. apply list_fmap_ext_ne.
  intros i Hi%elem_of_seq. by rewrite H by lia.
Qed.

Definition v1 (a b : arr R) (out : shp) (i : nat) : R := dat a (bidx (sh a) out i).
Definition v2 (a b : arr R) (out : shp) (i : nat) : R := dat b (bidx (sh b) out i).

Lemma dval_elems g (a b a' b' : arr R) out i : bshape (sh a) (sh b) = Some out → i < size out → sh a' = sh a → sh b' = sh b →
  dval (DArr (elems (bop g a' b'))) i = g (v1 a' b' out i) (v2 a' b' out i).
Proof.
  intros Hb Hi Ha Hb'. simpl. rewrite (bop_elems _ _ _ out) by (by rewrite Ha, Hb'). apply nth_lookup_Some.
  rewrite list_lookup_fmap, lookup_seq_lt by done. done.
Qed.
Lemma len_elems g (a b : arr R) out : bshape (sh a) (sh b) = Some out → length (elems (bop g a b : arr R)) = size out.
Proof. intros H. rewrite elems_length. unfold asize. by rewrite (bop_sh _ _ _ out). Qed.

Lemma bm_rows sa sb wa wb d out : bshape sa sb = Some out → (sa ≠ sb → wa ≠ wb) → dlen d (size out) →
  rows_are (broadcast_matrix sa sb wa wb d no_templates).2 (size out) (size (if wa then sa else sb)) (wcol sa sb wa out) (dval d).
Proof.
  intros Hb Hw Hd. destruct (broadcast_matrix_rows sa sb wa wb d out Hb Hw Hd) as (J & -> & H). exact H.
Qed.

Lemma jac_rows f wa a b out : bshape (sh a) (sh b) = Some out →
  ∃ J, (binary_jac f wa (negb wa) a b no_templates).2 = Some J ∧
    rows_are J (size out) (size (if wa then sh a else sh b)) (wcol (sh a) (sh b) wa out)
      (λ i, b_d f wa (v1 a b out i) (v2 a b out i)).
Proof.
  intros Hb. assert (Hw : sh a ≠ sh b → wa ≠ negb wa) by (by destruct wa).
  destruct f; unfold binary_jac.
  - replace (negb wa && negb (negb wa)) with false by (by destruct wa). cbv zeta. 
    pose proof (bm_rows (sh a) (sh b) wa (negb wa) (DScal (if wa && negb wa then 2%R else 1%R)) out Hb Hw I) as H.
    destruct (broadcast_matrix _ _ _ _ _ _) as [st J]. exists J. split; [done|].
    eapply rows_ext; [|exact H]. intros i _. simpl. by destruct wa.
  - replace (eqb wa (negb wa)) with false by (by destruct wa). cbv zeta.
    pose proof (bm_rows (sh a) (sh b) wa (negb wa) (DScal (if wa then 1%R else (-1)%R)) out Hb Hw I) as H.
    destruct (broadcast_matrix _ _ _ _ _ _) as [st J]. exists J. split; [done|].
    eapply rows_ext; [|exact H]. intros i _. done.
  - replace (negb wa && negb (negb wa)) with false by (by destruct wa). cbv zeta.
    match goal with |- context [DArr ?x] => set (D := x) end.
    assert (HD : D = elems (bop Rmult (if wa then ones (sh a) else a) (if wa then b else ones (sh b)))) by (by destruct wa).
    pose proof (bm_rows (sh a) (sh b) wa (negb wa) (DArr D) out Hb Hw) as H.
    destruct (broadcast_matrix _ _ _ _ _ _) as [st J]. exists J. split; [done|].
    eapply rows_ext; [|apply H].
    + intros i Hi. rewrite HD. rewrite (dval_elems _ a b _ _ out) by (done || by destruct wa). by destruct wa.
    + simpl. rewrite HD. apply len_elems. by destruct wa.
  - replace (eqb wa (negb wa)) with false by (by destruct wa). 
    destruct (broadcast_setup (sh a) (sh b) wa (negb wa)) as [IS JS] eqn:Es. cbv zeta. cbn [snd].
    eexists. split; [reflexivity|]. rewrite Hb. cbn [default from_option Datatypes.id].
    assert (HS : IS = seq 0 (size out) ∧ JS = (λ i, wcol (sh a) (sh b) wa out i) <$> seq 0 (size out)).
    { revert Es. unfold broadcast_setup. rewrite Hb. cbn [default from_option Datatypes.id]. case_decide as Hs; intros [= <- <-].
      - rewrite Hs in *. rewrite bshape_same in Hb. injection Hb as <-. split; [done|].
        rewrite <- (list_fmap_id (seq 0 (size (sh b)))) at 1. apply list_fmap_ext_ne. intros i Hi%elem_of_seq.
        unfold wcol. destruct wa; rewrite bidx_same by lia; done.
      - split; [done|]. by apply bcols_lookup; [|destruct wa]. }
    destruct HS as [-> ->].
    match goal with |- rows_are (coo _ _ ?x _ _) _ _ _ _ => set (D := x) end.
    assert (HD : D = (λ i, b_d Bdivide wa (v1 a b out i) (v2 a b out i)) <$> seq 0 (size out)).
    { unfold D. destruct wa; rewrite (bop_elems _ _ _ out) by done; done. }
    rewrite HD. unfold coo.
    assert (Hz : ∀ (g : nat → nat) (h : nat → R) l, zip (zip l (g <$> l)) (h <$> l) = (λ i, (i, g i, h i)) <$> l).
    { intros g h l. rewrite <- (list_fmap_id l) at 1. by rewrite !zip_fmap_same. }
    rewrite Hz. split; [|done]. split_and!; [done|by destruct wa|]. apply list.Forall_forall. simpl.
    intros [[i c] x] (k & [= -> -> ->] & Hk%elem_of_seq)%elem_of_list_fmap. simpl.
    split; [lia|]. unfold wcol. destruct wa; apply bidx_lt; [by eapply bshape_l|lia|by eapply bshape_r|lia].
  - replace (negb wa && negb (negb wa)) with false by (by destruct wa). cbv zeta.
    match goal with |- context [DArr ?x] => set (D := x) end.
    assert (HD : D = elems (bop (b_d Bpower wa) a b)) by (by destruct wa).
    pose proof (bm_rows (sh a) (sh b) wa (negb wa) (DArr D) out Hb Hw) as H.
    destruct (broadcast_matrix _ _ _ _ _ _) as [st J]. exists J. split; [done|].
    eapply rows_ext; [|apply H].
    + intros i Hi. rewrite HD. by rewrite (dval_elems _ a b _ _ out).
    + simpl. rewrite HD. by apply len_elems.
Qed.

(** The same object twice. *)
Definition b_dd (f : bfun) (x : R) : R := (b_d f true x x + b_d f false x x)%R.
Lemma jac_rows_same f a :
  match (binary_jac f true true a a no_templates).2 with
  | Some J => rows_are J (asize a) (asize a) (λ i, i) (λ i, b_dd f (dat a i))
  | None => ∀ x, b_dom f x x → b_dd f x = 0%R
  end.
Proof.
  assert (Hb : bshape (sh a) (sh a) = Some (sh a)) by apply bshape_same.
  assert (Hrows : ∀ d val, dlen d (asize a) → (∀ i, i < asize a → dval d i = val i) →
    rows_are (broadcast_matrix (sh a) (sh a) true true d no_templates).2 (asize a) (asize a) (λ i, i) val).
  { intros d val Hd Hv. pose proof (bm_rows (sh a) (sh a) true true d (sh a) Hb ltac:(done) Hd) as [Hf Ht].
    split; [done|]. rewrite Ht. apply Permutation_refl'. apply list_fmap_ext_ne. intros i Hi%elem_of_seq.
    assert (Hi' : i < size (sh a)) by (unfold asize in *; lia). rewrite Hv by exact Hi'. unfold wcol. rewrite bidx_same by exact Hi'. done. }
  destruct f; unfold binary_jac; simpl; try (intros x Hx; unfold b_dd; simpl).
  - specialize (Hrows (DScal 2%R) (λ i, b_dd Badd (dat a i)) I).
    destruct (broadcast_matrix _ _ _ _ _ _) as [st J]. simpl in *. apply Hrows. intros i _. unfold b_dd. simpl. ring.
  - ring.
  - match goal with |- context [DArr ?x] => set (D := x) end.
    assert (HD : D = (λ i, b_dd Bmultiply (dat a i)) <$> seq 0 (asize a)).
    { unfold D. rewrite (bop_elems _ _ _ (sh a)) by done. rewrite <- list_fmap_compose. apply list_fmap_ext_ne.
      intros i Hi%elem_of_seq. unfold compose, b_dd. simpl. rewrite bidx_same by (unfold asize in *; lia). ring. }
    specialize (Hrows (DArr D) (λ i, b_dd Bmultiply (dat a i))).
    destruct (broadcast_matrix _ _ _ _ _ _) as [st J]. simpl in *. apply Hrows.
    + rewrite HD, fmap_length. apply seq_length.
    + intros i Hi. rewrite HD. apply nth_lookup_Some. rewrite list_lookup_fmap, lookup_seq_lt by done. done.
  - simpl in Hx. field. done.
  - match goal with |- context [DArr ?x] => set (D := x) end.
    assert (HD : D = (λ i, b_dd Bpower (dat a i)) <$> seq 0 (asize a)).
    { unfold D. rewrite !(bop_elems _ _ _ (sh a)) by done. unfold asize.
      assert (Hz : ∀ (g h : nat → R) l, zip_with Rplus (g <$> l) (h <$> l) = (λ i, g i + h i)%R <$> l).
      { intros g h l. induction l as [|i l IH]; [done|]. rewrite !fmap_cons. simpl. f_equal. done. }
      rewrite Hz. apply list_fmap_ext_ne. intros i Hi%elem_of_seq. rewrite bidx_same by lia. done. }
    specialize (Hrows (DArr D) (λ i, b_dd Bpower (dat a i))).
    destruct (broadcast_matrix _ _ _ _ _ _) as [st J]. simpl in *. apply Hrows.
    + rewrite HD, fmap_length. apply seq_length.
    + intros i Hi. rewrite HD. apply nth_lookup_Some. rewrite list_lookup_fmap, lookup_seq_lt by done. done.
Qed.

(* ------------------------------------------------------------------ *)
(** The main facts. *)
Lemma binary_at f a b out ix : bshape (sh a) (sh b) = Some out → inside out ix →
  ∃ jx kx, feeds (sh a) ix jx ∧ feeds (sh b) ix kx ∧ inside (sh a) jx ∧ inside (sh b) kx ∧
    at_ (binary f a b) ix = b_f f (at_ a jx) (at_ b kx).
Proof.
  intros Hb Hin. pose proof (ravel_lt _ _ Hin) as Hlt.
  destruct (bidx_feeds (sh a) out (ravel out ix)) as (jx & Hj & Hji & Hje & _); [by eapply bshape_l|done|].
  destruct (bidx_feeds (sh b) out (ravel out ix)) as (kx & Hk & Hki & Hke & _); [by eapply bshape_r|done|].
  rewrite unravel_ravel in Hj, Hk by done. exists jx, kx. split_and!; try done.
  unfold at_, binary. rewrite (bop_dat _ _ _ out), (bop_sh _ _ _ out) by done. by rewrite Hje, Hke.
Qed.

Lemma curve_shape2 y z v w : amoves y v → amoves z w →
  near (λ t, bshape (sh (y t)) (sh (z t)) = bshape (sh (y 0%R)) (sh (z 0%R)) ∧ sh (y t) = sh (y 0%R) ∧ sh (z t) = sh (z 0%R)).
Proof.
  intros Hy Hz. eapply near_mono; [|apply near_and; [exact (amoves_shape _ _ Hy)|exact (amoves_shape _ _ Hz)]].
  intros t [H1 H2]. by rewrite H1, H2.
Qed.

Lemma binary_curve f y z v w out :
  bshape (sh (y 0%R)) (sh (z 0%R)) = Some out →
  amoves y v → amoves z w →
  (∀ i, i < size out → b_dom f (v1 (y 0%R) (z 0%R) out i) (v2 (y 0%R) (z 0%R) out i)) →
  amoves (λ t, binary f (y t) (z t)) (λ i, if decide (i < size out) then
    (b_d f true (v1 (y 0%R) (z 0%R) out i) (v2 (y 0%R) (z 0%R) out i) * v (bidx (sh (y 0%R)) out i) +
     b_d f false (v1 (y 0%R) (z 0%R) out i) (v2 (y 0%R) (z 0%R) out i) * w (bidx (sh (z 0%R)) out i))%R else 0%R).
Proof.
  intros Hb Hy Hz Hdom. pose proof (curve_shape2 y z v w Hy Hz) as Hs.
  apply (amoves_intro _ _ out).
  - eapply near_mono; [|exact Hs]. intros t (H1 & _). unfold binary. apply bop_sh. by rewrite H1.
  - intros i Hi. rewrite decide_True by done.
    apply (deriv_near (λ t, b_f f (dat (y t) (bidx (sh (y 0%R)) out i)) (dat (z t) (bidx (sh (z 0%R)) out i)))).
    + eapply near_mono; [|exact Hs]. intros t (H1 & H2 & H3). unfold binary.
      rewrite (bop_dat _ _ _ out) by (by rewrite H1). by rewrite H2, H3.
    + apply (b_deriv f (λ t, dat (y t) (bidx (sh (y 0%R)) out i)) (λ t, dat (z t) (bidx (sh (z 0%R)) out i))).
      * by apply Hdom.
      * apply amoves_dat; [done|]. apply bidx_lt; [by eapply bshape_l|done].
      * apply amoves_dat; [done|]. apply bidx_lt; [by eapply bshape_r|done].
  - intros i Hi. by rewrite decide_False by lia.
Qed.

Lemma meet_b_dom f a b out i : bshape (sh a) (sh b) = Some out → meet b_dom f a b → i < size out →
  b_dom f (v1 a b out i) (v2 a b out i).
Proof.
  intros Hb Hm Hi.
  destruct (bidx_feeds (sh a) out i) as (jx & Hj & Hji & Hje & _); [by eapply bshape_l|done|].
  destruct (bidx_feeds (sh b) out i) as (kx & Hk & Hki & Hke & _); [by eapply bshape_r|done|].
  pose proof (Hm out _ jx kx Hb (unravel_inside _ _ Hi) Hj Hk) as H. unfold at_ in H.
  unfold v1, v2. by rewrite Hje, Hke.
Qed.

Lemma binary_right f a b out l1 l2 : bshape (sh a) (sh b) = Some out → meet b_dom f a b →
  ∃ Ja Jb, (binary_jac f true false a b (after_calls l1)).2 = Some Ja ∧
    (binary_jac f false true a b (after_calls l2)).2 = Some Jb ∧
    fits Ja (size out) (asize a) ∧ fits Jb (size out) (asize b) ∧ diff2 (binary f) Ja Jb a b.
Proof.
  intros Hb Hm. destruct (jac_rows f true a b out Hb) as (Ja & HJa & Hra). destruct (jac_rows f false a b out Hb) as (Jb & HJb & Hrb).
  exists Ja, Jb. rewrite !binary_jac_history. split_and!; [done|done|apply Hra|apply Hrb|].
  intros y v z w <- <- Hy Hz. eapply amoves_ext; [|apply (binary_curve f y z v w out); [done..|]].
  - intros i. cbv beta. rewrite (rows_mact Ja _ _ _ _ _ _ Hra), (rows_mact Jb _ _ _ _ _ _ Hrb). unfold wcol.
    destruct (decide (i < size out)); [done|ring].
  - intros i Hi. by apply meet_b_dom.
Qed.

Lemma binary_same_right f a l : (∀ i, i < asize a → b_dom f (dat a i) (dat a i)) →
  fits (none_zero (binary_jac f true true a a (after_calls l)).2 (asize a)) (asize a) (asize a) ∧
  diff1 (λ x, binary f x x) (none_zero (binary_jac f true true a a (after_calls l)).2 (asize a)) a.
Proof.
  intros Hdom. rewrite binary_jac_history. pose proof (jac_rows_same f a) as H.
  assert (Hmain : ∀ J, (∀ v i, mact J v i = if decide (i < asize a) then (b_dd f (dat a i) * v i)%R else 0%R) →
    diff1 (λ x, binary f x x) J a).
  { intros J HJ y v <- Hy. eapply amoves_ext; [|apply (binary_curve f y y v v (sh (y 0%R))); [apply bshape_same|done..|]].
    - intros i. cbv beta. rewrite HJ. unfold asize. destruct (decide (i < size (sh (y 0%R)))) as [Hi|]; [|done].
      unfold v1, v2, b_dd. rewrite bidx_same by done. ring.
    - intros i Hi. unfold v1, v2. rewrite bidx_same by done. by apply Hdom. }
  destruct (binary_jac f true true a a no_templates).2 as [J|]; cbn [none_zero default from_option].
  - split; [apply H|]. apply Hmain. intros v i. by rewrite (rows_mact J _ _ _ _ _ _ H).
  - split; [by split_and!; [..|constructor]|]. apply Hmain. intros v i. 
    rewrite mact_alt. simpl. destruct (decide (i < asize a)) as [Hi|]; [|done]. rewrite H by auto. unfold rsum. simpl. ring.
Qed.

(** x ** n for whole n: fine for any base, as long as only the base moves. *)
Lemma power_nat_right a b out l : bshape (sh a) (sh b) = Some out →
  (∀ i, i < asize b → ∃ n, dat b i = INR n) →
  ∃ J, (binary_jac Bpower true false a b (after_calls l)).2 = Some J ∧ fits J (size out) (asize a) ∧
    diff1 (λ x, binary Bpower x b) J a.
Proof.
  intros Hb Hn. destruct (jac_rows Bpower true a b out Hb) as (J & HJ & Hr).
  exists J. rewrite binary_jac_history. split_and!; [done|apply Hr|].
  intros y v <- Hy. pose proof (amoves_shape _ _ Hy) as Hs.
  apply (amoves_intro _ _ out).
  - eapply near_mono; [|exact Hs]. intros t Ht. unfold binary. apply bop_sh. by rewrite Ht.
  - intros i Hi. rewrite (rows_mact J _ _ _ _ _ _ Hr), decide_True by done. unfold wcol.
    assert (Hj : bidx (sh b) out i < size (sh b)) by (apply bidx_lt; [by eapply bshape_r|done]).
    assert (Hk : bidx (sh (y 0%R)) out i < asize (y 0%R)) by (apply bidx_lt; [by eapply bshape_l|done]).
    destruct (Hn _ Hj) as [n Hbn].
    apply (deriv_near (λ t, npower (dat (y t) (bidx (sh (y 0%R)) out i)) (INR n))).
    + eapply near_mono; [|exact Hs]. intros t Ht. unfold binary.
      rewrite (bop_dat _ _ _ out) by (by rewrite Ht). by rewrite Ht, Hbn.
    + unfold v1, v2. rewrite Hbn.
      apply (derivable_pt_lim_comp (λ t, dat (y t) (bidx (sh (y 0%R)) out i)) (λ x, npower x (INR n))).
      * by apply amoves_dat.
      * apply npower_deriv_nat.
  - intros i Hi. by rewrite (rows_mact J _ _ _ _ _ _ Hr), decide_False by lia.
Qed.

Lemma unary_row_any f d n : 1 < n → ∃ J, unary_jac f (Arr_ [1; n] d) = Some J ∧ nrow J ≠ asize (Arr_ [1; n] d).
Proof. intros Hn. eexists. split; [reflexivity|]. unfold asize. simpl. lia. Qed.

Lemma unary_jacobian f a : unary_shape (sh a) → (∀ i, i < asize a → u_dom f (dat a i)) →
  ∃ J, unary_jac f a = Some J ∧ fits J (asize a) (asize a) ∧
    (∀ i j, i < asize a → i ≠ j → entry J i j = 0%R) ∧
    (∀ i, i < asize a → derivable_pt_lim (u_r f) (dat a i) (entry J i i)) ∧
    diff1 (unary f) J a.
Proof.
  intros Hs Hd. destruct (unary_right f a Hs Hd) as (J & H1 & H2 & H3 & H4). exists J. split_and!; try done.
  - intros i j Hi Hij. rewrite H3 by done. by rewrite decide_False.
  - intros i Hi. rewrite H3, decide_True by done. by apply u_deriv, Hd.
Qed.
Lemma unary_refuted : ∃ f a J, (∀ i, i < asize a → u_dom f (dat a i)) ∧
  unary_jac f a = Some J ∧ nrow J ≠ asize a ∧ ¬ diff1 (unary f) J a.
Proof.
  destruct unary_row as (J & H1 & H2 & H3). exists Usquare, row12, J. split_and!; [done|done| |done].
  rewrite H2. done.
Qed.
Lemma binary_value f a b out ix : bshape (sh a) (sh b) = Some out → inside out ix →
  sh (binary f a b) = out ∧
  ∃ jx kx, feeds (sh a) ix jx ∧ feeds (sh b) ix kx ∧ inside (sh a) jx ∧ inside (sh b) kx ∧
    at_ (binary f a b) ix = b_f f (at_ a jx) (at_ b kx).
Proof. intros Hb Hin. split; [by apply bop_sh|]. by apply (binary_at f a b out). Qed.
Lemma feeds_unique s ix jx kx : feeds s ix jx → feeds s ix kx → jx = kx.
Proof.
  intros (l1 & t1 & -> & H1 & ->) (l2 & t2 & He & H2 & ->). 
  assert (Hl : length l1 = length l2). { apply (f_equal length) in He. rewrite !app_length in He. lia. }
  apply app_inj_1 in He as [-> ->]; done.
Qed.
Lemma rows_entry J n c col val i j : rows_are J n c col val → i < n → j ≠ col i → entry J i j = 0%R.
Proof.
  intros [_ Ht] Hi Hj. rewrite entry_alt. rewrite (rsum_perm _ _ (fmap_Permutation _ _ _ Ht)).
  apply rsum_zero. intros [[r k] x] (m & [= -> -> ->] & Hm)%elem_of_list_fmap. simpl.
  apply decide_False. intros [-> <-]. done.
Qed.
Lemma binary_columns f (first : bool) a b out l : bshape (sh a) (sh b) = Some out →
  ∃ J, (binary_jac f first (negb first) a b (after_calls l)).2 = Some J ∧
    ∀ i j jx, i < size out → j < size (sh (if first then a else b)) →
      feeds (sh (if first then a else b)) (unravel out i) jx →
      unravel (sh (if first then a else b)) j ≠ jx → entry J i j = 0%R.
Proof.
  intros Hb. destruct (jac_rows f first a b out Hb) as (J & HJ & Hr). exists J. rewrite binary_jac_history. split; [done|].
  intros i j jx Hi Hj Hf Hne. eapply rows_entry; [exact Hr|done|]. intros ->. apply Hne. unfold wcol.
  destruct (bidx_feeds (sh (if first then a else b)) out i) as (kx & Hk & _ & _ & He);
    [destruct first; [by eapply bshape_l|by eapply bshape_r]|done|].
  replace (if first then sh a else sh b) with (sh (if first then a else b)) by (by destruct first).
  rewrite He. by eapply feeds_unique.
Qed.

Lemma bsh_rev_rule r1 r2 out : bsh_rev r1 r2 = Some out ↔
  length out = length r1 `max` length r2 ∧
  ∀ k, (nth k r1 1 = nth k r2 1 ∨ nth k r1 1 = 1 ∨ nth k r2 1 = 1) ∧
       nth k out 1 = if decide (nth k r1 1 = 1) then nth k r2 1 else nth k r1 1.
Proof.
  assert (Hext : ∀ l1 l2 : list nat, length l1 = length l2 → (∀ k, nth k l1 1 = nth k l2 1) → l1 = l2).
  { induction l1 as [|x l1 IH]; intros [|y l2] Hl H; try done. f_equal; [exact (H 0)|]. apply IH; [by injection Hl|]. intros k. exact (H (S k)). }
  assert (Hnil : ∀ k, nth k ([] : list nat) 1 = 1) by (intros [|k]; done).
  revert r2 out. induction r1 as [|d1 r1 IH]; intros r2 out.
  { cbn [bsh_rev length]. split.
    - intros [= ->]. split; [lia|]. intros k. rewrite Hnil. rewrite decide_True by done. auto.
    - intros [Hl H]. f_equal. apply Hext; [lia|]. intros k. destruct (H k) as [_ ->]. rewrite Hnil. by rewrite decide_True. }
  destruct r2 as [|d2 r2].
  { cbn [bsh_rev length]. split.
    - intros [= <-]. split; [simpl; lia|]. intros k. rewrite Hnil. split; [auto|]. destruct k; simpl; case_decide; congruence.
    - intros [Hl H]. f_equal. apply Hext; [simpl in *; lia|]. intros k. destruct (H k) as [_ ->]. rewrite Hnil.
      destruct k; simpl; case_decide; congruence. }
  cbn [bsh_rev]. split.
  - intros (r & Hr & H)%bind_Some. apply IH in Hr as [Hl Hr].
    split; [repeat case_decide; simplify_eq; simpl; lia|]. intros [|k].
    + simpl. repeat case_decide; simplify_eq; simpl; auto.
    + destruct (Hr k) as [H1 H2]. repeat case_decide; simplify_eq; simpl; auto.
  - intros [Hl H]. destruct out as [|d out]; [simpl in Hl; lia|].
    assert (Hr : bsh_rev r1 r2 = Some out).
    { apply IH. split; [simpl in Hl; lia|]. intros k. exact (H (S k)). }
    rewrite Hr. simpl. destruct (H 0) as [H1 H2]. simpl in H1, H2.
    repeat case_decide; simplify_eq; simpl; try congruence; exfalso; lia.
Qed.
Lemma bshape_rule s1 s2 out : bshape s1 s2 = Some out ↔ broadcast_rule s1 s2 out.
Proof.
  unfold broadcast_rule, dim, bshape. rewrite <- (reverse_length s1), <- (reverse_length s2), <- (reverse_length out).
  rewrite <- bsh_rev_rule. rewrite fmap_Some. split.
  - intros (r & Hr & ->). by rewrite reverse_involutive.
  - intros H. exists (reverse out). by rewrite reverse_involutive.
Qed.
