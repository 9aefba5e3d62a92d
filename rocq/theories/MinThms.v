(** Sums of squares, their gradients and Hessians. *)
From Coq Require Import Reals String Lra Lia FunctionalExtensionality.
From stdpp Require Import list list_numbers.
From Verif Require Import ArrModel ArrThms DogExact MinModel MinSpec.

Lemma by_index {A} (z : A) (l : list A) : l = (λ i, default z (l !! i)) <$> seq 0 (length l).
Proof.
  apply list_eq. intros i. rewrite list_lookup_fmap. destruct (decide (i < length l)) as [Hi|Hi].
  - rewrite lookup_seq_lt by done. cbn. destruct (lookup_lt_is_Some_2 l i Hi) as [x ->]. done.
  - rewrite !(lookup_ge_None_2 _ i); [done|rewrite seq_length; lia|lia].
Qed.
Lemma zip_by_index {A B C} (f : A → B → C) za zb l k : length l = length k →
  zip_with f l k = (λ i, f (default za (l !! i)) (default zb (k !! i))) <$> seq 0 (length l).
Proof.
  intros Hl. apply list_eq. intros i. rewrite list_lookup_fmap, lookup_zip_with. destruct (decide (i < length l)) as [Hi|Hi].
  - rewrite lookup_seq_lt by done. cbn. destruct (lookup_lt_is_Some_2 l i Hi) as [x ->]. destruct (lookup_lt_is_Some_2 k i) as [y ->]; [lia|done].
  - rewrite (lookup_ge_None_2 l i) by lia. rewrite (lookup_ge_None_2 (seq 0 (length l)) i); [done|rewrite seq_length; lia].
Qed.
Lemma deriv_rsum {A} (f : A → R → R) (d : A → R) l x : (∀ a, a ∈ l → derivable_pt_lim (f a) x (d a)) →
  derivable_pt_lim (λ s, rsum ((λ a, f a s) <$> l)) x (rsum (d <$> l)).
Proof.
  induction l as [|a l IH]; intros H; [apply derivable_pt_lim_const|].
  apply (derivable_pt_lim_plus (f a) _ x); [apply H; left|apply IH; intros b Hb; apply H; by right].
Qed.
Lemma deriv_ext (f g : R → R) x l : (∀ s, f s = g s) → derivable_pt_lim f x l → derivable_pt_lim g x l.
Proof. intros E H eps Heps. destruct (H eps Heps) as [d Hd]. exists d. intros h Hh Hs. rewrite <- !E. by apply Hd. Qed.
Lemma deriv_val (f : R → R) x l l' : l = l' → derivable_pt_lim f x l → derivable_pt_lim f x l'.
Proof. by intros ->. Qed.

(** Merging. *)
Lemma merged_val o t x : merged o = Some t → t_val t x = objects o ≫= λ t, t_val t x.
Proof.
  destruct o as [t'|l|l]; cbn.
  - intros [= ->]. by rewrite (right_id_L [] (++)).
  - destruct l as [|a l]; [done|]. by intros [= <-].
  - destruct (snd <$> l) as [|a l']; [done|]. by intros [= <-].
Qed.
Lemma merged_jac o t x : merged o = Some t → t_jac t x = objects o ≫= λ t, t_jac t x.
Proof.
  destruct o as [t'|l|l]; cbn.
  - intros [= ->]. by rewrite (right_id_L [] (++)).
  - destruct l as [|a l]; [done|]. by intros [= <-].
  - destruct (snd <$> l) as [|a l']; [done|]. by intros [= <-].
Qed.
Lemma merged_exists o : objects o ≠ [] → ∃ t, merged o = Some t.
Proof. destruct o as [t'|l|l]; cbn; [eauto|destruct l; [done|eauto]|destruct (snd <$> l); [done|eauto]]. Qed.
Lemma merged_count o t x : merged o = Some t → length (t_val t x) = count_elements o x.
Proof.
  intros H. rewrite (merged_val o t x H). unfold count_elements. induction (objects o) as [|a l IH]; [done|]. cbn. rewrite app_length, IH. done.
Qed.
Lemma merged_total o t x : merged o = Some t → rsum ((λ a, a * a)%R <$> t_val t x) = total o x.
Proof. intros H. rewrite (merged_val o t x H). apply rsum_bind. Qed.
Lemma squares_nonneg l : (0 <= rsum ((λ a, a * a) <$> l))%R.
Proof. induction l as [|a l IH]; [apply Rle_refl|]. rewrite fmap_cons, rsum_cons. nra. Qed.
Lemma dogleg_total o x : objects o ≠ [] → dogleg_cost o x = Some (total o x).
Proof.
  intros Hn. destruct (merged_exists o Hn) as [t Ht]. unfold dogleg_cost. rewrite Ht. cbn. f_equal. unfold norm. rewrite sqrt_sqrt by apply squares_nonneg. by apply merged_total.
Qed.
Lemma itself o t x0 : merged o = Some t → scalar_itself t x0 = bool_decide (count_elements o x0 = 1).
Proof. intros H. unfold scalar_itself. by rewrite (merged_count o t x0 H). Qed.
Lemma scipy_total o x0 x : objects o ≠ [] → count_elements o x0 ≠ 1 → scipy_value o x0 x = Some (total o x).
Proof.
  intros Hn Hc. destruct (merged_exists o Hn) as [t Ht]. unfold scipy_value. rewrite Ht. cbn [mbind option_bind]. rewrite (itself o t x0 Ht), bool_decide_eq_false_2 by done.
  f_equal. by apply merged_total.
Qed.
Lemma report_total o x : objects o ≠ [] → ∃ ls, report o x = Some (total o x, ls) ∧ ∀ l, o = Labelled l → ls.*1 = l.*1 ∧ rsum ls.*2 = total o x.
Proof.
  intros Hn. destruct (merged_exists o Hn) as [t Ht]. unfold report. rewrite Ht. cbn [mbind option_bind]. rewrite (merged_total o t x Ht). eexists. split; [done|]. intros l ->. split.
  - rewrite <- list_fmap_compose. done.
  - unfold total. cbn [objects]. rewrite <- !list_fmap_compose. done.
Qed.
Lemma total_perm o o' x : objects o ≡ₚ objects o' → total o x = total o' x.
Proof. intros H. apply rsum_perm. by apply fmap_Permutation. Qed.

(** Smoothness of what is merged. *)
Lemma smooth_nil n x : smooth_at n x (Term (λ _, []) (λ _, [])).
Proof. exists 0. split_and!; [done..|]. intros i v Hv. done. Qed.
Lemma smooth_app n x t1 t2 : smooth_at n x t1 → smooth_at n x t2 → smooth_at n x (Term (λ x, t_val t1 x ++ t_val t2 x) (λ x, t_jac t1 x ++ t_jac t2 x)).
Proof.
  intros (m1 & L1 & J1 & D1) (m2 & L2 & J2 & D2). exists (m1 + m2). cbn [t_val t_jac]. split_and!.
  - intros y. by rewrite app_length, L1, L2.
  - by rewrite app_length, J1, J2.
  - intros i v Hv d. apply lookup_app_Some in Hv as [Hv|[Hi Hv]].
    + eapply deriv_ext; [|by apply (D1 i v)]. intros s. cbn. rewrite lookup_app_l; [done|]. rewrite L1, <- J1. by eapply lookup_lt_Some.
    + eapply deriv_ext; [|by apply (D2 _ v Hv)]. intros s. cbn. rewrite lookup_app_r, L1, J1; [done|]. rewrite L1. lia.
Qed.
Lemma smooth_stack n x l : Forall (smooth_at n x) l → smooth_at n x (Term (λ x, l ≫= λ t, t_val t x) (λ x, l ≫= λ t, t_jac t x)).
Proof. induction 1 as [|t l Ht _ IH]; [apply smooth_nil|]. exact (smooth_app n x t _ Ht IH). Qed.
Lemma smooth_merged n x o t : Forall (smooth_at n x) (objects o) → merged o = Some t → smooth_at n x t.
Proof.
  destruct o as [t'|l|l]; cbn [objects merged].
  - intros H [= ->]. by apply Forall_cons_1 in H as [H _].
  - intros H Hm. destruct l as [|a l]; [done|]. injection Hm as <-. exact (smooth_stack n x (a :: l) H).
  - intros H Hm. destruct (snd <$> l) as [|a l']; [done|]. injection Hm as <-. exact (smooth_stack n x (a :: l') H).
Qed.

Definition nov : vec := λ _, 0%R.
Lemma times_by_index r J j : length r = length J → times r J j = rsum ((λ i, default 0%R (r !! i) * default nov (J !! i) j)%R <$> seq 0 (length r)).
Proof. intros Hl. unfold times. by rewrite (zip_by_index _ 0%R nov) by done. Qed.
Lemma times_dot n r J d : length r = length J → dot n (times r J) d = rsum ((λ i, default 0%R (r !! i) * dot n (default nov (J !! i)) d)%R <$> seq 0 (length r)).
Proof.
  intros Hl. unfold dot.
  transitivity (rsum ((λ j, rsum ((λ i, default 0%R (r !! i) * (default nov (J !! i) j * d j))%R <$> seq 0 (length r))) <$> seq 0 n)).
  - apply rsum_ext. intros j _. rewrite times_by_index by done. rewrite Rmult_comm, <- rsum_scal. apply rsum_ext. intros i _. ring.
  - rewrite rsum_swap. apply rsum_ext. intros i _. by rewrite rsum_scal.
Qed.
Lemma along_0 x d : along x d 0 = x.
Proof. apply functional_extensionality. intros i. unfold along. ring. Qed.
(** The gradient of a sum of squares, and of a single element. *)
Lemma squares_gradient n x t : smooth_at n x t →
  gradient_at n (λ x, rsum ((λ a, a * a)%R <$> t_val t x)) x (times ((λ a, a * 2)%R <$> t_val t x) (t_jac t x)).
Proof.
  intros (m & Lv & Lj & D) d. rewrite times_dot by (by rewrite fmap_length, Lv). rewrite fmap_length, Lv.
  apply (deriv_ext (λ s, rsum ((λ i, default 0%R (t_val t (along x d s) !! i) * default 0%R (t_val t (along x d s) !! i))%R <$> seq 0 m))).
  { intros s. symmetry. rewrite (by_index 0%R (t_val t (along x d s))) at 1. rewrite Lv, <- list_fmap_compose. done. }
  apply deriv_rsum. intros i Hi. apply elem_of_seq in Hi. destruct (lookup_lt_is_Some_2 (t_jac t x) i) as [v Hv]; [lia|]. specialize (D i v Hv d).
  destruct (lookup_lt_is_Some_2 (t_val t x) i) as [a Ha]; [rewrite Lv; lia|].
  eapply deriv_val; [|exact (derivable_pt_lim_mult _ _ _ _ _ D D)]. cbn. rewrite along_0, list_lookup_fmap, Hv, Ha. cbn. ring.
Qed.
Lemma single_gradient n x t : smooth_at n x t → length (t_val t x) = 1 → gradient_at n (λ x, default 0%R (head (t_val t x))) x (times [1%R] (t_jac t x)).
Proof.
  intros (m & Lv & Lj & D) Hl d. rewrite Lv in Hl. rewrite Hl in Lj. rewrite times_dot by (by rewrite Lj). cbn [length seq fmap list_fmap].
  destruct (lookup_lt_is_Some_2 (t_jac t x) 0) as [v Hv]; [lia|]. specialize (D 0 v Hv d). rewrite Hv. cbn.
  eapply deriv_val; [|eapply deriv_ext; [|exact D]]; [cbn; ring|]. intros s. cbv beta. destruct (t_val t (along x d s)); reflexivity.
Qed.
Definition or0 (a : option R) : R := default 0%R a.
Lemma scipy_gradient n o x0 x g : Forall (smooth_at n x) (objects o) → scipy_grad o x0 x = Some g →
  gradient_at n (λ x, or0 (scipy_value o x0 x)) x g.
Proof.
  intros Hs Hg. unfold scipy_grad in Hg. destruct (merged o) as [t|] eqn:Ht; [|done]. cbn [mbind option_bind] in Hg. injection Hg as <-. pose proof (smooth_merged n x o t Hs Ht) as Hm.
  intros d. unfold scipy_value. rewrite Ht. cbn [mbind option_bind]. destruct (scalar_itself t x0) eqn:E.
  - apply bool_decide_eq_true in E. apply (single_gradient n x t Hm). destruct Hm as (m & Lv & _). by rewrite Lv, <- (Lv x0).
  - exact (squares_gradient n x t Hm d).
Qed.
Lemma gram_dot n m (J : list vec) i d : length J = m →
  dot n (λ j, 2 * rsum ((λ v : vec, v i * v j) <$> J))%R d = rsum ((λ k, 2 * dot n (default nov (J !! k)) d * default nov (J !! k) i)%R <$> seq 0 m).
Proof.
  intros <-. unfold dot. transitivity (rsum ((λ j, rsum ((λ k, 2 * default nov (J !! k) i * (default nov (J !! k) j * d j))%R <$> seq 0 (length J))) <$> seq 0 n)).
  - apply rsum_ext. intros j _. rewrite (by_index nov J) at 1. rewrite <- list_fmap_compose. unfold compose.
    rewrite (Rmult_comm _ (d j)), <- Rmult_assoc, <- rsum_scal. apply rsum_ext. intros k _. ring.
  - rewrite rsum_swap. apply rsum_ext. intros k _. rewrite rsum_scal. ring.
Qed.
Lemma affine_stack n l : Forall (affine n) l → ∃ J, ∀ x, (l ≫= λ t, t_jac t x) = J.
Proof. induction 1 as [|t l (Jt & Ht & _) _ [J IH]]; [by exists []|]. exists (Jt ++ J). intros x. cbn. by rewrite Ht, IH. Qed.
Lemma scipy_hessian n o x0 x h : Forall (affine n) (objects o) → scipy_hess o x0 x = Some h →
  derivative_at n (λ x, default nov (scipy_grad o x0 x)) x h.
Proof.
  intros Ha Hh. unfold scipy_hess in Hh. destruct (merged o) as [t|] eqn:Ht; [|done]. cbn [mbind option_bind] in Hh. destruct (scalar_itself t x0) eqn:E; [done|]. injection Hh as <-.
  destruct (affine_stack n _ Ha) as [J HJ]. assert (HJ' : ∀ y, t_jac t y = J) by (intros y; rewrite (merged_jac o t y Ht); apply HJ).
  assert (Hm : smooth_at n x t). { apply (smooth_merged n x o t); [|done]. eapply Forall_impl; [exact Ha|]. intros t' (J' & _ & H). apply H. }
  intros d i Hi. unfold scipy_grad. rewrite Ht. cbn [mbind option_bind default]. rewrite E. destruct Hm as (m & Lv & Lj & D). rewrite HJ' in *. rewrite (gram_dot n m J i d Lj).
  apply (deriv_ext (λ s, rsum ((λ k, (default 0%R (t_val t (along x d s) !! k) * 2) * default nov (J !! k) i)%R <$> seq 0 m))).
  { intros s. cbn. rewrite HJ', times_by_index by (by rewrite fmap_length, Lv). rewrite fmap_length, Lv. apply rsum_ext. intros k Hk. apply elem_of_seq in Hk. rewrite list_lookup_fmap.
    destruct (lookup_lt_is_Some_2 (t_val t (along x d s)) k) as [a ->]; [rewrite Lv; lia|]. done. }
  apply deriv_rsum. intros k Hk. apply elem_of_seq in Hk. destruct (lookup_lt_is_Some_2 J k) as [v Hv]; [lia|]. specialize (D k v Hv d). rewrite Hv. cbn.
  eapply deriv_val; [|eapply deriv_ext; [|exact (derivable_pt_lim_scal _ (2 * v i)%R _ _ D)]]; [cbn; ring|]. intros s. unfold mult_real_fct. ring.
Qed.
Lemma scipy_hessp_along n o x0 x p q : Forall (affine n) (objects o) → scipy_hessp n o x0 x p = Some q →
  ∀ i, i < n → derivable_pt_lim (λ s, default nov (scipy_grad o x0 (along x p s)) i) 0 (q i).
Proof.
  intros Ha Hp i Hi. unfold scipy_hessp in Hp. destruct (scipy_hess o x0 x) as [h|] eqn:E; [|done]. injection Hp as <-. exact (scipy_hessian n o x0 x h Ha E p i Hi).
Qed.
