(** Lemmas about arrays, sparse matrices and curves. *)
From Coq Require Import Reals Lra.
From stdpp Require Import list list_numbers numbers.
From Verif Require Import ArrModel Curve.

(* ------------------------------------------------------------------ *)
(** Sums. *)
Lemma NoDup_seq_ s n : NoDup (seq s n).
Proof. apply NoDup_ListNoDup, seq_NoDup. Qed.
Lemma rsum_nil : rsum [] = 0%R. Proof. done. Qed.
Lemma rsum_cons x l : rsum (x :: l) = (x + rsum l)%R. Proof. done. Qed.
Lemma rsum_app l1 l2 : rsum (l1 ++ l2) = (rsum l1 + rsum l2)%R.
Proof.
  induction l1 as [|a l IH]; [symmetry; apply Rplus_0_l|]. cbn [app]. rewrite rsum_cons, rsum_cons, IH. ring.
Qed.
Lemma rsum_perm l1 l2 : l1 ≡ₚ l2 → rsum l1 = rsum l2.
Proof. induction 1; rewrite ?rsum_cons in *; [done|congruence|ring|congruence]. Qed.
Lemma rsum_ext {A} (f g : A → R) l : (∀ x, x ∈ l → f x = g x) → rsum (f <$> l) = rsum (g <$> l).
Proof.
  induction l as [|a l IH]; intros H; [done|]. rewrite !fmap_cons, !rsum_cons, IH.
  - rewrite H; [done|by left]. - intros x Hx. apply H. by right.
Qed.
Lemma rsum_plus {A} (f g : A → R) l : rsum ((λ x, f x + g x)%R <$> l) = (rsum (f <$> l) + rsum (g <$> l))%R.
Proof. induction l as [|a l IH]; [symmetry; apply Rplus_0_l|]. rewrite !fmap_cons, !rsum_cons, IH. ring. Qed.
Lemma rsum_scal {A} c (f : A → R) l : rsum ((λ x, c * f x)%R <$> l) = (c * rsum (f <$> l))%R.
Proof. induction l as [|a l IH]; [symmetry; apply Rmult_0_r|]. rewrite !fmap_cons, !rsum_cons, IH. ring. Qed.
Lemma rsum_zero {A} (f : A → R) l : (∀ x, x ∈ l → f x = 0%R) → rsum (f <$> l) = 0%R.
Proof.
  induction l as [|a l IH]; intros H; [done|]. rewrite fmap_cons, rsum_cons, (H a) by (by left). rewrite IH; [ring|].
  intros x Hx. apply H. by right.
Qed.
Lemma rsum_swap {A B} (f : A → B → R) l1 l2 :
  rsum ((λ x, rsum ((λ y, f x y) <$> l2)) <$> l1) = rsum ((λ y, rsum ((λ x, f x y) <$> l1)) <$> l2).
Proof.
  induction l1 as [|a l IH].
  { rewrite fmap_nil, rsum_nil. symmetry. apply rsum_zero. done. }
  rewrite fmap_cons, rsum_cons, IH, <- rsum_plus. apply rsum_ext. intros y _. by rewrite fmap_cons, rsum_cons.
Qed.
(** A sum with one non-zero term. *)
Lemma rsum_single {A} (f : A → R) l a : NoDup l → a ∈ l → (∀ x, x ∈ l → x ≠ a → f x = 0%R) →
  rsum (f <$> l) = f a.
Proof.
  intros Hd Ha Hz. induction Hd as [|x l Hx Hd IH]; [by apply elem_of_nil in Ha|].
  rewrite fmap_cons, rsum_cons. apply elem_of_cons in Ha as [->|Ha].
  - rewrite rsum_zero; [ring|]. intros y Hy. apply Hz; [by right|]. by intros ->.
  - rewrite IH; [|done|intros y Hy; apply Hz; by right].
    rewrite (Hz x); [ring|by left|]. by intros ->.
Qed.
Lemma rsum_filter {A} (P : A → Prop) `{∀ x, Decision (P x)} (f : A → R) l :
  rsum (f <$> filter P l) = rsum ((λ x, if decide (P x) then f x else 0%R) <$> l).
Proof.
  induction l as [|a l IH]; [done|]. rewrite fmap_cons, rsum_cons. destruct (decide (P a)) as [Ha|Ha].
  - rewrite filter_cons_True by done. by rewrite fmap_cons, rsum_cons, IH.
  - rewrite filter_cons_False by done. rewrite IH. ring.
Qed.
Lemma rsum_bind {A B} (g : A → list B) (f : B → R) l : rsum (f <$> (l ≫= g)) = rsum ((λ x, rsum (f <$> g x)) <$> l).
Proof.
  induction l as [|a l IH]; [done|]. rewrite bind_cons, fmap_app, rsum_app, IH. by rewrite fmap_cons, rsum_cons.
Qed.

(* ------------------------------------------------------------------ *)
(** Matrices act linearly. *)
Lemma mact_alt m v i : mact m v i = rsum ((λ e, if decide (e.1.1 = i) then (e.2 * v e.1.2)%R else 0%R) <$> trip m).
Proof. unfold mact. apply rsum_filter. Qed.
Lemma mact_ext m u v i : (∀ k, u k = v k) → mact m u i = mact m v i.
Proof. intros H. unfold mact. apply rsum_ext. intros e _. by rewrite H. Qed.
Lemma mact_zero m i : mact m (λ _, 0%R) i = 0%R.
Proof. unfold mact. apply rsum_zero. intros e _. ring. Qed.
Lemma mact_madd a b v i : mact (madd a b) v i = (mact a v i + mact b v i)%R.
Proof. rewrite !mact_alt. simpl. by rewrite fmap_app, rsum_app. Qed.
Lemma mact_mmul a b v i : mact (mmul a b) v i = mact a (mact b v) i.
Proof.
  rewrite !mact_alt. unfold mmul. simpl. rewrite rsum_bind. apply rsum_ext. intros [[r k] x] _. simpl.
  rewrite rsum_bind.
  transitivity (rsum ((λ f : nat * nat * R, if decide (r = i) then (x * (f.2 * v f.1.2))%R else 0%R) <$>
    filter (λ f, f.1.1 = k) (trip b))).
  { apply rsum_ext. intros [[k' j] y] _. unfold rsum. simpl. destruct (decide (r = i)); ring. }
  destruct (decide (r = i)); [|by apply rsum_zero]. by rewrite rsum_scal.
Qed.
Lemma mact_out m v i : in_range m → nrow m ≤ i → mact m v i = 0%R.
Proof.
  intros Hr Hi. rewrite mact_alt. apply rsum_zero. intros e He. rewrite decide_False; [done|].
  unfold in_range in Hr. rewrite list.Forall_forall in Hr. destruct (Hr e He). lia.
Qed.
Lemma entry_alt m i j : entry m i j = rsum ((λ e, if decide (e.1.1 = i ∧ e.1.2 = j) then e.2 else 0%R) <$> trip m).
Proof. unfold entry. apply rsum_filter. Qed.
(** A matrix acts by its entries. *)
Lemma mact_entries m v i : in_range m → mact m v i = rsum ((λ j, (entry m i j * v j)%R) <$> seq 0 (ncol m)).
Proof.
  intros Hr. rewrite mact_alt. unfold in_range in Hr. rewrite list.Forall_forall in Hr.
  transitivity (rsum ((λ j, rsum ((λ e, if decide (e.1.1 = i ∧ e.1.2 = j) then (v j * e.2)%R else 0%R) <$> trip m)) <$> seq 0 (ncol m))).
  - rewrite rsum_swap. apply rsum_ext. intros e He. destruct (Hr e He) as [_ Hc].
    rewrite (rsum_single _ _ e.1.2).
    + destruct (decide (e.1.1 = i)); [rewrite decide_True by done; ring|]. by rewrite decide_False by naive_solver.
    + apply NoDup_seq_.
    + apply elem_of_seq. lia.
    + intros j _ Hj. rewrite decide_False; [done|]. naive_solver.
  - apply rsum_ext. intros j _. rewrite entry_alt, Rmult_comm, <- rsum_scal. apply rsum_ext. intros e _.
    destruct (decide _); [done|ring].
Qed.

(** One entry per row. *)
Lemma zip_seq_lookup {A} (l : list A) s i x : zip (seq s (length l)) l !! i = Some x ↔ l !! i = Some x.2 ∧ x.1 = s + i.
Proof.
  rewrite lookup_zip_with. split.
  - destruct (seq s (length l) !! i) as [j|] eqn:Ej; simpl; [|done]. destruct (l !! i) as [y|] eqn:Ey; simpl; [|done].
    intros [= <-]. apply lookup_seq in Ej as [-> _]. done.
  - intros [Hx Hi]. pose proof (lookup_lt_Some _ _ _ Hx) as Hl. rewrite Hx.
    rewrite (lookup_seq_lt s (length l) i) by done. simpl. destruct x; simpl in *. by subst.
Qed.
Lemma mact_rows n c data JS v i : length data = n → length JS = n →
  mact (coo n c data (seq 0 n) JS) v i =
  match data !! i, JS !! i with Some x, Some j => (x * v j)%R | _, _ => 0%R end.
Proof.
  intros Hd HJ. rewrite mact_alt. unfold coo. simpl.
  assert (Hl : ∀ k, zip (zip (seq 0 n) JS) data !! k =
     match data !! k, JS !! k with Some x, Some j => Some (k, j, x) | _, _ => None end).
  { intros k. rewrite !lookup_zip_with. destruct (decide (k < n)) as [Hk|Hk].
    - rewrite lookup_seq_lt by done. simpl. destruct (JS !! k), (data !! k); done.
    - rewrite (lookup_ge_None_2 data), (lookup_ge_None_2 JS) by lia. by destruct (seq 0 n !! k). }
  destruct (data !! i) as [x|] eqn:Ex; [destruct (JS !! i) as [j|] eqn:Ej|].
  - rewrite (rsum_single _ _ (i, j, x)); [by rewrite decide_True| | |].
    + apply NoDup_alt. intros k1 k2 e. rewrite !Hl. intros H1 H2.
      destruct (data !! k1), (JS !! k1), (data !! k2), (JS !! k2); simplify_eq. done.
    + apply elem_of_list_lookup. exists i. by rewrite Hl, Ex, Ej.
    + intros e [k He]%elem_of_list_lookup Hne. rewrite Hl in He. rewrite decide_False; [done|]. intros Hk.
      destruct (data !! k) as [x'|] eqn:E1, (JS !! k) as [j'|] eqn:E2; try done. injection He as <-. simpl in Hk. subst k. congruence.
  - apply lookup_ge_None in Ej. apply lookup_lt_Some in Ex. lia.
  - apply rsum_zero. intros e [k He]%elem_of_list_lookup. rewrite Hl in He. rewrite decide_False; [done|].
    destruct (data !! k) as [x'|] eqn:E1, (JS !! k) as [j'|] eqn:E2; try done. injection He as <-. simpl. intros ->. congruence.
Qed.
Lemma coo_in_range r c data IS JS : Forall (λ i, i < r) IS → Forall (λ j, j < c) JS → in_range (coo r c data IS JS).
Proof.
  intros HI HJ. unfold in_range, coo. simpl. rewrite list.Forall_forall. rewrite Forall_lookup in HI, HJ. intros [[i j] x] He.
  apply elem_of_lookup_zip_with in He as (k & y & z & E & Hy & Hz).
  apply lookup_zip_with_Some in Hy as (i' & j' & -> & Hi & Hj). injection E as -> -> ->. simpl.
  split; [by apply (HI k)|by apply (HJ k)].
Qed.
Lemma mact_diags d v i : mact (diags d) v i = match d !! i with Some x => (x * v i)%R | None => 0%R end.
Proof.
  unfold diags. rewrite mact_rows by (by rewrite ?seq_length). destruct (d !! i) as [x|] eqn:E; [|done].
  apply lookup_lt_Some in E. by rewrite lookup_seq_lt.
Qed.
Lemma diags_range d : in_range (diags d).
Proof. apply coo_in_range; apply list.Forall_forall; intros i Hi; apply elem_of_seq in Hi; lia. Qed.
Lemma mact_dense r c f v i : mact (dense r c f) v i = if decide (i < r) then rsum ((λ j, (f i j * v j)%R) <$> seq 0 c) else 0%R.
Proof.
  rewrite mact_alt. unfold dense. simpl. rewrite rsum_bind.
  transitivity (rsum ((λ i', if decide (i' = i) then rsum ((λ j, (f i j * v j)%R) <$> seq 0 c) else 0%R) <$> seq 0 r)).
  { apply rsum_ext. intros i' _. rewrite rsum_bind. destruct (decide (i' = i)) as [->|].
    - apply rsum_ext. intros j _. unfold rsum. simpl. rewrite decide_True by done. ring.
    - apply rsum_zero. intros j _. unfold rsum. simpl. rewrite decide_False by done. ring. }
  destruct (decide (i < r)).
  - rewrite (rsum_single _ _ i); [by rewrite decide_True|apply NoDup_seq_|apply elem_of_seq; lia|].
    intros x _ Hx. by rewrite decide_False.
  - apply rsum_zero. intros x Hx%elem_of_seq. rewrite decide_False by lia. done.
Qed.
Lemma dense_range r c f : in_range (dense r c f).
Proof.
  unfold in_range, dense. simpl. apply list.Forall_forall. intros e. rewrite elem_of_list_bind. intros (i & He & Hi).
  apply elem_of_list_bind in He as (j & He & Hj). apply elem_of_list_singleton in He as ->. simpl.
  apply elem_of_seq in Hi. apply elem_of_seq in Hj. lia.
Qed.

(* ------------------------------------------------------------------ *)
(** Shapes. *)
Lemma size_cons d s : size (d :: s) = d * size s. Proof. done. Qed.
Lemma size_app s1 s2 : size (s1 ++ s2) = size s1 * size s2.
Proof. induction s1 as [|d s IH]; simpl; [lia|]. rewrite IH. lia. Qed.
Lemma unravel_length s i : length (unravel s i) = length s.
Proof. revert i. induction s as [|d s IH]; intros i; simpl; [done|]. by rewrite IH. Qed.
Lemma ravel_unravel s i : i < size s → ravel s (unravel s i) = i.
Proof.
  revert i. induction s as [|d s IH]; intros i Hi; simpl in *; [lia|].
  rewrite IH; [|apply Nat.mod_upper_bound; intros E; rewrite E in Hi; lia].
  rewrite Nat.mul_comm. symmetry. apply Nat.div_mod. intros E. rewrite E in Hi. lia.
Qed.
Lemma unravel_inside s i : i < size s → inside s (unravel s i).
Proof.
  unfold inside. revert i. induction s as [|d s IH]; intros i Hi; simpl in *; [constructor|].
  assert (size s ≠ 0) by (intros E; rewrite E in Hi; lia).
  constructor; [apply Nat.div_lt_upper_bound; [done|lia]|]. apply IH. by apply Nat.mod_upper_bound.
Qed.
Lemma ravel_lt s ix : inside s ix → ravel s ix < size s.
Proof.
  unfold inside. revert ix. induction s as [|d s IH]; intros ix H; inversion H as [|i d' ix' s' Hi Hix]; subst; simpl; [lia|].
  specialize (IH _ Hix). nia.
Qed.
Lemma unravel_ravel s ix : inside s ix → unravel s (ravel s ix) = ix.
Proof.
  unfold inside. revert ix. induction s as [|d s IH]; intros ix H; inversion H as [|i d' ix' s' Hi Hix]; subst; [done|].
  simpl. pose proof (ravel_lt s ix' Hix) as Hlt. f_equal.
  - rewrite Nat.div_add_l by lia. rewrite Nat.div_small by lia. lia.
  - rewrite (Nat.add_comm (i * size s)), Nat.mod_add by lia. rewrite Nat.mod_small by lia. by apply IH.
Qed.
Lemma elems_length {T} (a : arr T) : length (elems a) = asize a.
Proof. unfold elems. by rewrite fmap_length, seq_length. Qed.
Lemma elems_lookup {T} (a : arr T) i : i < asize a → elems a !! i = Some (dat a i).
Proof. intros H. unfold elems. by rewrite list_lookup_fmap, lookup_seq_lt. Qed.
Lemma elems_lookup_None {T} (a : arr T) i : asize a ≤ i → elems a !! i = None.
Proof. intros H. apply lookup_ge_None_2. by rewrite elems_length. Qed.
Lemma elem_in a i : i < asize a → elem a i = dat a i.
Proof. intros H. unfold elem. by rewrite decide_True. Qed.
Lemma elem_out a i : asize a ≤ i → elem a i = 0%R.
Proof. intros H. unfold elem. by rewrite decide_False by lia. Qed.

(* ------------------------------------------------------------------ *)
(** Near 0. *)
Lemma near_and P Q : near P → near Q → near (λ t, P t ∧ Q t).
Proof.
  intros (d & Hd & HP) (e & He & HQ). exists (Rmin d e). split; [by apply Rmin_pos|].
  intros t Ht. pose proof (Rmin_l d e). pose proof (Rmin_r d e). split; [apply HP|apply HQ]; lra.
Qed.
Lemma near_mono (P Q : R → Prop) : (∀ t, P t → Q t) → near P → near Q.
Proof. intros H (d & Hd & HP). exists d. auto. Qed.
Lemma near_always (P : R → Prop) : (∀ t, P t) → near P.
Proof. intros H. exists 1%R. split; [lra|auto]. Qed.
Lemma near_0 P : near P → P 0%R.
Proof. intros (d & Hd & HP). apply HP. by rewrite Rabs_R0. Qed.
Lemma near_list {A} (l : list A) (P : A → R → Prop) : (∀ a, a ∈ l → near (P a)) → near (λ t, ∀ a, a ∈ l → P a t).
Proof.
  induction l as [|a l IH]; intros H.
  { apply near_always. intros t a Ha. by apply elem_of_nil in Ha. }
  eapply near_mono; [|apply near_and; [apply (H a); by left|apply IH; intros b Hb; apply H; by right]].
  intros t [Ha Hl] b [->|Hb]%elem_of_cons; auto.
Qed.
Lemma deriv_near f g l : near (λ t, f t = g t) → derivable_pt_lim f 0%R l → derivable_pt_lim g 0%R l.
Proof.
  intros Hn Hf eps Heps. pose proof (near_0 _ Hn) as H0. simpl in H0.
  destruct Hn as (d & Hd & Hn). destruct (Hf eps Heps) as [e He].
  assert (Hp : (0 < Rmin d e)%R) by (apply Rmin_pos; [done|apply (cond_pos e)]).
  exists (mkposreal _ Hp). intros h Hh Hlt. simpl in Hlt.
  pose proof (Rmin_l d e). pose proof (Rmin_r d e).
  rewrite <- H0, <- (Hn (0 + h)%R) by (rewrite Rplus_0_l; lra). apply He; [done|lra].
Qed.
Lemma deriv_ext f g l : (∀ t, f t = g t) → derivable_pt_lim f 0%R l → derivable_pt_lim g 0%R l.
Proof. intros H. apply deriv_near. by apply near_always. Qed.
Lemma deriv_unique f l1 l2 : derivable_pt_lim f 0%R l1 → derivable_pt_lim f 0%R l2 → l1 = l2.
Proof. apply uniqueness_limite. Qed.
Lemma deriv_const c : derivable_pt_lim (λ _, c) 0%R 0%R.
Proof. apply (derivable_pt_lim_const c). Qed.
(** Sums of curves. *)
Lemma deriv_rsum {A} (f : A → R → R) (f' : A → R) l :
  (∀ a, a ∈ l → derivable_pt_lim (f a) 0%R (f' a)) →
  derivable_pt_lim (λ t, rsum ((λ a, f a t) <$> l)) 0%R (rsum (f' <$> l)).
Proof.
  induction l as [|a l IH]; intros H; [apply (deriv_const 0%R)|].
  rewrite fmap_cons, rsum_cons.
  apply (deriv_ext (λ t, f a t + rsum ((λ a, f a t) <$> l))%R); [intros t; by rewrite fmap_cons, rsum_cons|].
  apply (derivable_pt_lim_plus (f a)); [apply H; by left|]. apply IH. intros b Hb. apply H. by right.
Qed.
Lemma deriv_scal c f l : derivable_pt_lim f 0%R l → derivable_pt_lim (λ t, c * f t)%R 0%R (c * l)%R.
Proof. intros H. apply (derivable_pt_lim_scal f c 0%R l H). Qed.

(** Curves of arrays. *)
Lemma amoves_dat y v i : amoves y v → i < asize (y 0%R) → derivable_pt_lim (λ t, dat (y t) i) 0%R (v i).
Proof.
  intros [Hs Hd] Hi. eapply deriv_near; [|apply (Hd i)]. eapply near_mono; [|exact Hs].
  intros t Ht. simpl. apply elem_in. unfold asize. by rewrite Ht.
Qed.
Lemma amoves_out y v i : amoves y v → asize (y 0%R) ≤ i → v i = 0%R.
Proof.
  intros [Hs Hd] Hi. apply (deriv_unique (λ t, elem (y t) i)); [apply Hd|].
  eapply deriv_near; [|apply (deriv_const 0%R)]. eapply near_mono; [|exact Hs].
  intros t Ht. simpl. symmetry. apply elem_out. unfold asize. by rewrite Ht.
Qed.
Lemma amoves_intro y v s : near (λ t, sh (y t) = s) →
  (∀ i, i < size s → derivable_pt_lim (λ t, dat (y t) i) 0%R (v i)) → (∀ i, size s ≤ i → v i = 0%R) → amoves y v.
Proof.
  intros Hs Hd Hz. pose proof (near_0 _ Hs) as H0. simpl in H0. split.
  { eapply near_mono; [|exact Hs]. intros t ->. by rewrite H0. }
  intros i. destruct (decide (i < size s)) as [Hi|Hi].
  - eapply deriv_near; [|apply (Hd i Hi)]. eapply near_mono; [|exact Hs].
    intros t Ht. simpl. symmetry. apply elem_in. unfold asize. by rewrite Ht.
  - rewrite Hz by lia. eapply deriv_near; [|apply (deriv_const 0%R)]. eapply near_mono; [|exact Hs].
    intros t Ht. simpl. symmetry. apply elem_out. unfold asize. rewrite Ht. lia.
Qed.
Lemma amoves_ext y u v : (∀ i, u i = v i) → amoves y u → amoves y v.
Proof. intros H [Hs Hd]. split; [done|]. intros i. rewrite <- H. apply Hd. Qed.
Lemma amoves_shape y v : amoves y v → near (λ t, sh (y t) = sh (y 0%R)).
Proof. by intros [H _]. Qed.

(* ------------------------------------------------------------------ *)
Lemma at1_size {T} (a : arr T) : asize (atleast_1d a) = asize a.
Proof. unfold atleast_1d, asize. by destruct (sh a) eqn:E; simpl; rewrite ?E. Qed.
Lemma at1_dat {T} (a : arr T) i : dat (atleast_1d a) i = dat a i.
Proof. unfold atleast_1d. by destruct (sh a). Qed.
Lemma at1_id {T} (a : arr T) : sh a ≠ [] → atleast_1d a = a.
Proof. unfold atleast_1d. by destruct (sh a). Qed.
Lemma at1_sh {T} (a b : arr T) : sh a = sh b → sh (atleast_1d a) = sh (atleast_1d b).
Proof. unfold atleast_1d. intros E. rewrite E. by destruct (sh b) eqn:Eb; simpl; rewrite ?E, ?Eb. Qed.
Lemma at1_ne {T} (a : arr T) : sh (atleast_1d a) ≠ [].
Proof. unfold atleast_1d. by destruct (sh a) eqn:E; simpl; rewrite ?E. Qed.
Lemma at1_elem a i : elem (atleast_1d a) i = elem a i.
Proof.
  destruct (decide (i < asize a)).
  - rewrite !elem_in by (rewrite ?at1_size; done). apply at1_dat.
  - rewrite !elem_out by (rewrite ?at1_size; lia). done.
Qed.
Lemma amoves_at1 y v : amoves y v → amoves (λ t, atleast_1d (y t)) v.
Proof.
  intros [H1 H2]. split.
  - eapply near_mono; [|exact H1]. intros t. apply at1_sh.
  - intros i. eapply deriv_ext; [|apply H2]. intros t. by rewrite at1_elem.
Qed.
