(** The position an element comes from is unique; memoised Jacobians; sorting. *)
From Coq Require Import Reals Lra.
From stdpp Require Import list list_numbers numbers gmap sorting.
From Verif Require Import ArrModel Curve ArrThms ElemModel ElemSpec ElemThms ReorderModel ReorderSpec ReorderThms.

Lemma inside_eq s jx kx : inside s jx → inside s kx → (∀ a d, s !! a = Some d → jx !! a = kx !! a) → jx = kx.
Proof.
  intros Hj Hk H. apply list_eq. intros a. destruct (s !! a) as [d|] eqn:Ed; [by eapply H|].
  apply lookup_ge_None in Ed. rewrite !lookup_ge_None_2; [done|rewrite (inside_len _ _ Hk); lia|rewrite (inside_len _ _ Hj); lia].
Qed.
Lemma inside_ravel_eq s jx kx : inside s jx → inside s kx → ravel s jx = ravel s kx → jx = kx.
Proof. intros Hj Hk E. rewrite <- (unravel_ravel s jx Hj), <- (unravel_ravel s kx Hk). by rewrite E. Qed.
Lemma cong_unique (j k n : nat) c d (h : Z) (i : Z) : j < n → k < n →
  (i = Z.of_nat j + h + c * Z.of_nat n)%Z → (i = Z.of_nat k + h + d * Z.of_nat n)%Z → j = k.
Proof.
  intros Hj Hk E1 E2. assert (Z.of_nat j - Z.of_nat k = (d - c) * Z.of_nat n)%Z by lia.
  destruct (Z.lt_trichotomy (d - c) 0) as [|[E|]]; [nia| |nia]. rewrite E in *. lia.
Qed.
Lemma same_but_eq a (ix jx kx : list nat) : same_but a ix jx → same_but a ix kx → jx !! a = kx !! a → jx = kx.
Proof.
  intros [L1 H1] [L2 H2] E. apply list_eq. intros b. destruct (decide (b = a)) as [->|Hb]; [done|].
  by rewrite <- H1, <- H2.
Qed.

Lemma comes_from_unique r s p ix jx kx : plan_of r s = Some p → inside p.1 ix → inside s jx → inside s kx →
  comes_from r s ix jx → comes_from r s ix kx → jx = kx.
Proof.
  intros Hp Hi Hj Hk. destruct r as [[l|]|k st|k1 k2|h [k|]|k|reps|m [k|]|k|k]; cbn [comes_from].
  - intros H1 H2. cbn [plan_of] in Hp. apply bind_Some in Hp as (ax & Hax & Hp). destruct (decide _) as [[Hl Hnd]|]; [|done]. clear Hp.
    destruct (mapM_lookup _ _ _ Hax) as [Hll Hm].
    assert (Hlt : ∀ a, a ∈ ax → a < length s).
    { intros a [i E]%elem_of_list_lookup. destruct (lookup_lt_is_Some_2 l i) as [x Hx]; [apply lookup_lt_Some in E; lia|].
      destruct (Hm i x Hx) as (y & Hy & Hn). rewrite E in Hy. injection Hy as <-. apply naxis_is in Hn. apply Hn. }
    apply (inside_eq s); [done..|]. intros a d Hd. assert (Ha : a ∈ ax) by (apply (all_axes (length s)); [done..|by eapply lookup_lt_Some]).
    apply elem_of_list_lookup in Ha as [i E]. destruct (lookup_lt_is_Some_2 l i) as [x Hx]; [apply lookup_lt_Some in E; lia|].
    destruct (Hm i x Hx) as (y & Hy & Hn%naxis_is). rewrite E in Hy. injection Hy as <-.
    destruct (H1 i x Hx) as (a1 & Ha1 & E1). destruct (H2 i x Hx) as (a2 & Ha2 & E2).
    rewrite (axis_is_unique _ _ _ _ Ha1 Hn) in E1. rewrite (axis_is_unique _ _ _ _ Ha2 Hn) in E2. congruence.
  - by intros -> ->.
  - intros (a & b & Ha & Hb & E & D) (a' & b' & Ha' & Hb' & E' & D').
    rewrite (axis_is_unique _ _ _ _ Ha' Ha) in *. clear a' Ha'.
    assert (b' = b) as ->.
    { destruct Hb as (c & Hc & H & Hbc), Hb' as (c' & Hc' & H' & Hbc').
      assert (c = c') as <- by lia. destruct (decide (a < c)); lia. }
    assert (Hd : delete a jx = delete a kx) by congruence.
    apply list_eq. intros i. destruct (decide (i = a)) as [->|Hia]; [congruence|].
    destruct (decide (i < a)) as [Hlt|Hge].
    + rewrite <- (lookup_delete_lt jx a i), <- (lookup_delete_lt kx a i) by done. by rewrite Hd.
    + destruct i as [|i]; [lia|]. rewrite <- (lookup_delete_ge jx a i), <- (lookup_delete_ge kx a i) by lia. by rewrite Hd.
  - intros (a1 & a2 & H1 & H2 & E1 & E2 & E3) (a1' & a2' & H1' & H2' & E1' & E2' & E3').
    rewrite (axis_is_unique _ _ _ _ H1' H1) in *. rewrite (axis_is_unique _ _ _ _ H2' H2) in *.
    apply list_eq. intros a. destruct (decide (a = a1)) as [->|]; [congruence|]. destruct (decide (a = a2)) as [->|]; [congruence|].
    rewrite <- E3, <- E3' by done. done.
  - intros (a & i & j & d & c & Ha & Hs & Hi1 & Hj1 & Hd & E) (a' & i' & j' & d' & c' & Ha' & Hs' & Hi' & Hj' & Hd' & E').
    rewrite (axis_is_unique _ _ _ _ Ha' Ha) in *. apply (same_but_eq a ix); [done..|].
    assert (i' = i) as -> by congruence. assert (d' = d) as -> by congruence.
    rewrite Hj1, Hj'. f_equal. eapply (cong_unique j j' d c c' h (Z.of_nat i)); [|exact (inside_at _ _ _ _ _ Hk Hj' Hd)|done..].
    exact (inside_at _ _ _ _ _ Hj Hj1 Hd).
  - intros [c E] [d E']. apply (inside_ravel_eq s); [done..|]. eapply (cong_unique _ _ (size s) c d h); [by apply ravel_lt..|done|done].
  - intros (i & j & i' & j' & rest & n0 & n1 & t & -> & -> & -> & A0 & A1 & A2 & A3)
      (i2 & j2 & i2' & j2' & rest2 & m0 & m1 & t2 & [= <- <- <-] & [= <- <- <-] & -> & B0 & B1 & B2 & B3).
    pose proof (Z.mod_pos_bound k 4 ltac:(lia)).
    assert (Hk4 : (k mod 4 = 0 ∨ k mod 4 = 1 ∨ k mod 4 = 2 ∨ k mod 4 = 3)%Z) by lia.
    assert (i' = i2' ∧ j' = j2') as [-> ->]; [|done].
    destruct Hk4 as [E|[E|[E|E]]];
      [specialize (A0 E); specialize (B0 E)|specialize (A1 E); specialize (B1 E)|specialize (A2 E); specialize (B2 E)|specialize (A3 E); specialize (B3 E)]; lia.
  - intros H1 H2. apply (inside_eq s); [done..|]. intros a d Hd.
    destruct (inside_some s jx a d Hj Hd) as (j & E1 & Hjd). destruct (inside_some s kx a d Hk Hd) as (j' & E2 & Hjd').
    destruct (H1 a j d E1 Hd) as [c Hc]. destruct (H2 a j' d E2 Hd) as [c' Hc']. rewrite Hc in Hc'. injection Hc' as Hc'.
    rewrite E1, E2. f_equal. apply (cong_unique j j' d (Z.of_nat c) (Z.of_nat c') 0 (Z.of_nat (j + c * d))); [done|done|lia|lia].
  - intros (a & j & c & Ha & Hs & Hja & Hia & Hc) (a' & j' & c' & Ha' & Hs' & Hja' & Hia' & Hc').
    rewrite (axis_is_unique _ _ _ _ Ha' Ha) in *. apply (same_but_eq a ix); [done..|]. rewrite Hja, Hja'. f_equal.
    rewrite Hia in Hia'. injection Hia' as E. 
    apply (f_equal (λ x, x / m)) in E. rewrite !Nat.div_add_l, !Nat.div_small in E by lia. lia.
  - intros (c & -> & Hc) (c' & E & Hc'). injection E as E. apply (inside_ravel_eq s); [done..|].
    apply (f_equal (λ x, x / m)) in E. rewrite !Nat.div_add_l, !Nat.div_small in E by lia. lia.
  - destruct s as [|q [|q2 [|]]].
    + intros (i & -> & ->) (i' & [= <-] & ->). done.
    + intros (j & -> & ->) (j' & -> & [= E1 E2]). f_equal. lia.
    + intros (i & -> & ->) (i' & [= <-] & ->). done.
    + intros (i & -> & ->) (i' & [= <-] & ->). done.
  - intros -> [= E1 E2]. apply (inside_ravel_eq s); [done..|]. lia.
Qed.
Lemma reorder_rows r a b : reorder 0%R r a = Some b → ¬ fills r (sh a) →
  ∃ J, reorder_jac r a = Some J ∧ fits J (asize b) (asize a) ∧ diff1 (λ x, default x (reorder 0%R r x)) J a ∧
    ∀ ix jx c, inside (sh b) ix → inside (sh a) jx → comes_from r (sh a) ix jx →
      entry J (ravel (sh b) ix) c = if decide (c = ravel (sh a) jx) then 1%R else 0%R.
Proof.
  intros Hb Hf. destruct (reorder_jacobian r a b Hb Hf) as (J & HJ & Hfit & Hd & Hrow).
  exists J. split_and!; [done..|]. intros ix jx c Hix Hjx Hc. destruct (Hrow ix Hix) as (kx & Hkx & Hc' & ->).
  apply fmap_Some in Hb as (p & Hp & ->). by rewrite (comes_from_unique r (sh a) p ix jx kx).
Qed.

(* ------------------------------------------------------------------ *)
(** A function has one Jacobian. *)
Lemma line_moves (a : arr R) (v : nat → R) : (∀ i, asize a ≤ i → v i = 0%R) →
  amoves (λ t, Arr_ (sh a) (λ i, dat a i + t * v i)%R) v.
Proof.
  intros Hv. apply (amoves_intro _ _ (sh a)); [by apply near_always| |done]. intros i Hi. simpl.
  apply (deriv_ext (λ t, dat a i + v i * t)%R); [intros t; ring|].
  apply (lim_eq _ _ (0 + v i * 1)%R); [ring|]. apply (derivable_pt_lim_plus (λ _, dat a i) (λ t, v i * t)%R); [apply derivable_pt_lim_const|].
  apply (derivable_pt_lim_scal (λ t, t)). apply derivable_pt_lim_id.
Qed.
Lemma line_start (a : arr R) (v : nat → R) : Arr_ (sh a) (λ i, dat a i + 0 * v i)%R = a.
Proof.
  destruct a as [s d]. simpl. f_equal. apply FunctionalExtensionality.functional_extensionality. intros i. ring.
Qed.
Lemma diff1_unique f J K a v i : diff1 f J a → diff1 f K a → (∀ i, asize a ≤ i → v i = 0%R) → mact J v i = mact K v i.
Proof.
  intros HJ HK Hv. pose proof (HJ _ v (line_start a v) (line_moves a v Hv)) as [_ H1].
  pose proof (HK _ v (line_start a v) (line_moves a v Hv)) as [_ H2]. exact (deriv_unique _ _ _ (H1 i) (H2 i)).
Qed.
Definition unit_ (j : nat) : nat → R := λ i, if decide (i = j) then 1%R else 0%R.
Lemma mact_unit J j i : mact J (unit_ j) i = entry J i j.
Proof.
  rewrite mact_alt, entry_alt. apply rsum_ext. intros [[r c] x] _. simpl. unfold unit_.
  destruct (decide (r = i)) as [->|], (decide (c = j)) as [->|].
  - rewrite decide_True by done. ring.
  - rewrite decide_False by naive_solver. ring.
  - by rewrite decide_False by naive_solver.
  - by rewrite decide_False by naive_solver.
Qed.
Lemma diff1_entry f J K a i j : diff1 f J a → diff1 f K a → j < asize a → entry J i j = entry K i j.
Proof.
  intros HJ HK Hj. rewrite <- !mact_unit. apply (diff1_unique f J K a); [done..|].
  intros k Hk. unfold unit_. apply decide_False. lia.
Qed.

(* ------------------------------------------------------------------ *)
(** Memoised Jacobians. *)
Definition keyed_by_shape (r : rop) : Prop := match r with Roll _ _ | Repeat _ _ => False | _ => True end.
Lemma reorder_jac_shape r a b : sh a = sh b → reorder_jac r a = reorder_jac r b.
Proof.
  intros E. unfold reorder_jac, reorder, asize. rewrite E. by destruct (plan_of r (sh b)).
Qed.
Definition lookup_ok (st : lookup_) : Prop :=
  ∀ k J, (k, J) ∈ st → match k.1 with Some s => ∀ a, sh a = s → reorder_jac k.2 a = Some J | None => True end.
Lemma find_id_in k st J : find_id k st = Some J → (k, J) ∈ st.
Proof.
  unfold find_id. destruct (list_find _ st) as [[i [k' J']]|] eqn:E; [|done]. simpl. intros [= <-].
  apply list_find_Some in E as (Hi & Hk & _). simpl in Hk. subst k'. by eapply elem_of_list_lookup_2.
Qed.
Lemma memo_ok r a st : lookup_ok st → lookup_ok (reorder_jac_memo r a st).1.
Proof.
  intros H. unfold reorder_jac_memo. destruct (find_id _ st); [done|]. destruct (reorder_jac r a) as [J|] eqn:E; [|done].
  intros k J' [Hin|Hin]%elem_of_cons; [|by apply H]. injection Hin as -> ->.
  destruct r; simpl; try done; intros b Hb; by rewrite (reorder_jac_shape _ b a).
Qed.
Definition memo_after (l : list (rop * arr R)) : lookup_ := foldl (λ st c, (reorder_jac_memo c.1 c.2 st).1) [] l.
Lemma memo_after_ok l : lookup_ok (memo_after l).
Proof.
  unfold memo_after. assert (H0 : lookup_ok []) by (intros k J H; by apply elem_of_nil in H).
  revert H0. generalize ([] : lookup_). induction l as [|c l IH]; intros st Hst; simpl; [done|]. apply IH. by apply memo_ok.
Qed.
Lemma memo_right l r a : keyed_by_shape r → (reorder_jac_memo r a (memo_after l)).2 = reorder_jac r a.
Proof.
  intros Hr. pose proof (memo_after_ok l) as H. unfold reorder_jac_memo.
  destruct (find_id _ _) as [J|] eqn:E.
  - apply find_id_in in E. specialize (H _ _ E). simpl. symmetry. destruct r; try done; simpl in H; by apply H.
  - by destruct (reorder_jac r a).
Qed.
(** Roll and Repeat: as long as the shape stays. *)
Definition one_shape (s : shp) (l : list (rop * arr R)) : Prop := ∀ r a, (r, a) ∈ l → sh a = s.
Lemma memo_right_one l r a : one_shape (sh a) l → (reorder_jac_memo r a (memo_after l)).2 = reorder_jac r a.
Proof.
  intros Hl.
  assert (H : ∀ k J, (k, J) ∈ memo_after l → ∀ b, sh b = sh a → reorder_jac k.2 b = Some J).
  { unfold memo_after. revert Hl.
    assert (H0 : ∀ k J, (k, J) ∈ ([] : lookup_) → ∀ b, sh b = sh a → reorder_jac k.2 b = Some J) by (intros k J H; by apply elem_of_nil in H).
    revert H0. generalize ([] : lookup_). induction l as [|[r' a'] l IH]; intros st Hst Hl; simpl; [done|].
    apply IH; [|intros r0 a0 Hin; apply (Hl r0 a0); by right]. simpl.
    unfold reorder_jac_memo. destruct (find_id _ st); [done|]. destruct (reorder_jac r' a') as [J|] eqn:E; [|done].
    intros k J' [Hin|Hin]%elem_of_cons; [|by apply Hst]. injection Hin as -> ->. intros b Hb.
    assert (sh a' = sh a) as Ha by (apply (Hl r' a'); by left).
    replace ((reorder_id r' (sh a')).2) with r' by (by destruct r'). rewrite (reorder_jac_shape _ b a') by congruence. done. }
  unfold reorder_jac_memo. destruct (find_id _ _) as [J|] eqn:E.
  - apply find_id_in in E. simpl. symmetry. replace r with ((reorder_id r (sh a)).2) at 1 by (by destruct r). by eapply H.
  - by destruct (reorder_jac r a).
Qed.
(** roll of a 2 x 3 array along axis 1, which then becomes 3 x 2 *)
Definition roll1 : rop := Roll 1 (Some 1%Z).
Definition arr23 : arr R := of_list 0%R [2; 3] [1; 2; 3; 4; 5; 6]%R.
Definition arr32 : arr R := of_list 0%R [3; 2] [1; 2; 3; 4; 5; 6]%R.
Lemma roll1_row a b n J : sh a = b → reorder_jac roll1 a = Some J → (b = [2; 3] ∧ n = 2) ∨ (b = [3; 2] ∧ n = 1) →
  ∀ c, entry J 0 c = if decide (c = n) then 1%R else 0%R.
Proof.
  intros Hs HJ Hc c. destruct (reorder 0%R roll1 a) as [x|] eqn:Hx.
  2: { unfold reorder in Hx. rewrite Hs in Hx. by destruct Hc as [[-> _]|[-> _]]. }
  destruct (reorder_rows roll1 a x Hx) as (K & HK & _ & _ & Hrow); [by intros []|].
  rewrite HJ in HK. injection HK as <-.
  assert (HxS : sh x = b) by (apply fmap_Some in Hx as (p & Hp & ->); rewrite Hs in Hp; by destruct Hc as [[-> _]|[-> _]]; cbv in Hp; injection Hp as <-).
  specialize (Hrow [0; 0] [0; n] c). rewrite HxS, Hs in Hrow.
  destruct Hc as [[-> ->]|[-> ->]]; simpl in Hrow; apply Hrow; try (repeat constructor; lia).
  - exists 1, 0, 2, 3, (-1)%Z. split_and!; [split; [simpl; lia|lia]| |done..]. split; [done|]. intros [|[|]]; done.
  - exists 1, 0, 1, 2, (-1)%Z. split_and!; [split; [simpl; lia|lia]| |done..]. split; [done|]. intros [|[|]]; done.
Qed.
Lemma roll_stale : ∃ J, (reorder_jac_memo roll1 arr32 (memo_after [(roll1, arr23)])).2 = Some J ∧
  fits J (asize arr32) (asize arr32) ∧ ¬ diff1 (λ x, default x (reorder 0%R roll1 x)) J arr32.
Proof.
  destruct (reorder_jac roll1 arr23) as [J|] eqn:HJ; [|done]. exists J. split_and!.
  - unfold memo_after. cbn [foldl fst snd]. unfold reorder_jac_memo at 2. cbn [find_id list_find]. 
    rewrite HJ. done.
  - destruct (reorder 0%R roll1 arr23) as [x|] eqn:Hx; [|done].
    destruct (reorder_rows roll1 arr23 x Hx) as (K & HK & Hfit & _); [by intros []|].
    rewrite HJ in HK. injection HK as <-. apply fmap_Some in Hx as (p & Hp & ->). cbv in Hp. injection Hp as <-. done.
  - intros H. destruct (reorder 0%R roll1 arr32) as [b|] eqn:Hb; [|done].
    destruct (reorder_rows roll1 arr32 b Hb) as (K & HK & _ & HKd & _); [by intros []|].
    pose proof (diff1_entry _ _ _ _ 0 1 H HKd) as E. specialize (E ltac:(simpl; unfold asize; simpl; lia)).
    rewrite (roll1_row arr23 [2; 3] 2 J eq_refl HJ ltac:(auto)), (roll1_row arr32 [3; 2] 1 K eq_refl HK ltac:(auto)) in E.
    rewrite decide_False, decide_True in E by done. lra.
Qed.
(** repeat(a, 2), whose operand grows *)
Lemma repeat_stale : ∃ J, (reorder_jac_memo (Repeat 2 None) arr23 (memo_after [(Repeat 2 None, Arr_ [1] (dat arr23))])).2 = Some J ∧ nrow J = 2.
Proof. eexists. split; reflexivity. Qed.

(** The matrix a Select keeps. *)
Definition s_inv (st : sstate) : Prop := ∀ m, s_kept st = Some m →
  (s_which st = [] → m = select_jac (s_idxs st) (s_size st)) ∧
  (true ∉ s_which st → m = select_jac (s_idxs st) (ncol m)).
Lemma s_assign_inv e st : s_inv st → s_inv (s_assign e st).
Proof.
  intros H m Hm. destruct e; simpl in *; (split; [done|]); destruct (H m Hm) as [_ H2];
  rewrite not_elem_of_cons; intros [Hne Hn]; try done; by apply H2.
Qed.
Lemma s_request_right st : s_inv st → (s_request st).2 = select_jac (s_idxs st) (s_size st) ∧ s_inv (s_request st).1.
Proof.
  intros H.
  assert (Hm : (s_request st).2 = select_jac (s_idxs st) (s_size st)).
  { unfold s_request. simpl. destruct (s_kept st) as [m|] eqn:Em; [|done]. destruct (H m Em) as [H1 H2].
    destruct (s_which st) as [|w l] eqn:Ew; [by apply H1|].
    destruct (decide _) as [Hd|Hd]; [done|]. simpl.
    assert (true ∉ w :: l) as Hn by tauto. rewrite (H2 Hn). f_equal.
    destruct (decide (s_size st = ncol m)); [done|tauto]. }
  split; [done|]. intros m [= E]. split; [|].
  - intros _. rewrite <- E. exact Hm.
  - intros _. assert (Em : m = select_jac (s_idxs st) (s_size st)) by (rewrite <- E; exact Hm). by rewrite Em.
Qed.
Definition s_run (l : list (option sevent)) (st : sstate) : sstate :=
  foldl (λ st e, match e with Some e => s_assign e st | None => (s_request st).1 end) st l.
Lemma s_run_inv l st : s_inv st → s_inv (s_run l st).
Proof.
  revert st. induction l as [|e l IH]; intros st H; [done|]. simpl. apply IH.
  destruct e; [by apply s_assign_inv|by apply s_request_right].
Qed.
Lemma select_cache_right l idxs n w : let st := s_run l (SState idxs n w None) in
  (s_request st).2 = select_jac (s_idxs st) (s_size st).
Proof.
  intros st. destruct (s_request_right st) as [H _]; [|exact H]. unfold st. apply s_run_inv. intros m Hm. done.
Qed.

(* ------------------------------------------------------------------ *)
(** Sorting. *)
Lemma sorted_by_lookup {A} (Rl : A → A → Prop) (l : list A) :
  (∀ i x y, l !! i = Some x → l !! S i = Some y → Rl x y) → Sorted Rl l.
Proof.
  induction l as [|x l IH]; intros H; [constructor|]. constructor.
  - apply IH. intros i y z Hy Hz. by apply (H (S i)).
  - destruct l as [|y l]; constructor. by apply (H 0).
Qed.
Lemma merge_sort_id {A} (Rl : A → A → Prop) `{!RelDecision Rl, !Total Rl, !Transitive Rl, !AntiSymm eq Rl} (l : list A) :
  Sorted Rl l → merge_sort Rl l = l.
Proof.
  intros H. apply (Sorted_unique Rl); [by apply Sorted_merge_sort|done|apply merge_sort_Permutation].
Qed.
Global Instance Rle_total : Total Rle. Proof. intros x y. destruct (Rle_dec x y); [by left|right; lra]. Qed.
Global Instance Rle_trans_ : Transitive Rle. Proof. intros x y z. lra. Qed.
Global Instance Rle_anti : AntiSymm eq Rle. Proof. intros x y. lra. Qed.

Definition lastdim (s : shp) : nat := default 0 (last s).
Lemma lastdim_size s n : last s = Some n → ∃ m, size s = m * n.
Proof.
  intros H. apply last_Some in H as [s' ->]. exists (size s'). rewrite size_app. simpl. lia.
Qed.
Lemma npsort_sorted {T} (z : T) (Rl : T → T → Prop) `{!RelDecision Rl, !Total Rl, !Transitive Rl, !AntiSymm eq Rl} (a : arr T) n :
  last (sh a) = Some n → (∀ i, i < asize a → S i mod n ≠ 0 → Rl (dat a i) (dat a (S i))) →
  ∀ i, i < asize a → dat (npsort z Rl a) i = dat a i.
Proof.
  intros Hn H i Hi. unfold npsort. rewrite Hn. simpl.
  destruct (lastdim_size _ _ Hn) as [m Hm]. unfold asize in *. rewrite Hm in *.
  assert (n ≠ 0) by lia. pose proof (Nat.div_mod i n ltac:(lia)) as Hdm. pose proof (Nat.mod_upper_bound i n ltac:(lia)).
  assert (Hq : i / n < m) by (apply Nat.div_lt_upper_bound; lia).
  rewrite (merge_sort_id Rl).
  - rewrite nth_lookup, list_lookup_fmap, lookup_seq_lt by done. simpl. f_equal. lia.
  - apply sorted_by_lookup. intros k x y. rewrite !list_lookup_fmap.
    intros Hx Hy. apply fmap_Some in Hx as (j & Hj & ->). apply fmap_Some in Hy as (j' & Hj' & ->).
    apply lookup_seq in Hj as [-> Hk]. apply lookup_seq in Hj' as [-> Hk'].
    replace (i / n * n + (0 + S k)) with (S (i / n * n + (0 + k))) by lia.
    assert (i / n * n + n ≤ m * n) by nia.
    apply H; [lia|]. replace (S (i / n * n + (0 + k))) with (S k + i / n * n) by lia. rewrite Nat.mod_add by done.
    rewrite Nat.mod_small by lia. done.
Qed.
Lemma le_total_ : Total le. Proof. intros x y. lia. Qed.
Lemma sort_positions s n i : last s = Some n → i < size s → dat (npsort 0 le (arange s)) i = i.
Proof. intros Hn Hi. apply (npsort_sorted 0 le (arange s) n Hn); [|done]. intros k _ _. simpl. lia. Qed.

(** The Jacobian of sort is the identity, whatever the array. *)
Lemma sort_jac_rows a n : last (sh a) = Some n → rows_are (sort_jac a) (asize a) (asize a) (λ i, i) (λ _, 1%R).
Proof.
  intros Hn. unfold sort_jac. apply position_rows; [done|]. intros i Hi. split; [by eapply sort_positions|done].
Qed.
Lemma sort_jac_identity a n i j : last (sh a) = Some n → i < asize a → entry (sort_jac a) i j = if decide (j = i) then 1%R else 0%R.
Proof. intros Hn Hi. by rewrite (rows_entry_full _ _ _ _ _ _ _ (sort_jac_rows a n Hn) Hi). Qed.

(** Right where the rows increase. *)
Lemma sort_right a n : last (sh a) = Some n → rows_increase a →
  fits (sort_jac a) (asize a) (asize a) ∧ diff1 (npsort 0%R Rle) (sort_jac a) a.
Proof.
  intros Hn Hinc. pose proof (sort_jac_rows a n Hn) as Hrows. split; [apply Hrows|].
  intros y v Hy Hm. pose proof (amoves_shape _ _ Hm) as Hs. rewrite Hy in Hs.
  assert (Hnear : near (λ t, ∀ i, i ∈ seq 0 (asize a) → S i mod n ≠ 0 → (dat (y t) i <= dat (y t) (S i))%R)).
  { apply near_list. intros i Hi%elem_of_seq. destruct (decide (S i mod n = 0)) as [E|E].
    { apply near_always. intros t Ht. done. }
    assert (Hlt : i < asize a) by lia. pose proof (Hinc n i Hn Hlt E) as Hgap.
    assert (HS : S i < asize a).
    { destruct (lastdim_size _ _ Hn) as [q Hq]. unfold asize in *. destruct (decide (S i < size (sh a))); [done|]. exfalso. apply E.
      replace (S i) with (size (sh a)) by lia. rewrite Hq. apply Nat.mod_mul. intros ->. simpl in Hq. lia. }
    pose proof (deriv_cont_pos (λ t, dat (y t) (S i) - dat (y t) i)%R (v (S i) - v i)) as Hpos.
    eapply near_mono; [|apply Hpos].
    - intros t Ht _. simpl in Ht. lra.
    - rewrite Hy. lra.
    - apply derivable_pt_lim_minus; apply (amoves_dat y v _ Hm); by rewrite Hy. }
  apply (amoves_intro _ _ (sh a)).
  - exact Hs.
  - intros i Hi. rewrite (rows_mact _ _ _ _ _ _ _ Hrows), decide_True by done. rewrite Rmult_1_l.
    eapply deriv_near; [|apply (amoves_dat y v i Hm); by rewrite Hy].
    eapply near_mono; [|exact (near_and _ _ Hs Hnear)]. intros t [Ht Hle]. simpl in Ht. symmetry.
    apply (npsort_sorted 0%R Rle (y t) n).
    + by rewrite Ht.
    + intros k Hk Hmod. apply Hle; [|done]. apply elem_of_seq. unfold asize in *. rewrite Ht in Hk. lia.
    + unfold asize. by rewrite Ht.
  - intros i Hi. rewrite (rows_mact _ _ _ _ _ _ _ Hrows), decide_False; [done|]. unfold asize. lia.
Qed.

(** Wrong at (2, 1). *)
Definition desc : arr R := of_list 0%R [2] [2; 1]%R.
Lemma sort_wrong : ¬ diff1 (npsort 0%R Rle) (sort_jac desc) desc.
Proof.
  intros H. assert (Hv : ∀ i, asize desc ≤ i → unit_ 0 i = 0%R) by (intros i Hi; unfold unit_; apply decide_False; unfold asize in Hi; simpl in Hi; lia).
  destruct (H _ (unit_ 0) (line_start desc (unit_ 0)) (line_moves desc (unit_ 0) Hv)) as [_ Hd].
  specialize (Hd 0). rewrite (rows_mact _ _ _ _ _ _ _ (sort_jac_rows desc 2 eq_refl)) in Hd.
  rewrite decide_True in Hd by (unfold asize; simpl; lia).
  assert (Hc : derivable_pt_lim (λ t, elem (npsort 0%R Rle (Arr_ (sh desc) (λ i, dat desc i + t * unit_ 0 i)%R)) 0) 0%R 0%R).
  { eapply deriv_near; [|apply (deriv_const 1%R)]. exists 1%R. split; [lra|]. intros t Ht.
    rewrite elem_in by (unfold asize; simpl; lia). unfold npsort. simpl sh. cbn [last default from_option]. cbn [dat].
    assert (E : merge_sort Rle ((λ j, (nth (0 / 2 * 2 + j) [2; 1] 0 + t * unit_ 0 (0 / 2 * 2 + j))%R) <$> seq 0 2) = [1; 2 + t]%R).
    { apply (Sorted_unique Rle); [apply (Sorted_merge_sort Rle)| |].
      - constructor; [constructor; constructor|]. constructor. apply Rabs_def2 in Ht. lra.
      - rewrite merge_sort_Permutation. simpl. unfold unit_. simpl.
        replace (2 + t * 1)%R with (2 + t)%R by ring. replace (1 + t * 0)%R with 1%R by ring. constructor. }
    simpl in E |- *. rewrite E. done. }
  pose proof (deriv_unique _ _ _ Hd Hc) as E. unfold unit_ in E. simpl in E. lra.
Qed.
