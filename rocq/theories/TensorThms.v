(** tensordot contracts the axes it is asked to. *)
From Coq Require Import Reals Lra Sorted.
From stdpp Require Import list list_numbers numbers gmap.
From Verif Require Import ArrModel Curve ArrThms ElemModel ElemThms ReorderModel ReorderSpec ReorderThms ReorderCache IndexThms RedThms DotModel DotSpec DotThms.

Lemma notin_in n ax k : k ∈ notin n ax ↔ k < n ∧ k ∉ ax.
Proof. unfold notin. rewrite elem_of_list_filter, elem_of_seq. naive_solver lia. Qed.
Lemma notin_nodup n ax : NoDup (notin n ax).
Proof. apply NoDup_filter, NoDup_seq_. Qed.
Lemma seq_sorted i n : StronglySorted lt (seq i n).
Proof.
  revert i. induction n as [|n IH]; intros i; [constructor|]. change (seq i (S n)) with (i :: seq (S i) n). constructor; [done|].
  apply list.Forall_forall. intros k [Hk _]%elem_of_seq. lia.
Qed.
Lemma filter_sorted {A} (R : A → A → Prop) (P : A → Prop) `{∀ x, Decision (P x)} l : StronglySorted R l → StronglySorted R (filter P l).
Proof.
  induction 1 as [|x l Hl IH Hx]; [constructor|]. rewrite filter_cons. destruct (decide (P x)); [|done]. constructor; [done|].
  apply list.Forall_forall. intros y [_ Hy]%elem_of_list_filter. rewrite list.Forall_forall in Hx. by apply Hx.
Qed.
Lemma notin_sorted n ax : StronglySorted lt (notin n ax).
Proof. apply filter_sorted, seq_sorted. Qed.
Lemma dims_at_lookup s ax i k : ax !! i = Some k → k < length s → dims_at s ax !! i = s !! k.
Proof.
  intros Hi Hk. unfold dims_at. rewrite list_lookup_fmap, Hi. simpl. symmetry. destruct (lookup_lt_is_Some_2 s k Hk) as [d Hd]. by rewrite nth_lookup, Hd.
Qed.
Lemma dims_at_made s ax : (∀ k, k ∈ ax → k < length s) → made_of ax s (dims_at s (notin (length s) ax)) (dims_at s ax).
Proof.
  intros Hlt. split.
  - intros i k Hi. symmetry. apply dims_at_lookup; [done|]. apply Hlt. by eapply elem_of_list_lookup_2.
  - exists (notin (length s) ax). split_and!; [intros k; apply notin_in|apply notin_sorted|unfold dims_at; by rewrite fmap_length|].
    intros i k Hi. symmetry. apply dims_at_lookup; [done|]. apply (notin_in (length s) ax k). by eapply elem_of_list_lookup_2.
Qed.
(** axes of a transposition *)
Definition whole (n : nat) (l : list nat) : Prop := NoDup l ∧ length l = n ∧ ∀ a, a ∈ l → a < n.
Lemma notin_perm n ax : NoDup ax → (∀ k, k ∈ ax → k < n) → notin n ax ++ ax ≡ₚ seq 0 n.
Proof.
  intros Hnd Hlt. apply NoDup_Permutation.
  - apply NoDup_app. split_and!; [apply notin_nodup| |done]. intros k Hk. by apply notin_in in Hk as [_ ?].
  - apply NoDup_seq_.
  - intros k. rewrite elem_of_app, notin_in, elem_of_seq. split.
    + intros [[? _]|H]; [lia|]. specialize (Hlt k H). lia.
    + intros [_ H]. destruct (decide (k ∈ ax)); [by right|left; split; [lia|done]].
Qed.
Lemma perm_whole n l : l ≡ₚ seq 0 n → whole n l.
Proof.
  intros H. split_and!; [rewrite H; apply NoDup_seq_|by rewrite H, seq_length|]. intros a Ha. rewrite H in Ha. apply elem_of_seq in Ha. lia.
Qed.
Lemma whole_back n ax na : whole n (na ++ ax) → NoDup ax ∧ (∀ k, k ∈ ax → k < n).
Proof. intros (H1 & _ & H3). split; [by apply NoDup_app in H1 as (_ & _ & ?)|]. intros k Hk. apply H3. apply elem_of_app. by right. Qed.

Lemma naxis_of_nat n k : naxis n (Z.of_nat k) = if decide (k < n) then Some k else None.
Proof.
  unfold naxis. destruct (decide (k < n)).
  - rewrite decide_True by lia. rewrite Z.mod_small by lia. by rewrite Nat2Z.id.
  - by rewrite decide_False by lia.
Qed.
Lemma mapM_of_nat n l : (∀ k, k ∈ l → k < n) → mapM (naxis n) (Z.of_nat <$> l) = Some l.
Proof.
  induction l as [|k l IH]; intros H; [done|]. rewrite fmap_cons. cbn [mapM]. rewrite naxis_of_nat, decide_True by set_solver.
  cbn [mbind option_bind]. rewrite IH by set_solver. done.
Qed.
Lemma mapM_of_nat_inv n l l' : mapM (naxis n) (Z.of_nat <$> l) = Some l' → l' = l ∧ ∀ k, k ∈ l → k < n.
Proof.
  revert l'. induction l as [|k l IH]; intros l'; [by intros [= <-]; split; [|set_solver]|]. rewrite fmap_cons. cbn [mapM].
  rewrite naxis_of_nat. destruct (decide (k < n)); [|done]. cbn [mbind option_bind]. intros (l'' & Hl & E)%bind_Some. injection E as <-.
  destruct (IH l'' Hl) as [-> ?]. split; [done|set_solver].
Qed.
Lemma transposed a l a1 : reorder 0%R (Transpose (Some (Z.of_nat <$> l))) a = Some a1 → whole (length (sh a)) l ∧ a1 = moved 0%R (permute_axes (sh a) l) a.
Proof.
  unfold reorder. cbn [plan_of]. intros (p & H & ->)%fmap_Some. apply bind_Some in H as (ax & Hax & H).
  destruct (mapM_of_nat_inv _ _ _ Hax) as [-> Hlt]. destruct (decide _) as [[Hl Hnd]|]; [|done]. injection H as <-. done.
Qed.
Lemma transposed_some (a : arr R) l : whole (length (sh a)) l → reorder 0%R (Transpose (Some (Z.of_nat <$> l))) a = Some (moved 0%R (permute_axes (sh a) l) a).
Proof.
  intros (H1 & H2 & H3). unfold reorder. cbn [plan_of]. rewrite mapM_of_nat by done. cbn [mbind option_bind]. by rewrite decide_True.
Qed.
(** [a] with the axes [l1 ++ l2] in this order, as a matrix *)
Definition mix (n : nat) (l : list nat) (ix : list nat) : list nat := (λ k, nth (pos k l) ix 0) <$> seq 0 n.
Lemma moved_mix (a : arr R) l ix : whole (length (sh a)) l → inside (dims_at (sh a) l) ix →
  at_ (moved 0%R (permute_axes (sh a) l) a) ix = at_ a (mix (length (sh a)) l ix) ∧ inside (sh a) (mix (length (sh a)) l ix) ∧
  ∀ i k, l !! i = Some k → mix (length (sh a)) l ix !! k = ix !! i.
Proof.
  intros (H1 & H2 & H3) Hin. destruct (permute_axes_spec (sh a) l ix H1 H2 H3 Hin) as (_ & jx & Hjx & Hi & Hm).
  rewrite moved_at by done. rewrite Hjx. assert (E : jx = mix (length (sh a)) l ix) by (by injection Hjx as <-).
  subst jx. split_and!; [done|done|]. intros i k Hk. symmetry. by apply Hm.
Qed.
Lemma mix_length n l ix : length (mix n l ix) = n.
Proof. unfold mix. by rewrite fmap_length, seq_length. Qed.
Lemma fmap_same (f : nat → nat) (l : list nat) : (∀ d, f d = d) → f <$> l = l.
Proof. intros H. induction l as [|d l IH]; [done|]. by rewrite fmap_cons, H, IH. Qed.
Lemma fill_nats n (s : shp) : size s = n → fill_shape n (Z.of_nat <$> s) = Some s.
Proof.
  intros Hs. unfold fill_shape.
  assert (E : (λ d, if decide (d = -1)%Z then n / size (Z.to_nat <$> filter (λ d, d ≠ -1)%Z (Z.of_nat <$> s)) else Z.to_nat d) <$> (Z.of_nat <$> s) = s).
  { rewrite <- list_fmap_compose. apply fmap_same. intros d. unfold compose. rewrite decide_False by lia. apply Nat2Z.id. }
  rewrite E.
  assert (F : filter (λ d, d = -1)%Z (Z.of_nat <$> s) = []).
  { clear. induction s as [|d s IH]; [done|]. rewrite fmap_cons, filter_cons_False by lia. done. }
  rewrite F. rewrite decide_True; [done|]. split_and!; [simpl; lia| |done|by left].
  apply list.Forall_forall. intros d (k & -> & _)%elem_of_list_fmap. lia.
Qed.
Lemma fill_nats_inv n (s s' : shp) : fill_shape n (Z.of_nat <$> s) = Some s' → s' = s.
Proof.
  intros H. pose proof (fill_shape_size _ _ _ H) as Hs'. unfold fill_shape in H. destruct (decide _); [|done]. injection H as <-.
  rewrite <- list_fmap_compose. apply fmap_same. intros d. unfold compose. rewrite decide_False by lia. apply Nat2Z.id.
Qed.
Lemma fill_zero n ns s : fill_shape n ns = Some s → (-1)%Z ∈ ns → (0%Z ∈ ns → False).
Proof.
  unfold fill_shape. destruct (decide _) as [(_ & _ & _ & H)|]; [|done]. intros _ H1 H0. destruct H as [H|H].
  - assert (Hin : (-1)%Z ∈ filter (λ d, d = -1)%Z ns) by (by apply elem_of_list_filter). destruct (filter _ ns); [by apply elem_of_nil in Hin|done].
  - apply H. assert (Hin : 0 ∈ Z.to_nat <$> filter (λ d, d ≠ -1)%Z ns).
    { apply elem_of_list_fmap. exists 0%Z. split; [done|]. by apply elem_of_list_filter. }
    revert Hin. generalize (Z.to_nat <$> filter (λ d, d ≠ -1)%Z ns). clear. intros l. induction l as [|x l IH]; [by intros ?%elem_of_nil|].
    intros [<-|H]%elem_of_cons; [done|]. cbn [size foldr]. change (foldr Nat.mul 1 l) with (size l). rewrite IH by done. lia.
Qed.
Lemma size_perm s t : s ≡ₚ t → size s = size t.
Proof.
  unfold size. induction 1 as [|x l l' _ IH|x y l|l l' l'' _ IH1 _ IH2]; [done| | |congruence]; cbn [foldr].
  - by rewrite IH.
  - lia.
Qed.
Lemma size_zero (s : shp) : size s ≠ 0 ↔ 0 ∉ s.
Proof.
  induction s as [|d s IH]; [split; [set_solver|done]|]. cbn [size foldr]. change (foldr Nat.mul 1 s) with (size s). rewrite elem_of_cons. split.
  - intros H [E|H']; [lia|]. apply IH in H'; [done|lia].
  - intros H. assert (size s ≠ 0) by (apply IH; tauto). assert (d ≠ 0) by (intros ->; tauto). lia.
Qed.

(** What tensordot computes, and when it is defined. *)
Lemma mapM_axes n la axs : mapM (naxis n) la = Some axs ↔ Forall2 (axis_is n) la axs.
Proof.
  rewrite mapM_Some. split; intros H; (eapply Forall2_impl; [exact H|]); intros k a Ha; by apply naxis_is.
Qed.
Lemma axes_lt n la axs k : Forall2 (axis_is n) la axs → k ∈ axs → k < n.
Proof. intros H [i Hi]%elem_of_list_lookup. destruct (Forall2_lookup_r _ _ _ _ _ H Hi) as (z & _ & Hz & _). done. Qed.
Lemma dims_eq s t axa axb : (∀ k, k ∈ axa → k < length s) → (∀ k, k ∈ axb → k < length t) →
  dims_at s axa = dims_at t axb ↔ length axa = length axb ∧ ∀ i k l, axa !! i = Some k → axb !! i = Some l → s !! k = t !! l.
Proof.
  intros Ha Hb. split.
  - intros E. split; [apply (f_equal length) in E; unfold dims_at in E; by rewrite !fmap_length in E|].
    intros i k l Hk Hl. apply (f_equal (.!! i)) in E. rewrite (dims_at_lookup _ _ _ _ Hk), (dims_at_lookup _ _ _ _ Hl) in E; [done|..].
    + apply Hb. by eapply elem_of_list_lookup_2.
    + apply Ha. by eapply elem_of_list_lookup_2.
  - intros [Hl E]. apply list_eq. intros i. destruct (axa !! i) as [k|] eqn:Hk.
    + destruct (lookup_lt_is_Some_2 axb i) as [l Hl']; [rewrite <- Hl; by eapply lookup_lt_Some|].
      rewrite (dims_at_lookup _ _ _ _ Hk), (dims_at_lookup _ _ _ _ Hl'); [by eapply E|..].
      * apply Hb. by eapply elem_of_list_lookup_2.
      * apply Ha. by eapply elem_of_list_lookup_2.
    + apply lookup_ge_None in Hk. unfold dims_at. rewrite !lookup_ge_None_2; [done|rewrite fmap_length; lia|by rewrite fmap_length].
Qed.
Lemma dims_nonzero s axs : (∀ k, k ∈ axs → k < length s) → size (dims_at s axs) ≠ 0 ↔ ∀ k, k ∈ axs → s !! k ≠ Some 0.
Proof.
  intros Hlt. rewrite size_zero. unfold dims_at. rewrite elem_of_list_fmap. split.
  - intros H k Hk E. apply H. exists k. split; [|done]. by rewrite nth_lookup, E.
  - intros H (k & E & Hk). destruct (lookup_lt_is_Some_2 s k (Hlt k Hk)) as [d Hd]. rewrite nth_lookup, Hd in E. simpl in E. subst d. by apply (H k).
Qed.
Lemma nth_all (s : list nat) : (λ k, nth k s 0) <$> seq 0 (length s) = s.
Proof.
  apply list_eq. intros i. rewrite list_lookup_fmap. destruct (decide (i < length s)) as [Hi|Hi].
  - rewrite lookup_seq_lt by done. simpl. destruct (lookup_lt_is_Some_2 s i Hi) as [d Hd]. by rewrite nth_lookup, Hd.
  - rewrite lookup_seq_ge by lia. symmetry. apply lookup_ge_None_2. lia.
Qed.
Lemma size_dims s l : whole (length s) l → size (dims_at s l) = size s.
Proof.
  intros (H1 & H2 & H3). apply size_perm. unfold dims_at.
  assert (Hp : l ≡ₚ seq 0 (length s)).
  { apply NoDup_Permutation; [done|apply NoDup_seq_|]. intros k. rewrite elem_of_seq. split; [intros Hk; specialize (H3 k Hk); lia|].
    intros [_ Hk]. by apply (all_axes (length s) l H1 H2 H3). }
  rewrite Hp. by rewrite nth_all.
Qed.
Lemma dims_app s l1 l2 : dims_at s (l1 ++ l2) = dims_at s l1 ++ dims_at s l2.
Proof. unfold dims_at. apply fmap_app. Qed.
(** the steps after the tests *)
Lemma tensor_core (a b : arr R) axa axb : NoDup axa → NoDup axb → (∀ k, k ∈ axa → k < length (sh a)) → (∀ k, k ∈ axb → k < length (sh b)) →
  let na := notin (length (sh a)) axa in let nb := notin (length (sh b)) axb in
  let n := size (dims_at (sh a) axa) in dims_at (sh a) axa = dims_at (sh b) axb → n ≠ 0 →
  let a1 := moved 0%R (permute_axes (sh a) (na ++ axa)) a in let b1 := moved 0%R (permute_axes (sh b) (axb ++ nb)) b in
  let sa := dims_at (sh a) na in let sb := dims_at (sh b) nb in
  ∃ r, reshaped [(-1)%Z; Z.of_nat n] a1 = Some (Arr_ [size sa; n] (dat a1)) ∧ reshaped [Z.of_nat n; (-1)%Z] b1 = Some (Arr_ [n; size sb] (dat b1)) ∧
    np_dot (Arr_ [size sa; n] (dat a1)) (Arr_ [n; size sb] (dat b1)) = Some r ∧
    reshaped (Z.of_nat <$> (sa ++ sb)) r = Some (Arr_ (sa ++ sb) (dat r)) ∧
    is_tensordot axa axb a b (Arr_ (sa ++ sb) (dat r)).
Proof.
  intros Hna Hnb Hla Hlb na nb n Hd Hn a1 b1 sa sb.
  assert (Wa : whole (length (sh a)) (na ++ axa)) by (apply perm_whole, notin_perm; done).
  assert (Wb : whole (length (sh b)) (axb ++ nb)) by (apply perm_whole; rewrite (comm app axb); apply notin_perm; done).
  assert (Sa1 : sh a1 = sa ++ dims_at (sh a) axa) by apply dims_app.
  assert (Sb1 : sh b1 = dims_at (sh a) axa ++ sb) by (rewrite Hd; apply dims_app).
  assert (Za : asize a1 = size sa * n) by (unfold asize; by rewrite Sa1, size_app).
  assert (Zb : asize b1 = n * size sb) by (unfold asize; by rewrite Sb1, size_app).
  assert (Hsome : is_Some (np_dot (Arr_ [size sa; n] (dat a1)) (Arr_ [n; size sb] (dat b1)))).
  { apply np_dot_some. exists [size sa], n. split; [done|]. right. by exists [], (size sb). }
  destruct Hsome as [r Hr]. exists r. destruct (np_dot_inv _ _ _ Hr) as (s1 & n1 & s2 & s3 & E1 & E2 & E3 & E4).
  cbn [sh] in E1, E2. change [size sa; n] with ([size sa] ++ [n]) in E1. apply app_inj_2 in E1 as [<- E1]; [|done]. injection E1 as <-.
  assert (s2 = [] ∧ s3 = [size sb]) as [-> ->] by (cbn in E2; by injection E2 as <- <-).
  assert (Zr : asize r = size (sa ++ sb)) by (unfold asize; rewrite E3, (size_app sa sb); change (size sa * (size sb * 1) = size sa * size sb); lia).
  split_and!; [| |done| |].
  - unfold reshaped. rewrite fill_left; [|done|by exists (size sa)]. rewrite Za, Nat.div_mul by done. done.
  - unfold reshaped. rewrite fill_right; [|done|exists (size sb); lia]. rewrite Zb, Nat.mul_comm, Nat.div_mul by done. done.
  - unfold reshaped. rewrite fill_nats by done. done.
  - exists sa, sb, (dims_at (sh a) axa). split_and!; [by apply dims_at_made|rewrite Hd; by apply dims_at_made|unfold dims_at; by rewrite fmap_length| |done|].
    { rewrite Hd. unfold dims_at. by rewrite fmap_length. }
    intros ix jx Hix Hjx.
    exists (λ cx, mix (length (sh a)) (na ++ axa) (ix ++ cx)), (λ cx, mix (length (sh b)) (axb ++ nb) (cx ++ jx)). split.
    + intros cx Hcx.
      destruct (moved_mix a (na ++ axa) (ix ++ cx) Wa) as (_ & I1 & M1); [rewrite dims_app; by apply inside_app|].
      destruct (moved_mix b (axb ++ nb) (cx ++ jx) Wb) as (_ & I2 & M2); [rewrite dims_app, <- Hd; by apply inside_app|].
      assert (Lix : length ix = length na) by (rewrite (inside_len _ _ Hix); unfold sa, dims_at; by rewrite fmap_length).
      assert (Ljx : length jx = length nb) by (rewrite (inside_len _ _ Hjx); unfold sb, dims_at; by rewrite fmap_length).
      assert (Lcx : length cx = length axb) by (rewrite (inside_len _ _ Hcx), Hd; unfold dims_at; by rewrite fmap_length).
      split_and!; [done| |done|].
      * split.
        { intros i k Hk. rewrite (M1 (length na + i) k).
          - rewrite lookup_app_r by lia. f_equal. lia.
          - rewrite lookup_app_r by lia. rewrite <- Hk. f_equal. lia. }
        exists na. split_and!; [intros k; rewrite mix_length; apply notin_in|apply notin_sorted|done|].
        intros i k Hk. pose proof (lookup_lt_Some _ _ _ Hk). rewrite (M1 i k) by (by rewrite lookup_app_l). by rewrite lookup_app_l by lia.
      * split.
        { intros i k Hk. pose proof (lookup_lt_Some _ _ _ Hk). rewrite (M2 i k) by (by rewrite lookup_app_l). by rewrite lookup_app_l by lia. }
        exists nb. split_and!; [intros k; rewrite mix_length; apply notin_in|apply notin_sorted|done|].
        intros i k Hk. rewrite (M2 (length axb + i) k).
        { rewrite lookup_app_r by lia. f_equal. lia. }
        rewrite lookup_app_r by lia. rewrite <- Hk. f_equal. lia.
    + unfold at_ at 1. cbn [sh dat]. rewrite E4, ravel_app by (by apply inside_len). change (size []) with 1. rewrite Nat.div_1_r, Nat.mod_1_r.
      assert (Hp : size [size sb] = size sb) by (change (size sb * 1 = size sb); lia). rewrite Hp.
      pose proof (ravel_lt sb jx Hjx) as Hlt. destruct (div_mod_eq _ (ravel sa ix) (size sb) (ravel sb jx) Hlt eq_refl) as [-> ->].
      apply rsum_ext. intros l [_ Hl]%elem_of_seq. cbn [dat]. set (cx := unravel (dims_at (sh a) axa) l).
      assert (Hcx : inside (dims_at (sh a) axa) cx) by (by apply unravel_inside).
      assert (Rc : ravel (dims_at (sh a) axa) cx = l) by (by apply ravel_unravel).
      destruct (moved_mix a (na ++ axa) (ix ++ cx) Wa) as (V1 & _ & _); [rewrite dims_app; by apply inside_app|].
      destruct (moved_mix b (axb ++ nb) (cx ++ jx) Wb) as (V2 & _ & _); [rewrite dims_app, <- Hd; by apply inside_app|].
      fold a1 in V1. fold b1 in V2. rewrite <- V1, <- V2. unfold at_. rewrite Sa1, Sb1. rewrite !ravel_app by (by apply inside_len). rewrite Rc. f_equal.
Qed.
Lemma tensordot_right x a b : let '(la, lb) := axes_lists x in
  (is_Some (tensordot x a b) ↔ ∃ axa axb, axes_ok a b la lb axa axb) ∧
  ∀ axa axb y, axes_ok a b la lb axa axb → tensordot x a b = Some y → is_tensordot axa axb a b y.
Proof.
  destruct (axes_lists x) as [la lb] eqn:El.
  assert (A : ∀ axa axb, axes_ok a b la lb axa axb → ∃ y, tensordot x a b = Some y ∧ is_tensordot axa axb a b y).
  { intros axa axb (Ha & Hb & Na & Nb & Hl & Hdim & Hz).
    assert (La : ∀ k, k ∈ axa → k < length (sh a)) by (intros k; by apply (axes_lt _ la)).
    assert (Lb : ∀ k, k ∈ axb → k < length (sh b)) by (intros k; by apply (axes_lt _ lb)).
    assert (Hd : dims_at (sh a) axa = dims_at (sh b) axb) by (by apply dims_eq).
    assert (Hn : size (dims_at (sh a) axa) ≠ 0) by (by apply dims_nonzero).
    destruct (tensor_core a b axa axb Na Nb La Lb Hd Hn) as (r & R1 & R2 & R3 & R4 & R5).
    unfold tensordot. rewrite El. rewrite decide_True by (rewrite (Forall2_length _ _ _ Ha), (Forall2_length _ _ _ Hb); done).
    rewrite (proj2 (mapM_axes _ _ _) Ha). cbn [mbind option_bind]. rewrite (proj2 (mapM_axes _ _ _) Hb). cbn [mbind option_bind].
    rewrite decide_True by done. cbv zeta. rewrite (transposed_some a) by (apply perm_whole, notin_perm; done). cbn [mbind option_bind].
    rewrite R1. cbn [mbind option_bind]. rewrite (transposed_some b) by (apply perm_whole; rewrite (comm app axb); apply notin_perm; done). cbn [mbind option_bind].
    rewrite <- Hd, R2. cbn [mbind option_bind]. rewrite R3. cbn [mbind option_bind]. eexists. split; [exact R4|done]. }
  split.
  - split; [|intros (axa & axb & H); destruct (A axa axb H) as (y & Hy & _); by exists y].
    intros [y Hy]. unfold tensordot in Hy. rewrite El in Hy. destruct (decide (length la = length lb)) as [Hll|]; [|done].
    apply bind_Some in Hy as (axa & Ha & Hy). apply bind_Some in Hy as (axb & Hb & Hy). apply mapM_axes in Ha, Hb.
    destruct (decide _) as [Hd|]; [|done]. cbv zeta in Hy. apply bind_Some in Hy as (a1 & Ha1 & Hy). apply bind_Some in Hy as (a2 & Ha2 & Hy).
    apply bind_Some in Hy as (b1 & Hb1 & Hy). apply transposed in Ha1 as [Wa _]. apply transposed in Hb1 as [Wb _].
    destruct (whole_back _ _ _ Wa) as [Na La].
    assert (Nb : NoDup axb) by (destruct Wb as [H _]; by apply NoDup_app in H as (? & _ & _)).
    assert (Lb : ∀ k, k ∈ axb → k < length (sh b)) by (intros k; by apply (axes_lt _ lb)).
    destruct (proj1 (dims_eq _ _ _ _ La Lb) Hd) as [Hl Hdim]. exists axa, axb. unfold axes_ok. split_and!; [done..|].
    apply dims_nonzero; [done|]. intros Hz. unfold reshaped in Ha2. apply fmap_Some in Ha2 as (s & Hs & _).
    eapply fill_zero; [exact Hs|set_solver|]. rewrite Hz. set_solver.
  - intros axa axb y Hok Hy. destruct (A axa axb Hok) as (y' & Hy' & H). rewrite Hy in Hy'. by injection Hy' as <-.
Qed.
(** a number of axes: the last ones of [a] with the first ones of [b] *)
Lemma tensordot_num n (a b : arr R) axa axb : axes_ok a b (axes_lists (ANum (Z.of_nat n))).1 (axes_lists (ANum (Z.of_nat n))).2 axa axb →
  axa = seq (length (sh a) - n) n ∧ axb = seq 0 n ∧ n ≤ length (sh a) ∧ n ≤ length (sh b).
Proof.
  unfold axes_lists. cbn [fst snd]. rewrite Nat2Z.id. intros (Ha & Hb & Na & Nb & Hl & _).
  assert (Eb : axb = seq 0 n).
  { apply list_eq. intros i. pose proof (Forall2_length _ _ _ Hb) as L. rewrite fmap_length, seq_length in L. destruct (decide (i < n)).
    - destruct (Forall2_lookup_l _ _ _ i (Z.of_nat i) Hb) as (k & Hk & Hax); [rewrite list_lookup_fmap, lookup_seq_lt by done; done|].
      rewrite Hk, lookup_seq_lt by done. f_equal. destruct Hax as [? [?|?]]; lia.
    - rewrite lookup_ge_None_2 by lia. symmetry. rewrite lookup_ge_None_2; [done|]. rewrite seq_length. lia. }
  assert (Hna : n ≤ length (sh a)).
  { destruct n as [|n]; [lia|]. destruct (Forall2_lookup_l _ _ _ 0 (Z.of_nat 0 - Z.of_nat (S n))%Z Ha) as (k & Hk & [? [?|?]]); [done|lia|lia]. }
  split_and!; [|done|done|].
  - apply list_eq. intros i. pose proof (Forall2_length _ _ _ Ha) as L. rewrite fmap_length, seq_length in L. destruct (decide (i < n)).
    + destruct (Forall2_lookup_l _ _ _ i (Z.of_nat i - Z.of_nat n)%Z Ha) as (k & Hk & Hax); [rewrite list_lookup_fmap, lookup_seq_lt by done; done|].
      rewrite Hk, lookup_seq_lt by done. f_equal. destruct Hax as [? [?|?]]; lia.
    + rewrite lookup_ge_None_2 by lia. symmetry. rewrite lookup_ge_None_2; [done|]. rewrite seq_length. lia.
  - destruct n as [|n]; [lia|]. assert (Hin : n ∈ axb) by (rewrite Eb; apply elem_of_seq; lia). pose proof (axes_lt _ _ _ _ Hb Hin). lia.
Qed.
(** the multi-index made of the parts is unique *)
Lemma sorted_same (l l' : list nat) : StronglySorted lt l → StronglySorted lt l' → (∀ k, k ∈ l ↔ k ∈ l') → l = l'.
Proof.
  intros H. revert l'. induction H as [|x l Hl IH Hx]; intros l' H' E.
  - destruct l' as [|y l']; [done|]. exfalso. specialize (proj2 (E y)). set_solver.
  - destruct H' as [|y l' Hl' Hy]; [exfalso; specialize (proj1 (E x)); set_solver|]. rewrite list.Forall_forall in Hx, Hy.
    assert (x = y) as ->.
    { assert (x ∈ y :: l') as [->|H1]%elem_of_cons by (apply E; set_solver); [done|]. assert (y ∈ x :: l) as [->|H2]%elem_of_cons by (apply E; set_solver); [done|].
      specialize (Hx y H2). specialize (Hy x H1). lia. }
    f_equal. apply IH; [done|]. intros k. specialize (E k). rewrite !elem_of_cons in E. split; intros Hk.
    + destruct (proj1 E (or_intror Hk)) as [->|?]; [|done]. specialize (Hx y Hk). lia.
    + destruct (proj2 E (or_intror Hk)) as [->|?]; [|done]. specialize (Hy y Hk). lia.
Qed.
Lemma made_of_unique axs mx mx' ix cx : length mx = length mx' → made_of axs mx ix cx → made_of axs mx' ix cx → mx = mx'.
Proof.
  intros Hl [H1 (o & O1 & O2 & O3 & O4)] [H1' (o' & O1' & O2' & O3' & O4')].
  assert (o = o') as <- by (apply sorted_same; [done..|]; intros k; by rewrite O1, O1', Hl).
  apply list_eq. intros k. destruct (decide (k < length mx)) as [Hk|Hk].
  - destruct (decide (k ∈ axs)) as [[i Hi]%elem_of_list_lookup|Hn].
    + by rewrite (H1 i k Hi), (H1' i k Hi).
    + assert (k ∈ o) as [i Hi]%elem_of_list_lookup by (by apply O1). by rewrite (O4 i k Hi), (O4' i k Hi).
  - rewrite !lookup_ge_None_2 by lia. done.
Qed.
