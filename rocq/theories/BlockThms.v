(** Proofs about the optimizer's Jacobian. *)
From Coq Require Import Reals Lra.
From stdpp Require Import gmap list list_numbers.
From Verif Require Import ArrModel ArrThms RepModel RepSpec RepThms RepSum RepGraph RepDemo RepOpsSpec RepOps BlockModel BlockSpec.

Lemma columns_is r n m A ix : is_mat r n m A → no_lin r = true → Forall (λ k, k < m) ix →
  ∃ r', columns ix r = Some r' ∧ no_lin r' = true ∧ is_mat r' n (length ix) (λ i j, A i (nth j ix 0)).
Proof.
  intros Hr Hl Hix. pose proof (is_mat_shape _ _ _ _ Hr) as Hs. pose proof (is_mat_ent _ _ _ _ Hr Hl) as He.
  assert (Hn : ∀ j, j < length ix → nth j ix 0 < m).
  { intros j Hj. destruct (lookup_lt_is_Some_2 ix j Hj) as [k Hk]. rewrite (nth_lookup_Some _ _ _ _ Hk).
    rewrite list.Forall_forall in Hix. apply Hix. by eapply elem_of_list_lookup_2. }
  destruct r as [c|a|n' m' f|]; [done| | |done]; unfold columns; rewrite Hs; rewrite decide_True by done; eexists; (split; [done|]); (split; [done|]).
  - apply arr2_is. intros i j Hi Hj. apply He; [done|]. by apply Hn.
  - split_and!; [done..|]. intros i j Hi Hj. apply He; [done|]. by apply Hn.
Qed.

Lemma convert_is d s r n m A : is_mat r n m A → no_lin r = true →
  ∃ r', convert d s r = Some r' ∧ no_lin r' = true ∧ is_mat r' n m A ∧ (s = true → sparse_only r' = true) ∧
    (d = true → s = false → sparse_only r' = false).
Proof.
  intros Hr Hl. unfold convert.
  assert (Hsp : ∀ a, is_mat (Arr a) n m A → ∃ r', to_sparse a = Some r' ∧ no_lin r' = true ∧ is_mat r' n m A ∧ sparse_only r' = true).
  { intros a [Ha Hd]. unfold to_sparse. rewrite Ha. eexists. split_and!; [done|done| |done]. split_and!; done. }
  destruct r as [c|a|n' m' f|]; [done| | |done].
  - destruct s; [|by eexists]. destruct (Hsp a Hr) as (r' & E & H1 & H2 & H3). exists r'. by split_and!.
  - destruct d.
    + assert (Ha : is_mat (Arr (arr2 n' m' f)) n m A) by (destruct Hr as (-> & -> & Hf); by apply arr2_is).
      destruct s; [|by eexists]. destruct (Hsp _ Ha) as (r' & E & H1 & H2 & H3). exists r'. by split_and!.
    + eexists. split_and!; [done|done|done|done|done].
Qed.

Lemma columns_mat r n m A ix r' : is_mat r n m A → Forall (λ k, k < m) ix → columns ix r = Some r' →
  no_lin r' = true ∧ is_mat r' n (length ix) (λ i j, A i (nth j ix 0)).
Proof.
  intros Hr Hix E. destruct (no_lin r) eqn:Hl; [|by destruct r].
  destruct (columns_is r n m A ix Hr Hl Hix) as (r2 & E2 & H1 & H2). rewrite E in E2. by injection E2 as <-.
Qed.
Lemma convert_mat d s r n m A r' : is_mat r n m A → convert d s r = Some r' →
  is_mat r' n m A ∧ (s = true → sparse_only r' = true) ∧ (d = true → s = false → sparse_only r' = false).
Proof.
  intros Hr E. destruct (no_lin r) eqn:Hl.
  - destruct (convert_is d s r n m A Hr Hl) as (r2 & E2 & H1 & H2 & H3 & H4). rewrite E in E2. by injection E2 as <-.
  - destruct r as [| | |ln lm lf]; try done. unfold convert in E. destruct s; [done|]. by injection E as <-.
Qed.

(** hstack in every combination of formats. *)
Lemma unit_length m j : length (unit_vec m j) = m.
Proof. unfold unit_vec. by rewrite fmap_length, seq_length. Qed.
Lemma mvec_unit n m A j i : i < n → j < m → nth i (mvec n m A (unit_vec m j)) 0%R = A i j.
Proof.
  intros Hi Hj. rewrite mvec_nth by done. rewrite (rsum_ext _ (λ x, A i x * mscal 1 x j)%R).
  - rewrite delta_r by done. ring.
  - intros x Hx%elem_of_seq. unfold unit_vec. rewrite nth_fmap_seq by lia. done.
Qed.
Lemma dense_op_is r n m A : is_mat r n m A →
  ∃ r', dense_op r = Some r' ∧ is_mat r' n m A ∧ no_lin r' = true ∧ (no_lin r = true → r' = r).
Proof.
  intros Hr. destruct r as [c|a|n' m' f|n' m' f]; [done|by eexists|by eexists|].
  pose proof Hr as (-> & -> & Hv). unfold dense_op.
  assert (E : ∀ l, mapM (λ j, apply1 (Lin n m f) (unit_vec m j)) l = Some ((λ j, mvec n m A (unit_vec m j)) <$> l)).
  { induction l as [|j l IH]; [done|]. simpl mapM. rewrite (is_mat_apply _ n m A) by (done || apply unit_length).
    simpl. by rewrite IH. }
  rewrite E. simpl. eexists. split; [done|]. split_and!; [|done|done]. apply arr2_is. intros i j Hi Hj.
  rewrite (nth_lookup_Some _ j _ (mvec n m A (unit_vec m j))); [by apply mvec_unit|].
  by rewrite list_lookup_fmap, lookup_seq_lt by done.
Qed.

Lemma mapM_dense n l ms : all_mat n l ms → ∃ l', mapM dense_op l = Some l' ∧ all_mat n l' ms ∧
  Forall (λ r, no_lin r = true) l' ∧
  (existsb sparse_only l' = existsb sparse_only l).
Proof.
  induction 1 as [|r mA l ms Hr _ (l' & E & H1 & H2 & H3)]; [exists []; split_and!; (done || constructor)|].
  destruct (dense_op_is r _ _ _ Hr) as (r' & Er & Hr' & Hl & Heq). exists (r' :: l'). simpl. rewrite Er. simpl. rewrite E. simpl.
  split_and!; [done|by constructor|by constructor|]. f_equal; [|done].
  destruct r as [c|a|n' m' f|n' m' f]; [done|by rewrite Heq|by rewrite Heq|].
  unfold dense_op in Er. clear E. destruct (mapM _ _); [|done]. simpl in Er. by injection Er as <-.
Qed.
Lemma mapM_shapes n l ms : all_mat n l ms → mapM shape2 l = Some ((λ mA, (n, mA.1)) <$> ms).
Proof.
  induction 1 as [|r mA l ms Hr _ IH]; [done|]. simpl. rewrite (is_mat_shape _ _ _ _ Hr). simpl. by rewrite IH.
Qed.
Lemma locate_is n l ms : all_mat n l ms → Forall (λ r, no_lin r = true) l →
  meq n (sum_list ms.*1) (locate (zip (ms.*1) (ent <$> l))) (side_by_side ms).
Proof.
  induction 1 as [|r mA l ms Hr Hms IH]; intros Hl i j Hi Hj; [done|]. apply Forall_cons in Hl as [Hr1 Hl].
  destruct mA as [m A]. simpl in *. destruct (decide (j < m)) as [Hjm|Hjm].
  - by apply (is_mat_ent _ _ _ _ Hr Hr1).
  - apply IH; [done|done|]. change (list_fmap (nat * mat)%type nat fst ms) with (ms.*1) in Hj. lia.
Qed.
Lemma hstack_is n l ms : all_mat n l ms → l ≠ [] → ∃ r, hstack_reps l = Some r ∧
  is_mat r n (sum_list ms.*1) (side_by_side ms) ∧ no_lin r = true ∧ sparse_only r = existsb sparse_only l.
Proof.
  intros Hl Hne. destruct (mapM_dense n l ms Hl) as (l' & E & H1 & H2 & H3). unfold hstack_reps. rewrite E. simpl.
  rewrite (mapM_shapes n l' ms H1). pose proof (locate_is n l' ms H1 H2) as Hloc.
  assert (Ess : snd <$> ((λ mA, (n, mA.1)) <$> ms) = ms.*1) by (by rewrite <- list_fmap_compose).
  assert (Hall : Forall (λ s, s.1 = n) ((λ mA, (n, mA.1)) <$> ms)) by (apply Forall_fmap, list.Forall_forall; done).
  assert (Hlen : length ((λ mA, (n, mA.1)) <$> ms) ≠ 0).
  { rewrite fmap_length. apply Forall2_length in Hl. rewrite <- Hl. by destruct l. }
  revert Ess Hall Hlen. generalize ((λ mA : nat * mat, (n, mA.1)) <$> ms). intros ss Ess Hall Hlen. cbn [mbind option_bind].
  destruct ss as [|[n0 m0] ss]; [done|]. assert (n0 = n) as -> by (by apply Forall_cons in Hall as [? _]).
  rewrite decide_True by done. rewrite Ess.
  change (λ r, match r with Spr _ _ _ => true | _ => false end) with sparse_only. rewrite H3.
  destruct (existsb sparse_only l); eexists; (split; [done|]); split_and!; [|done|done| |done|done].
  - split_and!; [done|done|]. exact Hloc.
  - apply arr2_is. exact Hloc.
Qed.

(** Side by side, columns belong to the slots in order. *)
Lemma side_slots T l : ∀ i j, j < sum_list ((length <$> l)) →
  side_by_side ((λ sl, (length sl, partials T sl)) <$> l) i j = partials T (mjoin l) i j.
Proof.
  induction l as [|sl l IH]; intros i j Hj; simpl in *; [lia|]. change (list_fmap (list (nat * nat)) nat length l) with (length <$> l) in Hj.
  unfold partials at 3. destruct (decide (j < length sl)) as [H|H].
  - unfold partials at 1. by rewrite lookup_app_l by done.
  - rewrite lookup_app_r by lia. exact (IH i (j - length sl) ltac:(lia)).
Qed.

Section stack.
Context (g : rgraph) (size : nat → nat) (J : nat → nat → mat) (obj : nat) (T : nat → mat).
Notation total := (total g size J obj T).
Notation apart := (apart g size J obj).
Hypothesis Hg : sound_graph g.

Lemma dr_mat n v r : sums_right g size J v → total v → apart v → rdr n g obj v = Some (Some r) →
  is_mat r (size obj) (size v) (T v) ∧ (operator_free g size J obj → no_lin r = true).
Proof.
  intros Hf (Tv & HT & ET) [Hne Hal] Hd.
  destruct (any_rdr g size v J Tv Hg HT n Hf obj (Some r) Hne Hd) as [Hl [Hm|[Ha _]]]; [|done]. by rewrite ET.
Qed.
Notation fine x := (sums_right g size J (base x) ∧ total (base x) ∧ apart (base x) ∧ fits size x).
Lemma block_is n d s x r : fine x → block n g obj d s x = Some r →
  is_mat r (size obj) (length (slots size x)) (partials T (slots size x)) ∧
  (s = true → sparse_only r = true) ∧ (d = true → s = false → sparse_only r = false).
Proof.
  intros (Hf & Ht & Ha & Hfit) Hb. destruct x as [v|v ix]; simpl in *.
  - destruct (rdr n g obj v) as [[d'|]|] eqn:Ed; [|done|done]. simpl in Hb. destruct (dr_mat n v d' Hf Ht Ha Ed) as [Hm _].
    rewrite fmap_length, seq_length. eapply convert_mat; [|done]. eapply is_mat_meq; [|done].
    intros i j Hi Hj. unfold partials. by rewrite list_lookup_fmap, lookup_seq_lt by done.
  - destruct (rdr n g obj v) as [[d'|]|] eqn:Ed; [|done|done]. simpl in Hb. destruct (dr_mat n v d' Hf Ht Ha Ed) as [Hm _].
    destruct (columns ix d') as [r'|] eqn:E; [|done]. destruct (columns_mat d' _ _ _ ix r' Hm Hfit E) as (Hl' & Hm'). simpl in Hb.
    rewrite fmap_length. eapply convert_mat; [|done]. eapply is_mat_meq; [|done].
    intros i j Hi Hj. unfold partials. rewrite list_lookup_fmap. destruct (lookup_lt_is_Some_2 ix j Hj) as [k Hk].
    rewrite Hk. simpl. by rewrite (nth_lookup_Some _ _ _ _ Hk).
Qed.

Lemma blocks_are n d s fvs l : Forall (λ x, fine x) fvs →
  mapM (block n g obj d s) fvs = Some l →
  all_mat (size obj) l ((λ sl, (length sl, partials T sl)) <$> (slots size <$> fvs)) ∧
  Forall (λ r, (s = true → sparse_only r = true) ∧ (d = true → s = false → sparse_only r = false)) l ∧
  length l = length fvs.
Proof.
  intros Hx. revert l. induction Hx as [|x fvs Hx0 _ IH]; intros l; simpl.
  - intros [= <-]. split_and!; constructor.
  - destruct (block n g obj d s x) as [r|] eqn:Eb; [|done]. simpl. destruct (mapM _ fvs) as [l'|]; [|done]. simpl. intros [= <-].
    destruct (IH l' eq_refl) as (I1 & I2 & I3). destruct (block_is n d s x r Hx0 Eb) as (B1 & B2).
    split_and!; [by constructor|by constructor|simpl; by rewrite I3].
Qed.

Lemma stacked_is n d s fvs r : Forall (λ x, fine x) fvs →
  stacked_dr n g obj d s fvs = Some r →
  is_mat r (size obj) (length (stacked_slots size fvs)) (partials T (stacked_slots size fvs)) ∧ no_lin r = true ∧
  (s = true → sparse_only r = true) ∧ (d = true → s = false → sparse_only r = false).
Proof.
  intros Hx. unfold stacked_dr. destruct (mapM (block n g obj d s) fvs) as [l|] eqn:El; [|done]. simpl. intros Hh.
  destruct (blocks_are n d s fvs l Hx El) as (Hl & Hf & Hlen).
  assert (Hne : l ≠ []) by (by intros ->).
  destruct (hstack_is _ _ _ Hl Hne) as (r' & E & Hm & Hnl & Hsp). rewrite Hh in E. injection E as <-.
  assert (Hsum : sum_list ((λ sl, (length sl, partials T sl)) <$> (slots size <$> fvs)).*1 = length (stacked_slots size fvs)).
  { unfold stacked_slots. clear. induction fvs as [|x fvs IH]; [done|]. rewrite bind_cons, app_length, <- IH. done. }
  split_and!; [|done| |].
  - rewrite Hsum in Hm. eapply is_mat_meq; [|done]. intros i j Hi Hj. rewrite side_slots.
    + f_equal. unfold stacked_slots. clear. induction fvs as [|x fvs IH]; [done|]. rewrite bind_cons, <- IH. done.
    + rewrite <- Hsum in Hj. rewrite <- list_fmap_compose in Hj. done.
  - intros Hs. rewrite Hsp. destruct l as [|r0 l]; [done|]. apply Forall_cons in Hf as [(H & _) _]. simpl. by rewrite H.
  - intros Hd Hs. rewrite Hsp. clear -Hf Hd Hs. induction Hf as [|r0 l (_ & H) _ IH]; [done|]. simpl. by rewrite H, IH.
Qed.

End stack.

(** Deeper recursion returns the same. *)
Lemma forward_mono w nd f f' ps : (∀ p res, f p = Some res → f' p = Some res) →
  ∀ acc acc' l, (∀ k, acc = Some k → acc' = Some k) → foldl (add_forward w nd f) acc ps = Some l →
    foldl (add_forward w nd f') acc' ps = Some l.
Proof.
  intros Hf. induction ps as [|p ps IH]; intros acc acc' l Hacc; [by apply Hacc|]. simpl. apply IH. intros k.
  destruct acc as [k0|]; [|done]. rewrite (Hacc k0 eq_refl). simpl. destruct (decide (p = w)); [done|].
  destruct (f p) as [res|] eqn:E; [|done]. by rewrite (Hf p res E).
Qed.
Lemma rdr_mono n n' g o w res : n ≤ n' → rdr n g o w = Some res → rdr n' g o w = Some res.
Proof.
  revert n' o res. induction n as [|n IH]; intros n' o res Hle; [done|]. destruct n' as [|n']; [lia|]. simpl.
  destruct (g !! o) as [nd|]; [|done]. simpl. destruct (foldl _ _ _) as [l|] eqn:E; [|done]. simpl.
  rewrite (forward_mono w nd (λ p, rdr n g p w) (λ p, rdr n' g p w) (ops nd)) with (acc := Some (option_list (jac nd w))) (l := l); [done| |done|done].
  intros p res'. apply IH. lia.
Qed.
Lemma returns_unique g o w r1 r2 : returns g o w r1 → returns g o w r2 → r1 = r2.
Proof.
  intros [n1 H1] [n2 H2]. pose proof (rdr_mono n1 (n1 + n2) _ _ _ _ ltac:(lia) H1). pose proof (rdr_mono n2 (n1 + n2) _ _ _ _ ltac:(lia) H2).
  congruence.
Qed.

(** A free variable the objective does not depend on. *)
Lemma no_derivative g obj d s fvs x : x ∈ fvs → returns g obj (base x) None → ∀ n, stacked_dr n g obj d s fvs = None.
Proof.
  intros Hx Hr n. unfold stacked_dr. destruct (mapM _ fvs) as [l|] eqn:E; [|done]. exfalso.
  apply mapM_Some_1 in E. apply elem_of_list_lookup in Hx as [i Hi]. destruct (Forall2_lookup_l _ _ _ _ _ E Hi) as (r & _ & Hb).
  assert (Hrd : ∀ res, rdr n g obj (base x) = Some res → res = None).
  { intros res H. eapply returns_unique; [by exists n|done]. }
  destruct x as [v|v ix]; simpl in *.
  - destruct (rdr n g obj v) as [res|]; [|done]. by rewrite (Hrd res eq_refl) in Hb.
  - destruct (rdr n g obj v) as [res|]; [|done]. by rewrite (Hrd res eq_refl) in Hb.
Qed.

(** It returns, if every derivative does. *)
Notation fine g size J obj T x := (sums_right g size J (base x) ∧ total g size J obj T (base x) ∧ apart g size J obj (base x) ∧ fits size x).
Lemma block_returns g size J obj T x d s : sound_graph g → fine g size J obj T x →
  (∃ r, returns g obj (base x) (Some r) ∧ (no_lin r = true ∨ whole x ∧ s = false)) →
  ∃ k, ∀ n, k ≤ n → is_Some (block n g obj d s x).
Proof.
  intros Hg (Hf & Ht & Ha & Hfit) (r & [k Hk] & Hl). exists k. intros n Hn.
  pose proof (rdr_mono k n _ _ _ _ Hn Hk) as E.
  destruct (dr_mat g size J obj T Hg n (base x) r Hf Ht Ha E) as [Hm _].
  destruct x as [v|v ix]; simpl in *.
  - rewrite E. simpl. destruct (no_lin r) eqn:Hlr.
    + by destruct (convert_is d s r _ _ _ Hm Hlr) as (r' & -> & _).
    + destruct Hl as [?|[_ ->]]; [done|]. destruct r; try done.
  - rewrite E. simpl. destruct Hl as [Hl|[[] _]].
    destruct (columns_is r _ _ _ ix Hm Hl Hfit) as (r1 & -> & Hl1 & Hm1). simpl.
    by destruct (convert_is d s r1 _ _ _ Hm1 Hl1) as (r' & -> & _).
Qed.
Lemma stacked_returns g size J obj T d s fvs : sound_graph g →
  Forall (λ x, fine g size J obj T x) fvs → fvs ≠ [] →
  Forall (λ x, ∃ r, returns g obj (base x) (Some r) ∧ (no_lin r = true ∨ whole x ∧ s = false)) fvs →
  ∃ n r, stacked_dr n g obj d s fvs = Some r.
Proof.
  intros Hg Hx Hne Hr.
  assert (∃ k, ∀ n, k ≤ n → is_Some (mapM (block n g obj d s) fvs)) as [k Hk].
  { clear Hne. induction Hx as [|x fvs H1 _ IH]; [by exists 0|]. apply Forall_cons in Hr as [Hrx Hr].
    destruct (IH Hr) as [k1 Hk1]. destruct (block_returns g size J obj T x d s Hg H1 Hrx) as [k2 Hk2].
    exists (k1 + k2). intros n Hn. destruct (Hk1 n ltac:(lia)) as [l El]. destruct (Hk2 n ltac:(lia)) as [b Eb].
    simpl. rewrite Eb. simpl. rewrite El. by eexists. }
  exists k. destruct (Hk k ltac:(lia)) as [l El]. unfold stacked_dr. rewrite El. simpl.
  destruct (blocks_are g size J obj T Hg k d s fvs l Hx El) as (Hl & _ & Hlen).
  destruct (hstack_is _ _ _ Hl) as (r & -> & _); [|by eexists]. intros ->. by destruct fvs.
Qed.

(** updateJ on what is computed. *)
Lemma update_is size_p r n m A J' : is_mat r n m A → size_p = m → (∃ i j, i < n ∧ j < m ∧ A i j ≠ 0%R) →
  update_J size_p (Some r) J' ↔ J' = Some r.
Proof.
  intros Hr -> (i & j & Hi & Hj & Hnz). pose proof (is_mat_shape _ _ _ _ Hr) as Hs.
  assert (Hno : ¬ no_entries r).
  { destruct r as [c|a|n' m' f|n' m' f]; [done|by intros []| |by intros []]. destruct Hr as (-> & -> & Hf). intros H. apply Hnz.
    rewrite <- Hf by done. by apply H. }
  simpl. split.
  - intros [[H _]|(_ & n' & m' & E & [[_ ->]|[H _]])]; [done|done|]. rewrite Hs in E. congruence.
  - intros ->. right. split; [done|]. exists n, m. split; [done|]. by left.
Qed.
(** A dense J never fails, a sparse zero does. *)
Lemma update_dense size_p r n m A J' : is_mat r n m A → size_p = m → sparse_only r = false →
  update_J size_p (Some r) J' ↔ J' = Some r.
Proof.
  intros Hr -> Hsp. pose proof (is_mat_shape _ _ _ _ Hr) as Hs.
  assert (Hno : ¬ no_entries r) by (destruct r; (done || by intros [])).
  simpl. split.
  - intros [[H _]|(_ & n' & m' & E & [[_ ->]|[H _]])]; [done|done|]. rewrite Hs in E. congruence.
  - intros ->. right. split; [done|]. exists n, m. split; [done|]. by left.
Qed.
Lemma update_zero size_p r n m A J' : is_mat r n m A → (∀ i j, i < n → j < m → A i j = 0%R) → sparse_only r = true →
  update_J size_p (Some r) J' → J' = None.
Proof.
  intros Hr Hz Hsp. assert (Hno : no_entries r).
  { destruct r as [c|a|n' m' f|n' m' f]; [done|done| |done]. destruct Hr as (-> & -> & Hf). intros i j Hi Hj.
    rewrite Hf by done. by apply Hz. }
  by intros [[_ ->]|[H _]].
Qed.

(** Selections of an operator raise. *)
Lemma pick_operator g obj d s fvs v ix n m f : Pick v ix ∈ fvs → returns g obj v (Some (Lin n m f)) →
  ∀ k, stacked_dr k g obj d s fvs = None.
Proof.
  intros Hx Hr k. unfold stacked_dr. destruct (mapM _ fvs) as [l|] eqn:E; [|done]. exfalso.
  apply mapM_Some_1 in E. apply elem_of_list_lookup in Hx as [i Hi]. destruct (Forall2_lookup_l _ _ _ _ _ E Hi) as (r & _ & Hb).
  simpl in Hb. destruct (rdr k g obj v) as [res|] eqn:Ek; [|done].
  assert (res = Some (Lin n m f)) as -> by (eapply returns_unique; [by exists k|done]). by simpl in Hb.
Qed.

(** Results of dr_wrt that vanish are sparse. *)
Lemma finish_zero r r' n m A : finish r = Some r' → no_lin r' = true → is_mat r' n m A → meq n m A mzero → sparse_only r' = true.
Proof.
  intros Hf Hl Hm Hz. unfold finish in Hf. destruct (as_array r) as [a|] eqn:Ea.
  - case_decide as Hc.
    + unfold to_sparse in Hf. repeat case_match; try done; by injection Hf as <-.
    + exfalso. apply Hc. left. injection Hf as <-. destruct Hm as [Hs Hd].
      assert (Ed : dat (two_dims a) = dat a) by (unfold two_dims; by repeat case_match).
      assert (En : asize a = n * m).
      { unfold asize. transitivity (size (sh (two_dims a))); [|by rewrite Hs, size2].
        unfold two_dims. repeat case_match; try done; simplify_eq/=; unfold size; rewrite ?H, ?H0; simpl; try lia. }
      unfold nonzeros. rewrite En, <- Ed. assert (E : ∀ l, (∀ i, i ∈ l → i < n * m) → List.filter (λ i, if Req_EM_T (dat (two_dims a) i) 0 then false else true) l = []).
      { induction l as [|i l IH]; intros H; [done|]. simpl. rewrite IH by (intros; apply H; by right).
        destruct (Req_EM_T (dat (two_dims a) i) 0) as [|Hn]; [done|]. exfalso. apply Hn.
        assert (Hi : i < n * m) by (apply H; left). assert (Hm0 : m ≠ 0) by (intros ->; lia).
        pose proof (Nat.div_mod i m Hm0) as Edm. pose proof (Nat.mod_upper_bound i m Hm0).
        assert (i / m < n) by (apply Nat.div_lt_upper_bound; lia).
        rewrite Edm, Nat.mul_comm. rewrite Hd by done. by rewrite Hz. }
      by rewrite E by (intros i Hi%elem_of_seq; lia).
  - injection Hf as <-. destruct r; try done.
Qed.
Lemma rdr_finish n g o w r : rdr n g o w = Some (Some r) → ∃ r0, finish r0 = Some r.
Proof.
  destruct n as [|n]; [done|]. simpl. destruct (g !! o) as [nd|]; [|done]. simpl. destruct (foldl _ _ _) as [l|]; [|done]. simpl.
  unfold conclude. destruct (dsum l) as [[r0|]|]; [|done|done]. simpl. destruct (finish r0) as [r1|] eqn:E; [|done]. simpl.
  intros [= <-]. by exists r0.
Qed.
Lemma zero_raises g size J obj T n fvs size_p J' : sound_graph g → operator_free g size J obj →
  Forall (λ x, fine g size J obj T x) fvs →
  Forall whole fvs → (∀ x, x ∈ fvs → meq (size obj) (size (base x)) (T (base x)) mzero) →
  update_J size_p (stacked_dr n g obj false false fvs) J' → J' = None.
Proof.
  intros Hg Hfree Hx Hw Hz. destruct (stacked_dr n g obj false false fvs) as [r|] eqn:Er; [|done].
  destruct (stacked_is g size J obj T Hg n false false fvs r Hx Er) as (Hm & Hl & _).
  assert (Hzero : ∀ i j, i < size obj → j < length (stacked_slots size fvs) → partials T (stacked_slots size fvs) i j = 0%R).
  { intros i j Hi Hj. unfold partials. destruct (lookup_lt_is_Some_2 _ _ Hj) as [[v k] E]. rewrite E.
    apply elem_of_list_lookup_2 in E. unfold stacked_slots in E. apply elem_of_list_bind in E as (x & Hs & Hin).
    pose proof (Hz x Hin) as Hzx. rewrite list.Forall_forall in Hw. specialize (Hw x Hin). destruct x as [u|]; [|done].
    simpl in *. apply elem_of_list_fmap in Hs as (k' & [= -> ->] & Hk). apply elem_of_seq in Hk. apply Hzx; [done|lia]. }
  apply (update_zero size_p r _ _ _ J' Hm Hzero).
  unfold stacked_dr in Er. destruct (mapM _ fvs) as [l|] eqn:El; [|done]. simpl in Er.
  destruct (blocks_are g size J obj T Hg n false false fvs l Hx El) as (Hall & _ & Hlen).
  assert (Hne : l ≠ []) by (intros ->; by simpl in Er).
  destruct (hstack_is _ _ _ Hall Hne) as (r' & E & _ & _ & Hsp). rewrite Er in E. injection E as <-. rewrite Hsp.
  destruct fvs as [|x fvs]; [by destruct l|]. destruct l as [|b l]; [done|]. simpl. apply orb_true_iff. left.
  apply mapM_Some_1 in El. apply Forall2_cons in El as [Eb _].
  apply Forall_cons in Hw as [Hw _]. destruct x as [v|]; [|done]. simpl in Eb.
  destruct (rdr n g obj v) as [[d|]|] eqn:Ed; [|done|done]. simpl in Eb.
  apply Forall_cons in Hx as [(Hf & Ht & Ha & _) _]. simpl in *.
  destruct (dr_mat g size J obj T Hg n v d Hf Ht Ha Ed) as [Hmd Hld]. specialize (Hld Hfree).
  destruct (rdr_finish n g obj v d Ed) as (r0 & Hfin).
  pose proof (Hz (Whole v) ltac:(left)) as Hzv. simpl in Hzv.
  pose proof (finish_zero r0 d _ _ _ Hfin Hld Hmd Hzv) as Hspd. destruct d as [| |dn dm df|]; try done. by injection Eb as <-.
Qed.
(** Without operators. *)
Lemma free_sums g size J : (∀ o, proper g size J no_lin o ∨ handle g size J o) →
  (∀ o, operator_free g size J o) ∧ ∀ v, sums_right g size J v.
Proof.
  intros Hf. assert (Hfree : ∀ o, operator_free g size J o) by (by intros o p _). split; [done|].
  intros v o. destruct (Hf o) as [Hp|Hh]; [|by right]. left. split; [|intros nd _; by right; right].
  intros nd Ho. destruct (Hp nd Ho) as [H1 H2]. split; [done|]. intros p Hin. specialize (H2 p Hin). by destruct (jac nd p); naive_solver.
Qed.
