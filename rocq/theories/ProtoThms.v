(** Proofs about Python's protocols. *)
From Coq Require Import Reals Lra.
From stdpp Require Import list list_numbers numbers gmap.
From Verif Require Import ArrModel Curve ArrThms ElemModel ElemSpec ElemThms ReorderModel ReorderSpec ReorderThms IndexThms StepModel StepThms
  ProtoModel ProtoSpec.

(* ------------------------------------------------------------------ *)
(** One row. *)
Lemma sel_index_all s ix : inside s ix → sel_index ((λ d, SMany (seq 0 d)) <$> s) ix = ix.
Proof.
  intros H. induction H as [|i d ix s Hi H IH]; [done|]. rewrite fmap_cons. cbn [sel_index]. f_equal; [|done]. by rewrite seq_nth.
Qed.
Lemma sel_shape_all s : sel_shape ((λ d, SMany (seq 0 d)) <$> s) = s.
Proof. induction s as [|d s IH]; [done|]. rewrite fmap_cons. cbn [sel_shape]. by rewrite seq_length, IH. Qed.
Lemma naxis_nat n i : i < n → naxis n (Z.of_nat i) = Some i.
Proof. intros H. apply naxis_is. split; [done|]. by left. Qed.
Lemma naxis_end n : naxis n (Z.of_nat n) = None.
Proof. unfold naxis. rewrite decide_False; [done|]. lia. Qed.
Lemma terms_row n s i : i < n → ∃ idxs, getitem_terms (KBasic [INum (Z.of_nat i)]) (n :: s) = Some (idxs, s) ∧
  length idxs = size s ∧ ∀ jx, inside s jx → nth (ravel s jx) idxs 0 = ravel (n :: s) (i :: jx).
Proof.
  intros Hi. unfold getitem_terms, np_getitem, index_plan. cbn [arange sh]. rewrite decide_True by (simpl; lia). cbn [sels].
  rewrite naxis_nat by done. cbn [mbind option_bind fmap option_fmap option_map sel_shape].
  fold ((fmap (λ d, SMany (seq 0 d)) s)). cbn [moved sh]. rewrite sel_shape_all.
  eexists. split; [reflexivity|]. split; [rewrite elems_length; done|].
  intros jx Hj. pose proof (ravel_lt _ _ Hj) as Hlt. rewrite nth_lookup, elems_lookup by done. cbn [dat default moved snd].
  rewrite unravel_ravel by done. cbn [sel_index at_ dat sh arange]. rewrite sel_index_all by done. done.
Qed.
Lemma terms_end n s : getitem_terms (KBasic [INum (Z.of_nat n)]) (n :: s) = None.
Proof.
  unfold getitem_terms, np_getitem, index_plan. cbn [arange sh]. rewrite decide_True by (simpl; lia). cbn [sels].
  by rewrite naxis_end.
Qed.
Lemma getitem_row a n s i : sh a = n :: s → i < n → ∃ b, getitem (KBasic [INum (Z.of_nat i)]) a = Some b ∧ is_row a i b.
Proof.
  intros Ha Hi. destruct (terms_row n s i Hi) as (idxs & Ht & Hl & Hv). unfold getitem. rewrite Ha, Ht. cbn [mbind option_bind].
  assert (HF : Forall (λ j, j < asize a) idxs).
  { apply list.Forall_forall. intros j (p & Hp)%elem_of_list_lookup. assert (p < size s) as Hps by (rewrite <- Hl; by eapply lookup_lt_Some).
    specialize (Hv (unravel s p) (unravel_inside _ _ Hps)). rewrite ravel_unravel, nth_lookup, Hp in Hv by done. simpl in Hv. subst j.
    unfold asize. rewrite Ha. simpl.
    pose proof (ravel_lt _ _ (unravel_inside _ _ Hps)). nia. }
  destruct (select idxs (Some s) a) as [c|] eqn:Ec.
  2:{ exfalso. unfold select in Ec. rewrite !decide_True in Ec by done. done. }
  destruct (select_value _ _ _ _ Ec) as (Hsh & Hs & _ & Hd). cbn in Hsh. exists (atleast_1d c). split; [done|].
  exists n, s. split_and!; [done|done| |].
  - unfold atleast_1d. rewrite Hsh. destruct s; done.
  - intros jx Hj. rewrite at1_dat, Hd by (rewrite Hl; by apply ravel_lt). unfold at_. by rewrite Ha, <- Hv.
Qed.
Lemma getitem_end a n s : sh a = n :: s → getitem (KBasic [INum (Z.of_nat n)]) a = None.
Proof. intros Ha. unfold getitem. by rewrite Ha, terms_end. Qed.

(* ------------------------------------------------------------------ *)
(** The loop. *)
Lemma iter_from a n s : sh a = n :: s → ∀ k i fuel, i + k = n → k < fuel → ∃ l,
  py_iter fuel (Z.of_nat i) a = Some l ∧ length l = k ∧ ∀ j b, l !! j = Some b → is_row a (i + j) b.
Proof.
  intros Ha k. induction k as [|k IH]; intros i [|fuel] Hik Hf; try lia; cbn [py_iter].
  - replace i with n by lia. rewrite (getitem_end a n s Ha). exists []. done.
  - destruct (getitem_row a n s i Ha) as (b & -> & Hb); [lia|].
    destruct (IH (S i) fuel) as (l & Hl & Hlen & Hr); [lia|lia|]. replace (Z.of_nat i + 1)%Z with (Z.of_nat (S i)) by lia. rewrite Hl.
    exists (b :: l). split_and!; [done|simpl; lia|]. intros [|j] c; simpl.
    + intros [= <-]. by rewrite Nat.add_0_r.
    + intros Hc%Hr. by replace (i + S j) with (S i + j) by lia.
Qed.
Lemma iter_rows a n s fuel : sh a = n :: s → n < fuel → ∃ l,
  py_iter fuel 0 a = Some l ∧ py_len a = Some (length l) ∧ length l = n ∧ ∀ i b, l !! i = Some b → is_row a i b.
Proof.
  intros Ha Hf. destruct (iter_from a n s Ha n 0 fuel) as (l & Hl & Hlen & Hr); [lia|done|]. exists l.
  split_and!; [done| |done|done]. unfold py_len. rewrite Ha. simpl. by rewrite Hlen.
Qed.
Lemma idxs_from n s : ∀ k i fuel, i + k = n → k < fuel → ∃ l,
  py_iter_idxs fuel (Z.of_nat i) (n :: s) = Some l ∧ length l = k ∧
  ∀ j idxs, l !! j = Some idxs → length idxs = size s ∧ ∀ jx, inside s jx → nth (ravel s jx) idxs 0 = ravel (n :: s) (i + j :: jx).
Proof.
  intros k. induction k as [|k IH]; intros i [|fuel] Hik Hf; try lia; cbn [py_iter_idxs].
  - replace i with n by lia. rewrite terms_end. exists []. done.
  - destruct (terms_row n s i) as (b & -> & Hb); [lia|].
    destruct (IH (S i) fuel) as (l & Hl & Hlen & Hr); [lia|lia|]. replace (Z.of_nat i + 1)%Z with (Z.of_nat (S i)) by lia. rewrite Hl.
    exists (b :: l). split_and!; [done|simpl; lia|]. intros [|j] c; simpl.
    + intros [= <-]. by rewrite Nat.add_0_r.
    + intros Hc%Hr. by replace (i + S j) with (S i + j) by lia.
Qed.
Lemma iter_jacobian n s fuel : n < fuel → ∃ l, py_iter_idxs fuel 0 (n :: s) = Some l ∧ length l = n ∧
  ∀ i idxs, l !! i = Some idxs → fits (select_jac idxs (size (n :: s))) (size s) (size (n :: s)) ∧
    ∀ jx kx, inside s jx → inside (n :: s) kx →
      entry (select_jac idxs (size (n :: s))) (ravel s jx) (ravel (n :: s) kx) = if decide (kx = i :: jx) then 1%R else 0%R.
Proof.
  intros Hf. destruct (idxs_from n s n 0 fuel) as (l & Hl & Hlen & Hr); [lia|done|]. exists l. split_and!; [done|done|].
  intros i idxs Hi. destruct (Hr i idxs Hi) as [Hli Hv]. pose proof (lookup_lt_Some _ _ _ Hi) as Hin. simpl in Hv.
  assert (HF : Forall (λ j, j < size (n :: s)) idxs).
  { apply list.Forall_forall. intros j (p & Hp)%elem_of_list_lookup. assert (p < size s) as Hps by (rewrite <- Hli; by eapply lookup_lt_Some).
    specialize (Hv (unravel s p) (unravel_inside _ _ Hps)). rewrite ravel_unravel, nth_lookup, Hp in Hv by done. simpl in Hv. subst j.
    pose proof (ravel_lt _ _ (unravel_inside _ _ Hps)). simpl. nia. }
  pose proof (select_rows idxs (size (n :: s)) HF) as Hrows. rewrite Hli in Hrows.
  split; [apply Hrows|].
  intros jx kx Hj Hk. rewrite (rows_entry_full _ _ _ _ _ _ _ Hrows) by (by apply ravel_lt).
  rewrite Hv by done. change (i * size s + ravel s jx) with (ravel (n :: s) (i :: jx)).
  assert (Hij : inside (n :: s) (i :: jx)) by (constructor; [lia|done]).
  destruct (decide (kx = i :: jx)) as [->|Hne].
  - by rewrite decide_True.
  - rewrite decide_False; [done|]. intros E. apply Hne. rewrite <- (unravel_ravel _ _ Hk), <- (unravel_ravel _ _ Hij). by f_equal.
Qed.

(* ------------------------------------------------------------------ *)
(** sum *)
Lemma bshape_one s : s ≠ [] → bshape [1] s = Some s.
Proof.
  intros Hs. unfold bshape. destruct (reverse s) as [|d r] eqn:E.
  { exfalso. apply Hs. rewrite <- (reverse_involutive s), E. done. }
  change (reverse [1]) with [1]. cbn [bsh_rev]. cbn [mbind option_bind].
  assert (Hr : reverse (d :: r) = s) by (rewrite <- E; by rewrite reverse_involutive).
  destruct (decide (1 = d)) as [<-|]; cbn [fmap option_fmap option_map]; [by rewrite Hr|].
  rewrite decide_True by done. cbn [fmap option_fmap option_map]. by rewrite Hr.
Qed.
Lemma bidx_one s i : s ≠ [] → i < size s → bidx [1] s i = 0.
Proof.
  intros Hs Hi. assert (bidx [1] s i < size [1]) as H; [|simpl in H; lia].
  apply bidx_lt; [|done]. eapply bshape_l. by apply bshape_one.
Qed.
Lemma sum_upto_ext n f g : (∀ i, i < n → f i = g i) → sum_upto n f = sum_upto n g.
Proof. induction n as [|n IH]; intros H; [done|]. simpl. rewrite IH, H by (try intros; try apply H; lia). done. Qed.
Lemma sum_upto_shift n f : (f 0%nat + sum_upto n (λ i, f (S i)) = sum_upto (S n) f)%R.
Proof. induction n as [|n IH]; simpl in *; [lra|]. rewrite <- IH. lra. Qed.
Lemma adds_same t l : t ≠ [] → Forall (λ b, sh b = t) l → ∀ acc, sh acc = t → ∃ c, py_adds acc l = Some c ∧ sh c = t ∧
  ∀ p, p < size t → dat c p = (dat acc p + sum_upto (length l) (λ i, dat (nth i l acc) p))%R.
Proof.
  intros Ht HF. induction HF as [|b l Hb HF IH]; intros acc Hacc; cbn [py_adds].
  - exists acc. split_and!; [done|done|]. intros p _. simpl. lra.
  - unfold py_add. rewrite Hacc, Hb, bshape_same. cbn [mbind option_bind].
    assert (Hc : sh (bop Rplus acc b) = t) by (apply bop_sh; rewrite Hacc, Hb; apply bshape_same).
    rewrite (at1_id (bop Rplus acc b)) by (by rewrite Hc).
    destruct (IH (bop Rplus acc b) Hc) as (c & Hs & Hsh & Hd). exists c. split_and!; [done|done|].
    intros p Hp. rewrite Hd by done. rewrite (bop_dat _ _ _ t) by (rewrite Hacc, Hb; apply bshape_same).
    rewrite Hacc, Hb, !bidx_same by done. cbn [length]. rewrite <- sum_upto_shift. cbn [nth].
    rewrite (sum_upto_ext _ (λ i, dat (nth i l (bop Rplus acc b)) p) (λ i, dat (nth i l acc) p)); [lra|].
    intros i Hi. by rewrite (nth_indep l (bop Rplus acc b) acc Hi).
Qed.
Lemma sum_rows a n s fuel : sh a = S n :: s → S n < fuel → ∃ l c, py_iter fuel 0 a = Some l ∧ py_sum l = Some c ∧
  sh c = (match s with [] => [1] | _ => s end) ∧
  ∀ jx, inside s jx → dat c (ravel s jx) = sum_upto (S n) (λ i, at_ a (i :: jx)).
Proof.
  intros Ha Hf. destruct (iter_rows a (S n) s fuel Ha Hf) as (l & Hl & _ & Hlen & Hr). set (t := match s with [] => [1] | _ => s end).
  assert (Ht : t ≠ []) by (by destruct s). assert (Hts : size t = size s) by (by destruct s).
  assert (HF : Forall (λ b, sh b = t) l).
  { apply list.Forall_forall. intros b (i & Hi)%elem_of_list_lookup. destruct (Hr i b Hi) as (n' & s' & Ha' & _ & Hsh & _).
    rewrite Ha in Ha'. injection Ha' as <- <-. done. }
  destruct l as [|b l]; [done|]. simpl in Hlen. inversion HF as [|?? Hb HF']; subst.
  destruct (adds_same t l Ht HF' (bop Rplus (Arr_ [1] (λ _, 0%R)) b)) as (c & Hs & Hsh & Hd).
  { apply bop_sh. cbn [sh]. rewrite Hb. by apply bshape_one. }
  exists (b :: l), c. split; [done|].
  assert (Hsum : py_sum (b :: l) = Some c).
  { unfold py_sum. cbn [py_adds]. unfold py_add. cbn [sh]. rewrite Hb, bshape_one by done. cbn [mbind option_bind].
    rewrite at1_id; [done|]. rewrite (bop_sh _ _ _ t); [done|]. cbn [sh]. rewrite Hb. by apply bshape_one. }
  split_and!; [done|done|]. intros jx Hj. pose proof (ravel_lt _ _ Hj) as Hlt. rewrite Hd by (by rewrite Hts).
  rewrite (bop_dat _ _ _ t) by (cbn [sh]; rewrite Hb; by apply bshape_one). cbn [dat sh]. rewrite Hb, bidx_same by (by rewrite Hts).
  rewrite <- sum_upto_shift.
  assert (Hat : ∀ i x, (b :: l) !! i = Some x → dat x (ravel s jx) = at_ a (i :: jx)).
  { intros i x Hi. destruct (Hr i x Hi) as (n' & s' & Ha' & _ & _ & Hv). rewrite Ha in Ha'. injection Ha' as <- <-. by apply Hv. }
  rewrite (Hat 0 b) by done. replace n with (length l) by lia.
  rewrite (sum_upto_ext (length l) _ (λ i, at_ a (S i :: jx))); [lra|].
  intros i Hi. destruct (lookup_lt_is_Some_2 l i Hi) as [x Hx]. rewrite (nth_lookup_Some _ _ _ _ Hx). by apply (Hat (S i)).
Qed.

(* ------------------------------------------------------------------ *)
(** float and int *)
Lemma float_value a : (∀ x, py_float a = Some x ↔ asize a = 1 ∧ x = dat a 0) ∧ (py_float a = None ↔ asize a ≠ 1).
Proof.
  unfold py_float. destruct (decide (asize a = 1)) as [H|H]; split; [|done| |done].
  - intros x. split; [by intros [= <-]|by intros [_ ->]].
  - intros x. split; [done|by intros [? _]].
Qed.
Lemma int_value a k : py_int a = Some k → asize a = 1 ∧ cut_of (dat a 0) k.
Proof.
  unfold py_int, py_float. destruct (decide (asize a = 1)) as [H|H]; [|done]. cbn. intros [= <-]. split; [done|].
  set (x := dat a 0). destruct (Rle_dec 0 x) as [Hx|Hx].
  - destruct (base_Int_part x) as [H1 H2]. split; intros; [lra|].
    assert (x = 0)%R as Hx0 by lra. rewrite Hx0 in *.
    assert (Int_part 0 = 0%Z) as ->; [|lra].
    destruct (base_Int_part 0) as [H3 H4]. rewrite Rminus_0_r in H4.
    assert (Int_part 0 ≤ 0)%Z by (apply le_IZR; lra). assert (-1 < Int_part 0)%Z by (apply lt_IZR; simpl; lra). lia.
  - destruct (base_Int_part (- x)) as [H1 H2]. split; intros; [lra|]. rewrite opp_IZR. lra.
Qed.

(* ------------------------------------------------------------------ *)
(** truth *)
Lemma size_nonzero s : size s ≠ 0 ↔ Forall (λ d, d ≠ 0) s.
Proof.
  induction s as [|d s IH]; [done|]. rewrite Forall_cons, <- IH. simpl. split; [intros H; split; intros E; apply H; nia|intros [H1 H2]; nia].
Qed.
Lemma bsh_rev_nonzero r1 r2 r : bsh_rev r1 r2 = Some r → Forall (λ d, d ≠ 0) r1 → Forall (λ d, d ≠ 0) r2 → Forall (λ d, d ≠ 0) r.
Proof.
  revert r2 r. induction r1 as [|d1 r1 IH]; intros [|d2 r2] r; cbn [bsh_rev]; try (by intros [= <-]).
  intros (r' & Hr & H)%bind_Some H1 H2. inversion H1; inversion H2; subst. specialize (IH _ _ Hr).
  repeat case_decide; try done; injection H as <-; constructor; eauto.
Qed.
Lemma bshape_nonzero s1 s2 s : bshape s1 s2 = Some s → size s1 ≠ 0 → size s2 ≠ 0 → size s ≠ 0.
Proof.
  unfold bshape. intros (r & Hr & ->)%fmap_Some. rewrite !size_nonzero. intros H1 H2. apply Forall_reverse.
  eapply bsh_rev_nonzero; [done|by apply Forall_reverse..].
Qed.
Lemma truth_value a : sh a ≠ [] → ∃ t, py_truth a = Some t ∧ (t = true ↔ ∃ n s, sh a = n :: s ∧ n ≠ 0).
Proof.
  unfold py_truth, py_len. destruct (sh a) as [|n s]; [done|]. intros _. exists (bool_decide (n ≠ 0)). split; [done|].
  rewrite bool_decide_eq_true. split; [eauto|]. by intros (? & ? & [= <- <-] & ?).
Qed.
Lemma compare_true f a b c : asize a ≠ 0 → asize b ≠ 0 → py_compare f a b = Some c → py_truth c = Some true.
Proof.
  unfold py_compare. intros Ha Hb. destruct (bshape (sh a) (sh b)) as [s|] eqn:E; [|done]. intros [= <-].
  assert (Hs : size s ≠ 0) by (by eapply bshape_nonzero).
  assert (Hz : asize (atleast_1d (cmp_r f a b)) ≠ 0).
  { rewrite at1_size. unfold asize, cmp_r. by rewrite (bop_sh _ _ _ s). }
  pose proof (at1_ne (cmp_r f a b)) as Hne. unfold asize in Hz. unfold py_truth, py_len.
  destruct (sh (atleast_1d (cmp_r f a b))) as [|n t]; [done|]. cbn. rewrite bool_decide_eq_true_2; [done|]. simpl in Hz. nia.
Qed.
Lemma compare_ok f a b : (∃ s, bshape (sh a) (sh b) = Some s) → ∃ c, py_compare f a b = Some c.
Proof. intros [s E]. unfold py_compare. rewrite E. eauto. Qed.
Lemma best_last f s : size s ≠ 0 → ∀ l best x, Forall (λ b, sh b = s) (best :: l ++ [x]) → py_best f best (l ++ [x]) = Some x.
Proof.
  intros Hs l. induction l as [|b l IH]; intros best x HF; simpl in *; inversion HF as [|?? Hb HF']; inversion HF' as [|?? Hx HF'']; subst.
  - destruct (compare_ok f x best) as [c Hc]; [exists (sh best); rewrite Hx; apply bshape_same|]. rewrite Hc. cbn [mbind option_bind].
    rewrite (compare_true f x best c); [done| | |done]; unfold asize; congruence.
  - destruct (compare_ok f b best) as [c Hc]; [exists (sh best); rewrite Hx; apply bshape_same|]. rewrite Hc. cbn [mbind option_bind].
    rewrite (compare_true f b best c); [|unfold asize; congruence|unfold asize; congruence|done]. cbn [mbind option_bind]. apply IH. done.
Qed.
Lemma maxmin_last s l x : size s ≠ 0 → Forall (λ b, sh b = s) (l ++ [x]) → py_max (l ++ [x]) = Some x ∧ py_min (l ++ [x]) = Some x.
Proof.
  intros Hs HF. destruct l as [|a l]; [done|]. simpl in *. split; by apply best_last with s.
Qed.
Lemma max_wrong : ∃ a b m, sh a = [1] ∧ sh b = [1] ∧ py_max [a; b] = Some m ∧ (dat m 0 < dat a 0)%R.
Proof.
  exists (Arr_ [1] (λ _, 2%R)), (Arr_ [1] (λ _, 1%R)), (Arr_ [1] (λ _, 1%R)). split_and!; [done|done| |simpl; lra].
  apply (maxmin_last [1] [Arr_ [1] (λ _, 2%R)] (Arr_ [1] (λ _, 1%R))); [done|]. repeat constructor.
Qed.
Lemma if_wrong : ∃ a b c, sh a = [1] ∧ sh b = [1] ∧ py_compare Cless a b = Some c ∧ py_truth c = Some true ∧ ¬ (dat a 0 < dat b 0)%R.
Proof.
  exists (Arr_ [1] (λ _, 2%R)), (Arr_ [1] (λ _, 1%R)). destruct (compare_ok Cless (Arr_ [1] (λ _, 2%R)) (Arr_ [1] (λ _, 1%R))) as [c Hc]; [by eexists|].
  exists c. split_and!; [done|done|done| |simpl; lra]. eapply compare_true; [| |exact Hc]; done.
Qed.
(** the number that a comparison holds *)
Lemma compare_float f a b x : sh a = [1] → sh b = [1] → py_float a = Some x → ∀ y, py_float b = Some y →
  ∃ c v, py_compare f a b = Some c ∧ py_float c = Some v ∧ (v = 1%R ↔ stands_in f x y) ∧ (v = 0%R ↔ ¬ stands_in f x y).
Proof.
  intros Ha Hb Hx y Hy. apply float_value in Hx as [_ ->]. apply float_value in Hy as [_ ->].
  assert (E : bshape (sh a) (sh b) = Some [1]) by (by rewrite Ha, Hb).
  exists (atleast_1d (cmp_r f a b)), (c_f f (dat a 0) (dat b 0)). split; [unfold py_compare; by rewrite E|]. split.
  { unfold py_float. rewrite at1_size, at1_dat. unfold asize, cmp_r. rewrite (bop_sh _ _ _ _ E), (bop_dat _ _ _ _ _ E), Ha, Hb. done. }
  set (p := dat a 0). set (q := dat b 0). clearbody p q.
  destruct f; unfold c_f, stands_in; repeat (match goal with |- context [if ?d then _ else _] => destruct d end); split; split; intros; try lra; try done; try (intros ?; lra); try (exfalso; tauto); try (exfalso; lra).
Qed.
