(** The dictionaries of sum and mean, what mean and var get wrong, sums of squares and
    running sums. *)
From Coq Require Import Reals Lra.
From stdpp Require Import list list_numbers numbers gmap.
From Verif Require Import ArrModel Curve ArrThms ElemModel ElemSpec ElemThms ReorderModel ReorderSpec ReorderThms ReorderCache RedModel RedSpec RedThms.

(* ------------------------------------------------------------------ *)
(** The dictionary. *)
Lemma red_jac_shape m ax a b : sh a = sh b → red_jac m ax a = red_jac m ax b.
Proof.
  intros E. unfold red_jac, red_r, np_fold, asize. destruct ax as [k|]; rewrite <- E; [|done].
  destruct (naxis _ k) as [k'|]; [|done]. cbn [mbind option_bind fmap option_fmap option_map]. 
  assert (Es : sh (atleast_1d (fold_axis (f_red m) k' a)) = sh (atleast_1d (fold_axis (f_red m) k' b))) by (apply at1_sh; simpl; by rewrite E).
  by rewrite <- Es.
Qed.
Lemma red_uid_inj s k s' k' : red_uid s k = red_uid s' k' → s = s' ∧ k = k'.
Proof.
  unfold red_uid. intros E. apply app_inj_tail in E as [E ->]. split; [|done]. revert s' E. induction s as [|d s IH]; intros [|d' s'] E; try done.
  injection E as E1 E2. f_equal; [lia|]. by apply IH.
Qed.
Definition cache_ok (m : rfun) (st : dr_cache) : Prop := ∀ u J, (u, J) ∈ st → ∃ k a, u = red_uid (sh a) k ∧ red_jac m (Some k) a = Some J.
Lemma find_uid_in u st J : find_uid u st = Some J → (u, J) ∈ st.
Proof.
  unfold find_uid. intros H. apply fmap_Some in H as ([u' J'] & H & ->). apply fmap_Some in H as ([i e] & H & ->). 
  apply list_find_Some in H as (H & E & _). simpl in *. subst u. apply elem_of_list_lookup_2 in H. by destruct e.
Qed.
Lemma red_memo_step m ax a st : cache_ok m st → (red_jac_memo m ax a st).2 = red_jac m ax a ∧ cache_ok m (red_jac_memo m ax a st).1.
Proof.
  intros Hst. destruct ax as [k|]; [|done]. unfold red_jac_memo. destruct (find_uid _ st) as [J|] eqn:E.
  - split; [|done]. apply find_uid_in in E. destruct (Hst _ _ E) as (k' & b & Eu & HJ). apply red_uid_inj in Eu as [Es ->]. cbn [snd].
    rewrite <- HJ. symmetry. by apply red_jac_shape.
  - destruct (red_jac m (Some k) a) as [J|] eqn:EJ; [|done]. split; [done|]. cbn [fst]. intros u J' [[= -> ->]|H]%elem_of_cons; [eauto|by apply Hst].
Qed.
Definition red_memo_after (m : rfun) (l : list (option Z * arr R)) : dr_cache :=
  foldl (λ st c, (red_jac_memo m c.1 c.2 st).1) [] l.
Lemma red_memo_ok m l : cache_ok m (red_memo_after m l).
Proof.
  unfold red_memo_after. assert (H : cache_ok m []) by (intros u J Hin; by apply elem_of_nil in Hin).
  revert H. generalize (@nil (list Z * spm)). induction l as [|c l IH]; intros st H; [done|]. simpl. apply IH. by apply red_memo_step.
Qed.
Lemma red_memo m l ax a : (red_jac_memo m ax a (red_memo_after m l)).2 = red_jac m ax a.
Proof. apply red_memo_step, red_memo_ok. Qed.

(* ------------------------------------------------------------------ *)
(** The mean over all elements of an array that is no vector. *)
Lemma mean_all_wrong a : nth 0 (sh a) 0 ≠ asize a → 0 < asize a → ∃ J, red_jac Fmean None a = Some J ∧
  ncol J ≠ asize a ∧ ¬ diff1 (λ x, default x (red_r Fmean None x)) J a.
Proof.
  intros Hne Hpos. simpl. eexists. split; [done|]. split; [done|]. intros Hd.
  assert (HK : diff1 (λ x, default x (red_r Fmean None x)) (dense 1 (asize a) (λ _ _, (1 / INR (asize a))%R)) a).
  { apply (linear_diff _ _ _ []); [done|apply dense_range|]. intros x Hx. simpl. split; [done|]. intros i Hi.
    rewrite mact_dense, decide_True by lia. pose proof (f_red_weight Fmean (elems x)) as E. simpl in E. rewrite E, elems_length. unfold elems, asize. rewrite Hx.
    rewrite <- list_fmap_compose. apply rsum_ext. intros p Hp%elem_of_seq. unfold compose. rewrite elem_in; [done|]. unfold asize. rewrite Hx. lia. }
  pose proof (diff1_entry _ _ _ a 0 0 Hd HK Hpos) as E. rewrite <- !mact_unit, !mact_dense, !decide_True in E by lia.
  assert (Hn : ∀ n, 0 < n → rsum ((λ j, (1 / INR n * unit_ 0 j)%R) <$> seq 0 n) = (1 / INR n)%R).
  { intros n Hn. rewrite (rsum_single _ _ 0); [unfold unit_; rewrite decide_True by done; ring|apply NoDup_seq_|apply elem_of_seq; lia|].
    intros x _ Hx. unfold unit_. rewrite decide_False by done. ring. }
  rewrite (Hn (asize a) Hpos) in E. pose proof (lt_0_INR _ Hpos) as Hp1.
  destruct (decide (nth 0 (sh a) 0 = 0)) as [E0|H0].
  - rewrite E0 in E. unfold rsum in E. simpl in E. assert (0 < 1 / INR (asize a))%R by (apply Rdiv_lt_0_compat; lra). lra.
  - assert (H1 : 0 < nth 0 (sh a) 0) by lia. rewrite (Hn _ H1) in E. pose proof (lt_0_INR _ H1). apply Hne. apply INR_eq.
    unfold Rdiv in E. rewrite !Rmult_1_l in E. rewrite <- (Rinv_inv (INR (nth 0 (sh a) 0))), E. by rewrite Rinv_inv.
Qed.

(* ------------------------------------------------------------------ *)
(** var *)
Lemma npower_2 x : npower x 2 = (x * x)%R.
Proof. pose proof (npower_nat x 2) as H. change (INR 2) with 2%R in H. rewrite H. simpl. ring. Qed.
Lemma rsum_const {A} (c : R) (l : list A) : rsum ((λ _, c) <$> l) = (INR (length l) * c)%R.
Proof.
  induction l as [|x l IH]; [simpl; ring_simplify; done|]. rewrite fmap_cons, rsum_cons, IH. cbn [length]. rewrite S_INR. ring.
Qed.
Lemma average_squares l : average ((λ x, npower x 2) <$> l) = (variance l + average l * average l)%R.
Proof.
  assert (Hsq : (λ x, npower x 2) <$> l = (λ x, x * x)%R <$> l).
  { apply list_fmap_ext_ne. intros x _. apply npower_2. }
  rewrite Hsq. unfold variance, average at 1 2. rewrite !fmap_length. set (mu := average l). set (n := INR (length l)).
  destruct (decide (length l = 0)) as [E|E].
  { destruct l; [|done]. unfold mu, average, rsum. simpl. unfold Rdiv. ring. }
  assert (Hn : n ≠ 0%R) by (apply not_0_INR; done).
  assert (Hs : rsum l = (n * mu)%R) by (unfold mu, average; fold n; field; done).
  assert (Hv : rsum ((λ x, (x - mu) * (x - mu))%R <$> l) = (rsum ((λ x, x * x)%R <$> l) - 2 * mu * rsum l + n * (mu * mu))%R).
  { transitivity (rsum ((λ x, (x * x + ((- 2 * mu) * x + mu * mu)))%R <$> l)); [apply rsum_ext; intros; ring|].
    rewrite (rsum_plus (λ x, x * x)%R), (rsum_plus (λ x, (-2 * mu) * x)%R (λ _, (mu * mu)%R)), (rsum_scal _ (λ x, x)), list_fmap_id, rsum_const. fold n. ring. }
  rewrite Hv, Hs. field. done.
Qed.
Lemma bshape_one (s : shp) : s ≠ [] → bshape s [1] = Some s.
Proof.
  intros Hs. unfold bshape. change (reverse [1]) with [1]. destruct (reverse s) as [|d r] eqn:E.
  { apply (f_equal reverse) in E. rewrite reverse_involutive in E. done. }
  simpl. assert (Hr : bsh_rev r [] = Some r) by (by destruct r). rewrite Hr. cbn [mbind option_bind].
  destruct (decide (d = 1)) as [->|]; simpl; by rewrite <- E, reverse_involutive.
Qed.
Lemma var_value ax a y : sh a ≠ [] → var_r ax a = Some y → reduced ax (sh a) (sh y) ∧
  ∀ i, i < asize y → ∃ l, gathers ax (sh a) i l ∧
    dat y i = (variance (dat a <$> l) + average (dat a <$> l) * average (dat a <$> l))%R.
Proof.
  intros Hs Hy. unfold var_r, red_r in Hy. pose proof (bshape_one _ Hs) as Hb.
  assert (Hsh : sh (binary Bpower a (full [1] 2%R)) = sh a) by (by apply bop_sh).
  destruct (np_fold_value _ _ _ _ Hy) as [Hr Hv]. rewrite Hsh in *. split; [done|]. intros i Hi. destruct (Hv i Hi) as (l & Hl & ->).
  exists l. split; [done|]. rewrite <- average_squares. unfold f_red, average. f_equal; [|by rewrite !fmap_length].
  f_equal. rewrite <- list_fmap_compose. apply list_fmap_ext_ne. intros p Hp. unfold compose. apply Hl in Hp as [Hp _].
  unfold binary. rewrite (bop_dat _ a (full [1] 2%R) _ _ Hb). by rewrite bidx_same.
Qed.
Definition two_ones : arr R := of_list 0%R [2] [1; 1]%R.
Lemma var_wrong : ∃ y, var_r None two_ones = Some y ∧ dat y 0 = 1%R ∧ variance (elems two_ones) = 0%R.
Proof.
  eexists. split; [done|]. split.
  - simpl. unfold rsum, elems. simpl. rewrite !npower_2. field.
  - unfold variance, average, rsum, elems. simpl. field.
Qed.

(* ------------------------------------------------------------------ *)
(** SumOfSquares *)
Lemma sos_value a : dat (sos_r a) 0 = rsum ((λ x, x * x)%R <$> elems a).
Proof. simpl. apply rsum_ext. intros x _. apply npower_2. Qed.
Lemma sos_right a : fits (sos_jac a) 1 (asize a) ∧ (∀ p, p < asize a → entry (sos_jac a) 0 p = (2 * dat a p)%R) ∧ diff1 sos_r (sos_jac a) a.
Proof.
  unfold sos_jac. split_and!.
  - split_and!; [done..|apply dense_range].
  - intros p Hp. rewrite <- mact_unit, mact_dense, decide_True by lia. rewrite (rsum_single _ _ p); [unfold unit_; rewrite decide_True by done; ring|apply NoDup_seq_|apply elem_of_seq; lia|].
    intros x _ Hx. unfold unit_. rewrite decide_False by done. ring.
  - intros y v H0 Hm. apply (amoves_intro _ _ []); [by apply near_always| |].
    + intros i Hi. simpl in Hi. assert (i = 0) as -> by lia. rewrite mact_dense, decide_True by lia.
      eapply (deriv_near (λ t, rsum ((λ j, elem (y t) j * elem (y t) j)%R <$> seq 0 (asize a)))).
      * eapply near_mono; [|exact (amoves_shape _ _ Hm)]. intros t Ht. rewrite sos_value. unfold elems, asize. rewrite Ht, H0, <- list_fmap_compose.
        apply rsum_ext. intros p Hp%elem_of_seq. unfold compose. rewrite elem_in; [done|]. unfold asize. rewrite Ht, H0. lia.
      * apply (deriv_rsum (λ j t, (elem (y t) j * elem (y t) j)%R)). intros j Hj%elem_of_seq.
        eapply lim_eq; [|apply (derivable_pt_lim_mult (λ t, elem (y t) j) (λ t, elem (y t) j)); apply Hm].
        rewrite H0, elem_in by lia. ring.
    + intros i Hi. simpl in Hi. rewrite mact_dense, decide_False by lia. done.
Qed.

(* ------------------------------------------------------------------ *)
(** cumsum *)
Lemma cumsum_rows a : ∃ J, cumsum_jac None a = Some J ∧ fits J (asize a) (asize a) ∧
  ∀ v i, i < asize a → mact J v i = rsum (v <$> seq 0 (S i)).
Proof.
  unfold cumsum_jac. set (n := asize a). cbv zeta.
  assert (HIS : ∃ IS, reorder 0 (Tile [n; 1]) (arange [1; n]) = Some IS ∧ sh IS = [n; n] ∧ ∀ q, q < n * n → dat IS q = q mod n).
  { unfold reorder. cbn [sh arange plan_of length Nat.max fmap option_fmap option_map]. eexists. split; [reflexivity|]. unfold moved. cbn [sh fst].
    assert (E : zip_with Nat.mul (pad1 2 [1; n]) (pad1 2 [n; 1]) = [n; n]) by (unfold pad1; simpl; f_equal; [lia|f_equal; lia]).
    rewrite E. split; [done|]. intros q Hq. cbn [dat snd]. unfold pad1. simpl replicate. cbn [app unravel zip_with length Nat.sub drop]. unfold at_. cbn [sh dat arange ravel size foldr].
    rewrite !Nat.mul_1_r. assert (Hn : n ≠ 0) by lia. rewrite Nat.div_1_r. rewrite Nat.mod_1_r. rewrite Nat.mod_mod by done. lia. }
  destruct HIS as (IS & -> & HsI & HdI). cbn [mbind option_bind].
  assert (HJS : ∃ JS, reorder 0 (Transpose None) IS = Some JS ∧ sh JS = [n; n] ∧ ∀ q, q < n * n → dat JS q = q / n).
  { unfold reorder, plan_of. rewrite HsI. cbn [length fmap option_fmap option_map]. eexists. split; [reflexivity|]. split; [done|].
    intros q Hq. change (permute_axes [n; n] (reverse (seq 0 2))) with ([n; n], λ ix : list nat, Some [nth 1 ix 0; nth 0 ix 0]).
    unfold moved. cbn [dat snd fst]. unfold at_. rewrite HsI. assert (Hn : n ≠ 0) by lia.
    cbn [unravel nth ravel size foldr]. rewrite !Nat.mul_1_r, Nat.div_1_r, Nat.add_0_r.
    assert (q / n < n) by (apply Nat.div_lt_upper_bound; lia). pose proof (Nat.mod_upper_bound q n Hn).
    rewrite HdI by nia. rewrite Nat.add_comm, Nat.mod_add by done. by apply Nat.mod_small. }
  destruct HJS as (JS & -> & HsJ & HdJ). cbn [mbind option_bind]. eexists. split; [reflexivity|].
  assert (Hz : zip (elems IS) (elems JS) = (λ q, (q mod n, q / n)) <$> seq 0 (n * n)).
  { rewrite (elems_fun IS (λ q, q mod n) (n * n)); [|by unfold asize; rewrite HsI; simpl; lia|done].
    rewrite (elems_fun JS (λ q, q / n) (n * n)); [|by unfold asize; rewrite HsJ; simpl; lia|done]. apply zip_fmap_same. }
  rewrite Hz. set (w := filter _ _).
  assert (Ht : trip (coo n n (replicate (length w) 1%R) w.*1 w.*2) = (λ e, (e, 1%R)) <$> w).
  { unfold coo. cbn [trip]. clear. induction w as [|[x y] w IH]; [done|]. cbn [length replicate fmap list_fmap zip zip_with fst snd]. simpl. f_equal. apply IH. }
  split.
  - split_and!; [done|done|]. unfold in_range. rewrite Ht. apply list.Forall_forall. intros e (e' & -> & He)%elem_of_list_fmap.
    unfold w in He. apply elem_of_list_filter in He as [_ He]. apply elem_of_list_fmap in He as (q & -> & Hq%elem_of_seq). cbn [fst snd nrow ncol coo].
    assert (n ≠ 0) by lia. split; [by apply Nat.mod_upper_bound|apply Nat.div_lt_upper_bound; lia].
  - intros v i Hi. rewrite mact_alt, Ht. rewrite <- list_fmap_compose. unfold compose. cbn [fst snd]. unfold w. rewrite rsum_filter, <- list_fmap_compose. unfold compose. cbn [fst snd].
    rewrite (rsum_blocks (λ q, if decide (q / n ≤ q mod n) then if decide (q mod n = i) then (1 * v (q / n)%nat)%R else 0%R else 0%R) n n).
    transitivity (rsum ((λ j, if decide (j ≤ i) then v j else 0%R) <$> seq 0 n)).
    + apply rsum_ext. intros j Hj%elem_of_seq. rewrite <- (rsum_pick (λ x, if decide (j ≤ x) then v j else 0%R) n i Hi).
      apply rsum_ext. intros x Hx%elem_of_seq.
      assert (E1 : (j * n + x) mod n = x) by (rewrite Nat.add_comm, Nat.mod_add by lia; apply Nat.mod_small; lia).
      assert (E2 : (j * n + x) / n = j) by (rewrite Nat.div_add_l by lia; rewrite Nat.div_small by lia; lia).
      rewrite E1, E2. destruct (decide (x = i)), (decide (j ≤ x)); try done; ring.
    + replace n with (S i + (n - S i)) by lia. rewrite seq_app, fmap_app, rsum_app.
      rewrite (rsum_zero _ (seq (0 + S i) _)); [|intros x Hx%elem_of_seq; rewrite decide_False by lia; done]. rewrite Rplus_0_r.
      apply rsum_ext. intros x Hx%elem_of_seq. rewrite decide_True by lia. done.
Qed.
Lemma cumsum_right a : ∃ J y, cumsum_jac None a = Some J ∧ cumsum_r None a = Some y ∧ fits J (asize a) (asize a) ∧
  sh y = [asize a] ∧ (∀ i, i < asize a → dat y i = rsum (dat a <$> seq 0 (S i))) ∧
  (∀ i p, i < asize a → p < asize a → entry J i p = if decide (p ≤ i) then 1%R else 0%R) ∧
  diff1 (λ x, default x (cumsum_r None x)) J a.
Proof.
  destruct (cumsum_rows a) as (J & HJ & Hfit & Hact). exists J. eexists. split_and!; [done|reflexivity|done|done|done| |].
  - intros i p Hi Hp. rewrite <- mact_unit, Hact by done. destruct (decide (p ≤ i)).
    + rewrite (rsum_single _ _ p); [unfold unit_; by rewrite decide_True|apply NoDup_seq_|apply elem_of_seq; lia|].
      intros x _ Hx. unfold unit_. by rewrite decide_False.
    + apply rsum_zero. intros x Hx%elem_of_seq. unfold unit_. rewrite decide_False; [done|lia].
  - destruct Hfit as (H1 & H2 & H3). apply (linear_diff _ J a [asize a]); [simpl; lia|done|]. intros x Hx. cbn [cumsum_r default sh]. split; [cbn; unfold asize; by rewrite Hx|].
    intros i Hi. cbn [size foldr] in Hi. rewrite Hact by lia. change (rsum (dat x <$> seq 0 (S i)) = rsum (elem x <$> seq 0 (S i))). apply rsum_ext. intros p Hp%elem_of_seq. rewrite elem_in; [done|]. unfold asize in *. rewrite Hx. lia.
Qed.
