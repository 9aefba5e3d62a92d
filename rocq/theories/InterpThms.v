(** Proofs about Interp3D. *)
From Coq Require Import Reals Lra.
From stdpp Require Import list list_numbers numbers gmap.
From Verif Require Import ArrModel Curve ArrThms ElemThms ReorderThms ReorderCache LinThms SvdThms SvdArr InterpModel InterpSpec.

Lemma div3 r c : c < 3 → (r * 3 + c) / 3 = r.
Proof. apply flat_div. Qed.
Lemma mod3 r c : c < 3 → (r * 3 + c) mod 3 = c.
Proof. apply flat_mod. Qed.
Lemma zip3 {A B C} (f : A → B) (h : A → C) l : zip (zip (f <$> l) l) (h <$> l) = (λ j, (f j, j, h j)) <$> l.
Proof. induction l as [|x l IH]; [done|]. cbn. f_equal. exact IH. Qed.
Lemma interp_trip n g : trip (interp_mat n g) = (λ j, (j / 3, j, g (j / 3) (j mod 3))) <$> seq 0 (n * 3).
Proof. unfold interp_mat, coo. cbn [trip]. apply zip3. Qed.
Lemma interp_mat_act n g v r : r < n → mact (interp_mat n g) v r = rs 3 (λ c, g r c * v (r * 3 + c)%nat)%R.
Proof.
  intros Hr. rewrite mact_alt, interp_trip, <- list_fmap_compose.
  transitivity (rs (n * 3) (λ j, if decide (j / 3 = r) then (g (j / 3)%nat (j mod 3)%nat * v j)%R else 0%R)); [done|].
  rewrite rs_flat. rewrite (rs_single n _ r Hr).
  - apply rs_ext. intros c Hc. rewrite div3, mod3 by done. by rewrite decide_True.
  - intros i Hi Hne. apply rs_zero. intros c Hc. rewrite div3 by done. by rewrite decide_False.
Qed.
Lemma interp_mat_fits n g : fits (interp_mat n g) n (n * 3).
Proof.
  split_and!; [done..|]. unfold in_range. rewrite interp_trip. apply list.Forall_forall. intros e (j & -> & Hj%elem_of_seq)%elem_of_list_fmap.
  cbn [fst snd nrow ncol interp_mat coo]. split; [|lia]. apply Nat.div_lt_upper_bound; lia.
Qed.
Lemma interp_mat_entry n g r c : r < n → c < 3 → entry (interp_mat n g) r (r * 3 + c) = g r c.
Proof.
  intros Hr Hc. rewrite entry_alt, interp_trip, <- list_fmap_compose.
  transitivity (rs (n * 3) (λ j, if decide (j / 3 = r ∧ j = r * 3 + c) then g (j / 3) (j mod 3) else 0%R)); [done|].
  rewrite (rs_single (n * 3) _ (r * 3 + c)).
  - rewrite div3, mod3 by done. by rewrite decide_True.
  - apply flat_lt; done.
  - intros i _ Hne. rewrite decide_False; [done|]. naive_solver.
Qed.

(** floor and clip *)
Lemma cellno_is x k : (INR k <= x < INR k + 1)%R → cellno x = k.
Proof.
  intros [H1 H2]. unfold cellno. destruct (base_Int_part x) as [B1 B2]. rewrite INR_IZR_INZ in *.
  assert (Z.of_nat k < Int_part x + 1)%Z by (apply lt_IZR; rewrite plus_IZR; lra).
  assert (Int_part x < Z.of_nat k + 1)%Z by (apply lt_IZR; rewrite plus_IZR; lra). lia.
Qed.
Lemma cellno_le x : (0 <= x)%R → (INR (cellno x) <= x < INR (cellno x) + 1)%R.
Proof.
  intros H. unfold cellno. destruct (base_Int_part x) as [B1 B2].
  assert (0 < Int_part x + 1)%Z by (apply lt_IZR; rewrite plus_IZR; lra).
  rewrite INR_IZR_INZ, Z2Nat.id by lia. lra.
Qed.
Lemma clip_within x d : within d x → clip x d = x.
Proof. intros [H1 H2]. unfold clip. rewrite Rmax_left by done. by apply Rmin_left. Qed.
Lemma INR_1 d : 2 ≤ d → (1 <= INR d - 1)%R.
Proof. intros H. apply le_INR in H. simpl in H. lra. Qed.
Lemma clip_range x d : 2 ≤ d → within d (clip x d).
Proof.
  intros H. pose proof (INR_1 d H). unfold clip, within. unfold Rmin, Rmax. repeat destruct (Rle_dec _ _); lra.
Qed.
Lemma in_cell_within d x : in_cell d x → within d x.
Proof.
  intros (k & Hk & H1 & H2). pose proof (pos_INR k). apply lt_INR in Hk as Hk'. apply (le_INR (S (S k)) d) in Hk. rewrite !S_INR in *. unfold within. lra.
Qed.
Lemma clip_beyond x d : beyond d x → 2 ≤ d → clip x d = if Rlt_dec x 0 then 0%R else (INR d - 1)%R.
Proof.
  intros Hb Hd. pose proof (INR_1 d Hd). unfold clip, Rmin, Rmax. destruct Hb; repeat destruct (Rle_dec _ _); destruct (Rlt_dec x 0); lra.
Qed.
Lemma cellno_lt x d : 2 ≤ d → cellno (clip x d) < d.
Proof.
  intros Hd. destruct (clip_range x d Hd) as [H1 H2]. destruct (cellno_le _ H1) as [H3 _]. apply INR_lt. lra.
Qed.

Lemma interp_dims_is img loc n : interp_dims img loc = Some n ↔
  (∃ d0 d1 d2, sh img = [d0; d1; d2] ∧ 2 ≤ d0 ∧ 2 ≤ d1 ∧ 2 ≤ d2) ∧ sh loc = [n; 3] ∧ 0 < n.
Proof.
  unfold interp_dims. split.
  - destruct (sh img) as [|d0 [|d1 [|d2 [|]]]]; try done. destruct (sh loc) as [|m [|[|[|[|[|]]]] [|]]]; try done.
    case_decide as H; [|done]. intros [= ->]. destruct H as (? & ? & ? & ?). split_and!; [by exists d0, d1, d2|done..].
  - intros ((d0 & d1 & d2 & -> & ? & ? & ?) & -> & ?). by rewrite decide_True.
Qed.
Lemma dims_ge img loc n c : interp_dims img loc = Some n → c < 3 → 2 ≤ nth c (sh img) 0.
Proof. intros ((d0 & d1 & d2 & -> & ? & ? & ?) & _)%interp_dims_is Hc. by destruct c as [|[|[|c]]]; [..|lia]. Qed.
Lemma nth_cell img loc r c : c < 3 → nth c (cell img loc r) 0 = cellno (coord img loc r c).
Proof. intros Hc. by destruct c as [|[|[|c]]]; [..|lia]. Qed.
Lemma cell_inside img loc n r : interp_dims img loc = Some n → inside (sh img) (cell img loc r).
Proof.
  intros Hd. pose proof (dims_ge _ _ _ 0 Hd ltac:(lia)) as H0. pose proof (dims_ge _ _ _ 1 Hd ltac:(lia)) as H1. pose proof (dims_ge _ _ _ 2 Hd ltac:(lia)) as H2.
  apply interp_dims_is in Hd as ((d0 & d1 & d2 & E & _) & _). unfold cell, coord. rewrite E in *.
  repeat constructor; by apply cellno_lt.
Qed.
(** The value at a location. *)
Definition value_at (img loc : arr R) (r : nat) : R :=
  (at_ img (cell img loc r) + rs 3 (λ c, at_ (gradient c img) (cell img loc r) * (coord img loc r c - INR (cellno (coord img loc r c)))))%R.
Lemma interp_r_is img loc n : interp_dims img loc = Some n →
  ∃ y, interp_r img loc = Some y ∧ sh y = [n] ∧ ∀ r, r < n → dat y r = value_at img loc r.
Proof.
  intros Hd. unfold interp_r, interp_jac. rewrite Hd. cbn [mbind option_bind]. eexists. split; [reflexivity|]. split; [done|].
  intros r Hr. cbn [dat]. rewrite interp_mat_act by done. unfold value_at. f_equal. apply rs_ext. intros c Hc. by rewrite div3, mod3.
Qed.
Lemma interp_r_dims img loc y : interp_r img loc = Some y → ∃ n, interp_dims img loc = Some n ∧ sh y = [n] ∧ ∀ r, r < n → dat y r = value_at img loc r.
Proof.
  intros Hy. destruct (interp_dims img loc) as [n|] eqn:Hd; [|by unfold interp_r in Hy; rewrite Hd in Hy].
  destruct (interp_r_is img loc n Hd) as (y' & E & H). rewrite Hy in E. injection E as <-. by exists n.
Qed.
(** np.gradient of an affine volume *)
Lemma gradient_affine img a0 b0 b1 b2 c ix : (∃ d0 d1 d2, sh img = [d0; d1; d2] ∧ 2 ≤ d0 ∧ 2 ≤ d1 ∧ 2 ≤ d2) → affine img a0 b0 b1 b2 →
  inside (sh img) ix → c < 3 → at_ (gradient c img) ix = nth c [b0; b1; b2] 0%R.
Proof.
  intros (d0 & d1 & d2 & E & H0 & H1 & H2) HA Hix Hc. unfold at_ at 1. unfold gradient. cbn [sh dat].
  rewrite unravel_ravel by done. rewrite E in *. unfold inside in Hix.
  apply Forall2_length in Hix as Hl. simpl in Hl. destruct ix as [|i0 [|i1 [|i2 [|]]]]; try (simpl in Hl; lia).
  inversion_clear Hix as [|? ? ? ? Hi0 Hix']. inversion_clear Hix' as [|? ? ? ? Hi1 Hix'']. inversion_clear Hix'' as [|? ? ? ? Hi2 _].
  unfold affine in HA. rewrite E in HA.
  assert (HB : ∀ j0 j1 j2, j0 < d0 → j1 < d1 → j2 < d2 → at_ img [j0; j1; j2] = (a0 + b0 * INR j0 + b1 * INR j1 + b2 * INR j2)%R).
  { intros j0 j1 j2 K0 K1 K2. rewrite HA by (repeat constructor; done). done. }
  destruct c as [|[|[|c]]]; [..|lia]; cbn [nth];
    repeat case_decide; subst; cbn [insert list_insert list_alter]; simpl; rewrite !HB by lia; rewrite ?minus_INR, ?plus_INR by lia; simpl; lra || field.
Qed.

(** At the grid points *)
Lemma interp_grid img loc y n r ix : interp_r img loc = Some y → sh loc = [n; 3] → r < n → inside (sh img) ix →
  (∀ c, c < 3 → at_ loc [r; c] = INR (nth c ix 0)) → sh y = [n] ∧ at_ y [r] = at_ img ix.
Proof.
  intros Hy Hl Hr Hix Hc. destruct (interp_r_dims _ _ _ Hy) as (n' & Hd & Hsy & HV). pose proof Hd as Hd'.
  apply interp_dims_is in Hd as ((d0 & d1 & d2 & E & H0 & H1 & H2) & El & _). rewrite Hl in El. injection El as <-. split; [done|].
  rewrite (at_1 y n) by done. rewrite HV by done. unfold value_at.
  apply Forall2_length in Hix as Hlen. rewrite E in Hlen. simpl in Hlen.
  assert (HC : ∀ c, c < 3 → coord img loc r c = INR (nth c ix 0)).
  { intros c Hc3. unfold coord. rewrite <- (at_2 loc n 3) by done. rewrite Hc by done. apply clip_within.
    assert (Hlt : nth c ix 0 < nth c (sh img) 0).
    { apply (Forall2_lookup_lr _ _ _ c _ _ Hix); apply list_lookup_lookup_total_lt || idtac; rewrite ?E; destruct ix as [|? [|? [|? [|]]]]; simpl in Hlen; try lia; by destruct c as [|[|[|]]]; [..|lia]. }
    split; [apply pos_INR|]. apply (le_INR (S _)) in Hlt. rewrite S_INR in Hlt. lra. }
  assert (HK : ∀ c, c < 3 → cellno (coord img loc r c) = nth c ix 0). { intros c Hc3. rewrite HC by done. apply cellno_is. lra. }
  assert (Ecell : cell img loc r = ix).
  { unfold cell. simpl. rewrite !HK by lia. destruct ix as [|? [|? [|? [|]]]]; simpl in Hlen; try lia; done. }
  rewrite Ecell. rewrite rs_zero; [lra|]. intros c Hc3. rewrite HK, HC by done. lra.
Qed.
(** Affine volumes *)
Lemma interp_affine img loc y n r a0 b0 b1 b2 : interp_r img loc = Some y → sh loc = [n; 3] → r < n → affine img a0 b0 b1 b2 →
  (∀ c, c < 3 → within (nth c (sh img) 0) (at_ loc [r; c])) →
  at_ y [r] = (a0 + b0 * at_ loc [r; 0%nat] + b1 * at_ loc [r; 1%nat] + b2 * at_ loc [r; 2%nat])%R.
Proof.
  intros Hy Hl Hr HA Hw. destruct (interp_r_dims _ _ _ Hy) as (n' & Hd & Hsy & HV). pose proof Hd as Hd'.
  apply interp_dims_is in Hd as (HE & El & _). rewrite Hl in El. injection El as <-.
  rewrite (at_1 y n) by done. rewrite HV by done. unfold value_at.
  pose proof (cell_inside img loc n r Hd') as Hin.
  rewrite (rs_ext 3 _ (λ c, nth c [b0; b1; b2] 0 * (at_ loc [r; c] - INR (nth c (cell img loc r) 0%nat)))%R).
  - rewrite HA by done. unfold rsum. cbn [seq fmap list_fmap foldr nth]. ring_simplify. lra.
  - intros c Hc. rewrite (gradient_affine img a0 b0 b1 b2) by done. f_equal. rewrite nth_cell by done.
    unfold coord at 1. rewrite <- (at_2 loc n 3) by done. by rewrite clip_within by (by apply Hw).
Qed.

(** Derivatives *)
Lemma near_between (f : R → R) a b l : (a < f 0 < b)%R → derivable_pt_lim f 0%R l → near (λ t, a < f t < b)%R.
Proof.
  intros [H1 H2] Hd. apply deriv_cont in Hd. assert (He : (0 < Rmin (f 0 - a) (b - f 0))%R) by (apply Rmin_pos; lra).
  destruct (Hd _ He) as (d & Hd0 & HD). exists d. split; [lra|]. intros t Ht.
  destruct (Req_EM_T t 0) as [->|Hne]; [done|].
  specialize (HD t). unfold dist in HD. simpl in HD. unfold R_dist in HD. rewrite Rminus_0_r in HD.
  assert (HH : (Rabs (f t - f 0) < Rmin (f 0 - a) (b - f 0))%R). { apply HD. split; [split; [done|congruence]|done]. }
  pose proof (Rmin_l (f 0%R - a) (b - f 0%R)). pose proof (Rmin_r (f 0%R - a) (b - f 0%R)). apply Rabs_def2 in HH. lra.
Qed.
(** Near 0 a coordinate stays in its cell, or stays clipped. *)
Lemma coord_near d (f : R → R) l : 2 ≤ d → derivable_pt_lim f 0%R l → in_cell d (f 0%R) →
  near (λ t, clip (f t) d = f t ∧ cellno (clip (f t) d) = cellno (clip (f 0%R) d)).
Proof.
  intros Hd Hl Hc. pose proof Hc as (k & Hk & H1 & H2). eapply near_mono; [|exact (near_between f _ _ l (conj H1 H2) Hl)].
  intros t Ht. cbv beta in Ht. assert (Hct : in_cell d (f t)) by (exists k; split; [done|lra]).
  rewrite !clip_within by (by apply in_cell_within). split; [done|]. rewrite S_INR in *.
  rewrite (cellno_is (f t) k) by lra. symmetry. apply cellno_is. lra.
Qed.
Lemma coord_far d (f : R → R) l : 2 ≤ d → derivable_pt_lim f 0%R l → beyond d (f 0%R) → near (λ t, clip (f t) d = clip (f 0%R) d).
Proof.
  intros Hd Hl [Hb|Hb].
  - eapply near_mono; [|exact (near_between f (f 0%R - 1) 0 l ltac:(lra) Hl)]. intros t Ht. cbv beta in Ht.
    rewrite !clip_beyond by (done || by left; lra). destruct (Rlt_dec _ _), (Rlt_dec _ _); lra.
  - pose proof (INR_1 d Hd). eapply near_mono; [|exact (near_between f (INR d - 1) (f 0%R + 1) l ltac:(lra) Hl)]. intros t Ht. cbv beta in Ht.
    rewrite !clip_beyond by (done || by right; lra). destruct (Rlt_dec _ _), (Rlt_dec _ _); lra.
Qed.
(** The derivative at locations none of whose coordinates is a grid point within the volume. *)
Definition clear_of (img loc : arr R) (n : nat) : Prop :=
  ∀ r c, r < n → c < 3 → in_cell (nth c (sh img) 0) (dat loc (r * 3 + c)) ∨ beyond (nth c (sh img) 0) (dat loc (r * 3 + c)).
Definition true_slope (img loc : arr R) (r c : nat) : R :=
  if Rlt_dec (dat loc (r * 3 + c)) 0 then 0%R else if Rlt_dec (INR (nth c (sh img) 0%nat) - 1) (dat loc (r * 3 + c)) then 0%R
  else at_ (gradient c img) (cell img loc r).
Lemma interp_diff img loc n : interp_dims img loc = Some n → clear_of img loc n →
  diff1 (λ x, default x (interp_r img x)) (interp_mat n (true_slope img loc)) loc.
Proof.
  intros Hd HC u v Hu Mu. pose proof (proj1 (interp_dims_is _ _ _) Hd) as (HE & El & Hn).
  assert (Hdt : ∀ r c, r < n → c < 3 → derivable_pt_lim (λ t, dat (u t) (r * 3 + c)) 0%R (v (r * 3 + c)%nat)).
  { intros r c Hr Hc. apply (amoves_dat u v); [done|]. rewrite Hu. unfold asize. rewrite El, size_2. by apply flat_lt. }
  assert (HN : near (λ t, ∀ rc, rc ∈ seq 0 (n * 3) → 
     cellno (coord img (u t) (rc / 3) (rc mod 3)) = cellno (coord img loc (rc / 3) (rc mod 3)) ∧
     (in_cell (nth (rc mod 3) (sh img) 0) (dat loc rc) → coord img (u t) (rc / 3) (rc mod 3) = dat (u t) rc) ∧
     (beyond (nth (rc mod 3) (sh img) 0) (dat loc rc) → coord img (u t) (rc / 3) (rc mod 3) = coord img loc (rc / 3) (rc mod 3)))).
  { apply near_list. intros rc Hrc%elem_of_seq. set (r := rc / 3). set (c := rc mod 3).
    assert (Hc : c < 3) by (apply Nat.mod_upper_bound; lia). assert (Hr : r < n) by (apply Nat.div_lt_upper_bound; lia).
    assert (Erc : rc = r * 3 + c) by (subst r c; rewrite Nat.mul_comm; apply Nat.div_mod; lia).
    pose proof (dims_ge _ _ _ c Hd Hc) as Hge. specialize (Hdt r c Hr Hc). rewrite Erc. unfold coord. 
    assert (HU : dat (u 0%R) (r * 3 + c) = dat loc (r * 3 + c)) by (by rewrite Hu).
    destruct (HC r c Hr Hc) as [Hin|Hout].
    - rewrite <- HU in Hin. eapply near_mono; [|exact (coord_near _ _ _ Hge Hdt Hin)]. intros t [E1 E2]. cbv beta in *. rewrite <- HU. split_and!; [done|done|].
      intros Hb. exfalso. apply in_cell_within in Hin. unfold within, beyond in *. lra.
    - rewrite <- HU in Hout. eapply near_mono; [|exact (coord_far _ _ _ Hge Hdt Hout)]. intros t E2. cbv beta in *. rewrite <- HU. split_and!; [by rewrite E2| |done].
      intros Hb. exfalso. apply in_cell_within in Hb. unfold within, beyond in *. lra. }
  assert (HN2 : near (λ t, interp_dims img (u t) = Some n)).
  { eapply near_mono; [|exact (amoves_shape _ _ Mu)]. intros t Et. cbv beta in Et. rewrite Hu in Et. unfold interp_dims in *. by rewrite Et. }
  apply (amoves_intro _ _ [n]).
  - eapply near_mono; [|exact HN2]. intros t Et. cbv beta. destruct (interp_r_is img (u t) n Et) as (y & -> & Hs & _). done.
  - intros r Hr. rewrite size_1 in Hr. rewrite interp_mat_act by done.
    apply (deriv_near (λ t, at_ img (cell img loc r) + rs 3 (λ c, at_ (gradient c img) (cell img loc r) *
      ((if Rlt_dec (dat loc (r * 3 + c)) 0 then coord img loc r c else if Rlt_dec (INR (nth c (sh img) 0%nat) - 1) (dat loc (r * 3 + c)) then coord img loc r c else dat (u t) (r * 3 + c))
        - INR (cellno (coord img loc r c)))))%R).
    + eapply near_mono; [|exact (near_and _ _ HN HN2)]. intros t [Hall Et]. cbv beta. destruct (interp_r_is img (u t) n Et) as (y & -> & _ & HV). cbn [default from_option].
      rewrite HV by done. unfold value_at.
      assert (HA : ∀ c, c < 3 → cellno (coord img (u t) r c) = cellno (coord img loc r c) ∧
        (in_cell (nth c (sh img) 0) (dat loc (r * 3 + c)) → coord img (u t) r c = dat (u t) (r * 3 + c)) ∧
        (beyond (nth c (sh img) 0) (dat loc (r * 3 + c)) → coord img (u t) r c = coord img loc r c)).
      { intros c Hc. specialize (Hall (r * 3 + c)). rewrite div3, mod3 in Hall by done. apply Hall. apply elem_of_seq. split; [lia|]. apply (flat_lt n 3 r c Hr Hc). }
      assert (Ec : cell img (u t) r = cell img loc r). { unfold cell. simpl. by rewrite (proj1 (HA 0 ltac:(lia))), (proj1 (HA 1 ltac:(lia))), (proj1 (HA 2 ltac:(lia))). }
      rewrite Ec. f_equal. apply rs_ext. intros c Hc. destruct (HA c Hc) as (E1 & E2 & E3). rewrite E1. f_equal. f_equal.
      destruct (HC r c Hr Hc) as [Hin|Hout].
      * rewrite E2 by done. apply in_cell_within in Hin as [W1 W2]. destruct (Rlt_dec _ _); [lra|]. destruct (Rlt_dec _ _); [lra|done].
      * rewrite E3 by done. destruct (Rlt_dec _ _); [done|]. destruct (Rlt_dec _ _); [done|]. unfold beyond in Hout. lra.
    + refine (lim_eq _ _ _ _ _ (derivable_pt_lim_plus (λ _, at_ img (cell img loc r)) (λ t, rs 3 _) 0%R 0%R _ (deriv_const _) (deriv_rs 3 _ _ _))).
      * rewrite Rplus_0_l. reflexivity.
      * intros c Hc. cbv beta. unfold true_slope. destruct (Rlt_dec _ _); [|destruct (Rlt_dec _ _)].
        { apply (lim_eq _ _ 0%R); [lra|]. apply deriv_const. }
        { apply (lim_eq _ _ 0%R); [lra|]. apply deriv_const. }
        apply deriv_scal. refine (lim_eq _ _ _ _ _ (derivable_pt_lim_minus (λ t, dat (u t) (r * 3 + c)) (λ _, INR (cellno (coord img loc r c))) 0%R _ 0%R (Hdt r c Hr Hc) (deriv_const _))). lra.
  - intros i Hi. rewrite size_1 in Hi. destruct (interp_mat_fits n (true_slope img loc)) as (Hr & _ & HR). apply mact_out; [done|]. by rewrite Hr.
Qed.

Lemma interp_jac_is img loc J : interp_jac img loc = Some J → ∃ n, interp_dims img loc = Some n ∧ J = interp_mat n (λ r c, at_ (gradient c img) (cell img loc r)).
Proof. unfold interp_jac. intros (n & Hd & [= <-])%bind_Some. by exists n. Qed.
Lemma inside_rc n r c : inside [n; 3] [r; c] ↔ r < n ∧ c < 3.
Proof.
  unfold inside. split; [|intros [? ?]; constructor; [done|]; constructor; [done|constructor]]. intros H.
  apply Forall2_cons in H as [H1 H2]. apply Forall2_cons in H2 as [H2 _]. done.
Qed.
Lemma clear_is img loc n : sh loc = [n; 3] → between_grid img loc → clear_of img loc n.
Proof. intros Hl HB r c Hr Hc. rewrite <- (at_2 loc n 3) by done. apply HB. rewrite Hl. by apply inside_rc. Qed.
Lemma interp_some img loc : is_Some (interp_jac img loc) ↔ is_Some (interp_r img loc).
Proof. unfold interp_r, interp_jac. destruct (interp_dims img loc); cbn [mbind option_bind]; [split; intros _; by eexists|]. split; by intros [? ?]. Qed.

Lemma interp_jacobian img loc y : interp_r img loc = Some y →
  (∀ r c, inside (sh loc) [r; c] → in_cell (nth c (sh img) 0) (at_ loc [r; c])) →
  ∃ J, interp_jac img loc = Some J ∧ fits J (asize y) (asize loc) ∧ diff1 (λ x, default x (interp_r img x)) J loc.
Proof.
  intros Hy HC. destruct (interp_r_dims _ _ _ Hy) as (n & Hd & Hsy & _). pose proof (proj1 (interp_dims_is _ _ _) Hd) as (_ & El & _).
  unfold interp_jac. rewrite Hd. cbn [mbind option_bind]. eexists. split; [reflexivity|]. split.
  { unfold asize. rewrite Hsy, El, size_1, size_2. apply interp_mat_fits. }
  assert (HB : clear_of img loc n). { apply clear_is; [done|]. intros r c Hi. left. by apply HC. }
  intros u v Hu Mu. eapply amoves_ext; [|exact (interp_diff img loc n Hd HB u v Hu Mu)]. intros i.
  destruct (decide (i < n)) as [Hi|Hi].
  - rewrite !interp_mat_act by done. apply rs_ext. intros c Hc. f_equal. unfold true_slope.
    assert (Hw : within (nth c (sh img) 0) (dat loc (i * 3 + c))).
    { apply in_cell_within. rewrite <- (at_2 loc n 3) by done. apply HC. rewrite El. by apply inside_rc. }
    destruct Hw. destruct (Rlt_dec _ _); [lra|]. destruct (Rlt_dec _ _); [lra|done].
  - destruct (interp_mat_fits n (true_slope img loc)) as (H1 & _ & H2). rewrite mact_out by (done || rewrite H1; lia).
    destruct (interp_mat_fits n (λ r c, at_ (gradient c img) (cell img loc r))) as (H3 & _ & H4). rewrite mact_out by (done || rewrite H3; lia). done.
Qed.
Lemma interp_outside img loc J r c : interp_jac img loc = Some J → between_grid img loc → inside (sh loc) [r; c] →
  beyond (nth c (sh img) 0) (at_ loc [r; c]) → entry J r (ravel (sh loc) [r; c]) ≠ 0%R →
  ¬ diff1 (λ x, default x (interp_r img x)) J loc ∧
  ∃ K, fits K (nrow J) (ncol J) ∧ diff1 (λ x, default x (interp_r img x)) K loc.
Proof.
  intros HJ HB Hi Hb He. destruct (interp_jac_is _ _ _ HJ) as (n & Hd & ->). pose proof (proj1 (interp_dims_is _ _ _) Hd) as (_ & El & _).
  rewrite El in *. apply inside_rc in Hi as [Hr Hc]. pose proof (interp_diff img loc n Hd (clear_is _ _ _ El HB)) as HD.
  rewrite (at_2 loc n 3) in Hb by done. assert (Erv : ravel [n; 3] [r; c] = r * 3 + c). { cbn. lia. } rewrite Erv in He. split.
  - intros HJD. assert (Hlt : r * 3 + c < asize loc). { unfold asize. rewrite El, size_2. by apply flat_lt. }
    pose proof (diff1_entry _ _ _ _ r _ HJD HD Hlt) as E. rewrite (interp_mat_entry n (true_slope img loc)) in E by done. apply He. rewrite E. unfold true_slope.
    destruct (Rlt_dec _ _); [done|]. destruct (Rlt_dec _ _); [done|]. unfold beyond in Hb. lra.
  - exists (interp_mat n (true_slope img loc)). split; [apply interp_mat_fits|done].
Qed.
Lemma closest_clip d x y : closest d x y → 2 ≤ d → y = clip x d.
Proof.
  intros [Hw Hc] Hd. pose proof (clip_range x d Hd) as Hr. specialize (Hc _ Hr). pose proof (INR_1 d Hd).
  unfold within in *. unfold clip, Rmin, Rmax in *. revert Hc. repeat destruct (Rle_dec _ _); unfold Rabs; repeat destruct (Rcase_abs _); lra.
Qed.
Lemma interp_closest img loc loc' y : interp_r img loc = Some y → sh loc' = sh loc →
  (∀ r c, inside (sh loc) [r; c] → closest (nth c (sh img) 0) (at_ loc [r; c]) (at_ loc' [r; c])) →
  ∃ y', interp_r img loc' = Some y' ∧ aeq y' y.
Proof.
  intros Hy Hs HC. destruct (interp_r_dims _ _ _ Hy) as (n & Hd & Hsy & HV). pose proof (proj1 (interp_dims_is _ _ _) Hd) as (_ & El & _).
  assert (Hd' : interp_dims img loc' = Some n) by (unfold interp_dims in *; by rewrite Hs).
  destruct (interp_r_is img loc' n Hd') as (y' & Hy' & Hsy' & HV'). exists y'. split; [done|]. split; [congruence|]. unfold asize. rewrite Hsy', size_1.
  intros r Hr. rewrite HV, HV' by done.
  assert (HE : ∀ c, c < 3 → coord img loc' r c = coord img loc r c).
  { intros c Hc. pose proof (dims_ge _ _ _ c Hd Hc) as Hge. specialize (HC r c). rewrite El in *. specialize (HC (proj2 (inside_rc n r c) (conj Hr Hc))).
    pose proof (closest_clip _ _ _ HC Hge) as E. destruct HC as [Hw _]. rewrite (at_2 loc n 3), (at_2 loc' n 3) in * by congruence. unfold coord. rewrite (clip_within (dat loc' _)) by done. done. }
  assert (Ec : cell img loc' r = cell img loc r). { unfold cell. simpl. by rewrite !HE by lia. }
  unfold value_at. rewrite Ec. f_equal. apply rs_ext. intros c Hc. by rewrite HE.
Qed.
