(** The reductions, extrema and clip satisfy what the chain rule of C20 asks for. *)
From Coq Require Import Reals Lra.
From stdpp Require Import gmap strings list list_numbers numbers relations.
From Verif Require Import EngineModel EngineSpec EngineEval EngineInv EngineHist EngineThms GraphSpec RevModel RevSpec RevThms
  ArrModel Curve ArrThms AdSpec AdThms AdHist ElemModel ElemSpec ElemThms ReorderModel ReorderSpec ReorderThms ReorderCache
  NpModel NpSpec NpThms ReorderOps ViewSpec ViewThms RedModel RedSpec RedThms RedThms2 ExtThms RedOps.

(* ------------------------------------------------------------------ *)
(** Operations with two operands. *)
Lemma two_op_right p tms q1 q2 a b (f : arr R → arr R → arr R) :
  (q1 = q2 → a = b) →
  (∀ x y, sh x = sh a → sh y = sh b → np_r p tms [x; y] = Some (f x y)) →
  (q1 = q2 → ∃ J, np_jac p tms [a; a] [true; true] = Some (Some J) ∧ diff1 (λ x, f x x) J a) →
  (q1 ≠ q2 → ∃ Ja Jb, np_jac p tms [a; b] [true; false] = Some (Some Ja) ∧ np_jac p tms [a; b] [false; true] = Some (Some Jb) ∧ diff2 f Ja Jb a b) →
  op_right p tms [q1; q2] [a; b].
Proof.
  intros Hpq Hf Hsame Hdiff. destruct (decide (q1 = q2)) as [<-|Hne].
  - rewrite <- (Hpq eq_refl) in *. destruct (Hsame eq_refl) as (J & HJ & Hd). exists (λ _, Some J). split.
    + intros r Hr. assert (r = q1) as -> by set_solver. cbn [fmap list_fmap]. rewrite !bool_decide_true by done. done.
    + intros rho V Ha Hm. simpl in Ha. injection Ha as Ha. assert (Hq : amoves (rho q1) (V q1)) by (apply Hm, elem_of_list_here).
      exists (λ t, f (rho q1 t) (rho q1 t)). split.
      * eapply near_mono; [|exact (amoves_shape _ _ Hq)]. intros t Ht. simpl. apply Hf; by rewrite Ht, Ha.
      * rewrite remove_dups_same. eapply amoves_ext; [|apply (Hd (rho q1) (V q1) Ha Hq)].
        intros i. unfold sumR. simpl. ring.
  - destruct (Hdiff Hne) as (Ja & Jb & HJa & HJb & Hd).
    exists (λ r, if decide (r = q1) then Some Ja else Some Jb). split.
    + intros r Hr. cbn [fmap list_fmap]. destruct (decide (r = q1)) as [->|Hrp].
      * rewrite bool_decide_true, bool_decide_false by congruence. done.
      * assert (r = q2) as -> by set_solver. rewrite bool_decide_false, bool_decide_true by congruence. done.
    + intros rho V Ha Hm. simpl in Ha. injection Ha as Ha Hb'. exists (λ t, f (rho q1 t) (rho q2 t)).
      assert (Hp : amoves (rho q1) (V q1)) by (apply Hm; set_solver).
      assert (Hq : amoves (rho q2) (V q2)) by (apply Hm; set_solver). split.
      * pose proof (curve_shape2 _ _ _ _ Hp Hq) as Hn. eapply near_mono; [|exact Hn].
        intros t (_ & H2 & H3). simpl. apply Hf; congruence.
      * eapply amoves_ext; [|apply (Hd (rho q1) (V q1) (rho q2) (V q2) Ha Hb' Hp Hq)].
        intros i. cbv beta. rewrite (sumR_perm _ _ (fmap_Permutation _ _ _ (remove_dups_two q1 q2 Hne))).
        unfold sumR. simpl. rewrite decide_True by done. rewrite decide_False by congruence. simpl. ring.
Qed.
Lemma fine_two (g : graph) x c p k1 k2 q1 q2 a b (f : arr R → arr R → arr R) : g !! x = Some c → c_cls nplib c = NOp p →
  c_dt nplib c = np_dt p → c_tm nplib c = np_tm p → np_dt p = [k1; k2] → k1 ≠ k2 →
  c_attr nplib c !! k1 = Some (@ARef nplib q1) → c_attr nplib c !! k2 = Some (@ARef nplib q2) →
  denotes nplib g q1 QR a → denotes nplib g q2 QR b →
  (∀ x y, sh x = sh a → sh y = sh b → np_r p (terms_of p (plain nplib c)) [x; y] = Some (f x y)) →
  (q1 = q2 → ∃ J, np_jac p (terms_of p (plain nplib c)) [a; a] [true; true] = Some (Some J) ∧ diff1 (λ x, f x x) J a) →
  (q1 ≠ q2 → ∃ Ja Jb, np_jac p (terms_of p (plain nplib c)) [a; b] [true; false] = Some (Some Ja) ∧
    np_jac p (terms_of p (plain nplib c)) [a; b] [false; true] = Some (Some Jb) ∧ diff2 f Ja Jb a b) → fine_at g x.
Proof.
  intros Hc Hcls Hdt Htm Hk Hkk H1 H2 Ha Hb Hf Hsame Hdiff. exists c. split; [done|]. rewrite Hcls. split_and!; [done..|].
  assert (Hab : q1 = q2 → a = b) by (intros ->; by eapply (denotes_det nplib)).
  exists [q1; q2], [a; b]. rewrite Hk. split_and!; [by repeat constructor|by repeat constructor|repeat constructor; set_solver|by apply (two_op_right p _ q1 q2 a b f)|].
  intros r Hr E. exfalso. cbn [fmap list_fmap] in E. destruct (decide (q1 = q2)) as [<-|Hne].
  - destruct (Hsame eq_refl) as (J & HJ & _). rewrite <- (Hab eq_refl) in E. assert (r = q1) as -> by set_solver.
    rewrite !bool_decide_true in E by done. rewrite HJ in E. done.
  - destruct (Hdiff Hne) as (Ja & Jb & HJa & HJb & _). destruct (decide (r = q1)) as [->|Hrp].
    + rewrite bool_decide_true, bool_decide_false in E by congruence. rewrite HJa in E. done.
    + assert (r = q2) as -> by set_solver. rewrite bool_decide_false, bool_decide_true in E by congruence. rewrite HJb in E. done.
Qed.

(* ------------------------------------------------------------------ *)
(** Local Jacobians. *)
Lemma red_op_right m tms ax q a y : axis_term tms = Some ax → red_r m ax a = Some y →
  (m = Fmean → ax = None → nth 0 (sh a) 0 = asize a) → op_right (op_red m) tms [q] [a].
Proof.
  intros Hax Hy Hm. destruct (red_jacobian m ax a y Hy Hm) as (J & HJ & _ & _ & Hd).
  apply (one_op_right (op_red m) tms q a J (λ x, default x (red_r m ax x))); [| |done].
  - simpl. rewrite Hax. simpl. by rewrite HJ.
  - intros z Hz. simpl. rewrite Hax. simpl. destruct (red_right m ax a y Hy Hm) as (J' & _ & _ & _ & Hr).
    destruct (Hr z Hz) as (w & -> & _). done.
Qed.
Lemma cumsum_op_right tms q a : axis_term tms = Some None → op_right op_cumsum tms [q] [a].
Proof.
  intros Hax. destruct (cumsum_right a) as (J & y & HJ & Hy & _ & _ & _ & _ & Hd).
  apply (one_op_right op_cumsum tms q a J (λ x, default x (cumsum_r None x))); [| |done].
  - simpl. rewrite Hax. cbn [mbind option_bind]. by rewrite HJ.
  - intros z Hz. simpl. rewrite Hax. done.
Qed.
Lemma sos_op_right tms q a : op_right op_sos tms [q] [a].
Proof. destruct (sos_right a) as (_ & _ & Hd). by apply (one_op_right op_sos tms q a (sos_jac a) sos_r). Qed.
Lemma ext_op_right mx tms ax q a y : axis_term tms = Some ax → ext_r mx ax a = Some y → sole mx ax a → op_right (op_ext mx) tms [q] [a].
Proof.
  intros Hax Hy Hs. destruct (ext_right mx ax a y Hy) as (J & HJ & _ & _ & Hd).
  apply (one_op_right (op_ext mx) tms q a J (λ x, default x (ext_r mx ax x))); [| |by apply Hd].
  - simpl. rewrite Hax. cbn [mbind option_bind]. by rewrite HJ.
  - intros z Hz. simpl. rewrite Hax. cbn [mbind option_bind]. destruct (ext_r_sh mx ax a z y Hy Hz) as (w & -> & _). done.
Qed.
Lemma clip_op_right q lo hi a : (lo <= hi)%R → unary_shape (sh a) → (∀ i, i < asize a → dat a i ≠ lo ∧ dat a i ≠ hi) →
  op_right op_clip [Some (NArr (full [] lo)); Some (NArr (full [] hi))] [q] [a].
Proof.
  intros Hle Hs Hd. destruct (clip_right lo hi a Hle Hs Hd) as (J & HJ & _ & _ & Hdiff).
  apply (one_op_right op_clip _ q a J (clip_r lo hi)); [|done|done]. cbn [np_jac op_clip full dat]. by rewrite HJ.
Qed.
Lemma ext2_op_right mx tms q1 q2 a b out : bshape (sh a) (sh b) = Some out → (q1 = q2 → a = b) →
  (q1 ≠ q2 → ∀ i, i < size out → v1 a b out i ≠ v2 a b out i) → op_right (op_ext2 mx) tms [q1; q2] [a; b].
Proof.
  intros Hout Heq Hne. apply (two_op_right (op_ext2 mx) tms q1 q2 a b (ext2_r mx)); try done.
  - intros y z Hy Hz. simpl. rewrite Hy, Hz, Hout. done.
  - intros _. destruct (ext2_same mx a) as (J & HJ & _ & _ & Hd). exists J. split; [simpl; by rewrite HJ|done].
  - intros Hq. destruct (ext2_right mx a b out Hout) as (Ja & Jb & HJa & HJb & _ & _ & _ & _ & Hd). exists Ja, Jb.
    split; [simpl; by rewrite HJa|]. split; [simpl; by rewrite HJb|]. by apply Hd, Hne.
Qed.

(* ------------------------------------------------------------------ *)
(** Statements on multi-indices, for maximum and minimum. *)
Lemma v1_at a b out i jx : bshape (sh a) (sh b) = Some out → i < size out → feeds (sh a) (unravel out i) jx → v1 a b out i = at_ a jx.
Proof.
  intros Hb Hi Hf. destruct (bidx_feeds (sh a) out i) as (kx & Hk & _ & He & _); [by eapply bshape_l|done|].
  unfold v1. rewrite He. unfold at_. f_equal. f_equal. by eapply feeds_unique.
Qed.
Lemma v2_at a b out i jx : bshape (sh a) (sh b) = Some out → i < size out → feeds (sh b) (unravel out i) jx → v2 a b out i = at_ b jx.
Proof.
  intros Hb Hi Hf. destruct (bidx_feeds (sh b) out i) as (kx & Hk & _ & He & _); [by eapply bshape_r|done|].
  unfold v2. rewrite He. unfold at_. f_equal. f_equal. by eapply feeds_unique.
Qed.
Lemma ext2_value mx a b out i jx kx : bshape (sh a) (sh b) = Some out → i < size out →
  feeds (sh a) (unravel out i) jx → feeds (sh b) (unravel out i) kx →
  sh (ext2_r mx a b) = out ∧ dat (ext2_r mx a b) i = if mx then Rmax (at_ a jx) (at_ b kx) else Rmin (at_ a jx) (at_ b kx).
Proof.
  intros Hb Hi Hj Hk. split; [by apply bop_sh|]. unfold ext2_r. rewrite (bop_dat _ _ _ out) by done.
  pose proof (v1_at a b out i jx Hb Hi Hj) as E1. pose proof (v2_at a b out i kx Hb Hi Hk) as E2. unfold v1, v2 in *. rewrite E1, E2. done.
Qed.
Lemma wins_if {A} mx x y (p q : A) : (if wins mx x y then p else q) = if decide (attains mx x y) then p else q.
Proof.
  destruct (wins mx x y) eqn:E.
  - apply wins_true in E. rewrite decide_True; [done|]. exact E.
  - rewrite decide_False; [done|]. intros H. assert (wins mx x y = true) by (by apply wins_true). congruence.
Qed.
Lemma ext2_jacobians mx a b out : bshape (sh a) (sh b) = Some out → ∃ Ja Jb,
  ext2_jac mx true false a b = Some Ja ∧ ext2_jac mx false true a b = Some Jb ∧
  fits Ja (size out) (asize a) ∧ fits Jb (size out) (asize b) ∧
  (∀ i jx kx, i < size out → feeds (sh a) (unravel out i) jx → feeds (sh b) (unravel out i) kx →
    (∀ q, entry Ja i q = if decide (attains mx (at_ a jx) (at_ b kx) ∧ q = ravel (sh a) jx) then 1%R else 0%R) ∧
    (∀ q, entry Jb i q = if decide (attains mx (at_ b kx) (at_ a jx) ∧ q = ravel (sh b) kx) then 1%R else 0%R)) ∧
  ((∀ ix jx kx, inside out ix → feeds (sh a) ix jx → feeds (sh b) ix kx → at_ a jx ≠ at_ b kx) → diff2 (ext2_r mx) Ja Jb a b).
Proof.
  intros Hb. destruct (ext2_right mx a b out Hb) as (Ja & Jb & HJa & HJb & Fa & Fb & Aa & Ab & Hd). exists Ja, Jb.
  split_and!; [done|done|done|done| |].
  - intros i jx kx Hi Hj Hk. rewrite <- (v1_at a b out i jx Hb Hi Hj), <- (v2_at a b out i kx Hb Hi Hk).
    destruct (bidx_feeds (sh a) out i) as (jx' & Hj' & _ & He & _); [by eapply bshape_l|done|].
    destruct (bidx_feeds (sh b) out i) as (kx' & Hk' & _ & He' & _); [by eapply bshape_r|done|].
    rewrite (feeds_unique _ _ _ _ Hj Hj'), (feeds_unique _ _ _ _ Hk Hk'), <- He, <- He'. split; intros q; rewrite <- mact_unit.
    + rewrite Aa by done. rewrite wins_if. unfold unit_. repeat destruct (decide _) as [?|?]; try done; exfalso; naive_solver.
    + rewrite Ab by done. rewrite wins_if. unfold unit_. repeat destruct (decide _) as [?|?]; try done; exfalso; naive_solver.
  - intros Hne. apply Hd. intros i Hi.
    destruct (bidx_feeds (sh a) out i) as (jx & Hj & _ & He & _); [by eapply bshape_l|done|].
    destruct (bidx_feeds (sh b) out i) as (kx & Hk & _ & He' & _); [by eapply bshape_r|done|].
    rewrite (v1_at a b out i jx Hb Hi Hj), (v2_at a b out i kx Hb Hi Hk). apply (Hne (unravel out i)); [by apply unravel_inside|done|done].
Qed.
(** The value along an axis. *)
Lemma ext_value mx ax a y : ext_r mx ax a = Some y → reduced ax (sh a) (sh y) ∧
  ∀ i l, i < asize y → gathers ax (sh a) i l → ∃ p, extreme mx a l p ∧ dat y i = dat a p.
Proof.
  intros Hy. destruct (ext_jac_rows mx ax a y Hy) as (J & col & _ & _ & _ & Hred & Hrow). split; [done|]. intros i l Hi Hl.
  destruct (Hrow i Hi) as (l' & Hl' & Hc & Hv & _). exists (col i). split; [|done]. eapply extreme_perm; [|exact Hc]. by eapply gathers_perm.
Qed.
(** Wherever an element of the axis exists, an extremum does. *)
Lemma ext_defined mx ax a : 0 < size (sh a) → (∀ k, ax = Some k → ∃ k', axis_is (length (sh a)) k k') → ext_r mx ax a ≠ None.
Proof.
  intros Hp Hax. unfold ext_r, np_fold. destruct ax as [k|]; simpl.
  - destruct (Hax k eq_refl) as (k' & Hk). rewrite (proj2 (naxis_is _ _ _) Hk). simpl. destruct (axis_dim _ _ _ Hk) as [d Hd]. rewrite Hd. simpl.
    rewrite (size_delete _ _ _ Hd) in Hp. rewrite decide_False by nia. done.
  - rewrite decide_False by lia. done.
Qed.

(* ------------------------------------------------------------------ *)
(** Forms used in RedProps. *)
Lemma red_value m ax a y : red_r m ax a = Some y → reduced ax (sh a) (sh y) ∧
  ∀ i, i < asize y → ∃ l, gathers ax (sh a) i l ∧
    dat y i = match m with Fsum => rsum (dat a <$> l) | Fmean => average (dat a <$> l) end.
Proof.
  intros Hy. destruct (np_fold_value _ _ _ _ Hy) as [H1 H2]. split; [done|]. intros i Hi. destruct (H2 i Hi) as (l & Hl & ->).
  exists l. split; [done|]. by destruct m.
Qed.
Lemma sum_jacobian ax a y : red_r Fsum ax a = Some y → ∃ J,
  red_jac Fsum ax a = Some J ∧ fits J (asize y) (asize a) ∧
  (∀ i, i < asize y → ∃ l, gathers ax (sh a) i l ∧ ∀ p, entry J i p = if decide (p ∈ l) then 1%R else 0%R) ∧
  diff1 (λ x, default x (red_r Fsum ax x)) J a.
Proof. intros Hy. by apply (red_jacobian Fsum ax a y Hy). Qed.
Lemma mean_jacobian ax a y : red_r Fmean ax a = Some y → (ax = None → nth 0 (sh a) 0 = asize a) → ∃ J,
  red_jac Fmean ax a = Some J ∧ fits J (asize y) (asize a) ∧
  (∀ i, i < asize y → ∃ l, gathers ax (sh a) i l ∧ ∀ p, entry J i p = if decide (p ∈ l) then (1 / INR (length l))%R else 0%R) ∧
  diff1 (λ x, default x (red_r Fmean ax x)) J a.
Proof. intros Hy Hm. by apply (red_jacobian Fmean ax a y Hy). Qed.
Lemma var_refuted : ∃ a y, var_r None a = Some y ∧ dat y 0 ≠ variance (elems a).
Proof. destruct var_wrong as (y & Hy & E1 & E2). exists two_ones, y. split; [done|]. rewrite E1, E2. lra. Qed.
Lemma ext_case : let a := of_list 0%R [2; 2] [1; 2; 4; 3]%R in
  (∃ y, ext_r true (Some 1%Z) a = Some y ∧ sh y = [2]) ∧ gathers (Some 1%Z) [2; 2] 1 [2; 3] ∧ extreme true a [2; 3] 2 ∧ sole true (Some 1%Z) a ∧
  ∃ k', axis_is (length (sh a)) 1 k'.
Proof.
  intros a. assert (Hax : axis_is 2 1 1) by (split; [lia|left; done]).
  assert (Hg : ∀ i, i < 2 → gathers (Some 1%Z) [2; 2] i (slice 1 [2; 2] i)).
  { intros i Hi. by apply (slice_gathers 1 1 2 [2; 2] i Hax eq_refl). }
  split_and!.
  - eexists. split; [reflexivity|done].
  - exact (Hg 1 ltac:(lia)).
  - split; [set_solver|]. intros q [->|[->|Hq%elem_of_nil]%elem_of_cons]%elem_of_cons; [| |done]; simpl; (split; [lra|]); [lia|lra].
  - assert (Hd : ∀ p q, p < 4 → q < 4 → p ≠ q → dat a p ≠ dat a q).
    { intros p q Hp Hq Hne. do 4 (destruct p as [|p]; [do 4 (destruct q as [|q]; [simpl; (lra || lia)|]); lia|]). lia. }
    intros i l p q Hl [Hp _] Hq Hne. apply Hd; [apply Hl in Hq as [Hq _]; exact Hq|apply Hl in Hp as [Hp _]; exact Hp|done].
  - by exists 1.
Qed.
Lemma ext2_tie_refuted mx : ∃ a Ja Jb, ext2_jac mx true false a a = Some Ja ∧ ext2_jac mx false true a a = Some Jb ∧
  ¬ diff2 (ext2_r mx) Ja Jb a a.
Proof. destruct (ext2_tie mx) as (Ja & Jb & H). by exists (full [1] 0%R), Ja, Jb. Qed.
Lemma ext2_case : let a := of_list 0%R [2; 1] [1; 5]%R in let b := of_list 0%R [2] [3; 4]%R in
  bshape (sh a) (sh b) = Some [2; 2] ∧ feeds (sh a) (unravel [2; 2] 3) [1; 0] ∧ feeds (sh b) (unravel [2; 2] 3) [1] ∧
  (∀ ix jx kx, inside [2; 2] ix → feeds (sh a) ix jx → feeds (sh b) ix kx → at_ a jx ≠ at_ b kx).
Proof.
  intros a b. split_and!; [done|exists [], [1; 1]; done|exists [1], [1]; done|].
  intros ix jx kx Hin (l1 & t1 & E1 & L1 & ->) (l2 & t2 & E2 & L2 & ->). unfold inside in Hin.
  inversion Hin as [|i ? is ? Hi Hin']; subst. inversion Hin' as [|j ? js ? Hj Hin'']; subst. inversion Hin''; subst.
  destruct t1 as [|u1 [|u2 [|? ?]]]; simpl in L1; try lia. destruct t2 as [|w1 [|? ?]]; simpl in L2; try lia.
  assert (u1 = i ∧ w1 = j) as [-> ->].
  { pose proof (f_equal length H) as N1. pose proof (f_equal length E2) as N2. rewrite !app_length in N1, N2. simpl in N1, N2.
    destruct l1; [|simpl in *; lia]. destruct l2 as [|? [|? ?]]; [simpl in *; lia| |simpl in *; rewrite app_length in N2; simpl in N2; lia]. simpl in H, E2. simplify_eq. done. }
  unfold at_. simpl. rewrite Nat.add_0_r, Nat.mul_1_r, Nat.add_0_r, Nat.mul_1_r.
  destruct i as [|[|i]]; [| |lia]; (destruct j as [|[|j]]; [| |lia]); simpl; lra.
Qed.
Lemma clip_value lo hi a i : (lo <= hi)%R → sh (clip_r lo hi a) = sh a ∧
  (lo <= dat (clip_r lo hi a) i <= hi)%R ∧ ((lo <= dat a i <= hi)%R → dat (clip_r lo hi a) i = dat a i) ∧
  ((dat a i < lo)%R → dat (clip_r lo hi a) i = lo) ∧ ((hi < dat a i)%R → dat (clip_r lo hi a) i = hi).
Proof.
  intros H. split; [done|]. simpl. unfold clip1, Rmax, Rmin. destruct (Rle_dec (dat a i) lo); destruct (Rle_dec _ hi); split_and!; try lra.
Qed.
Lemma clip_row lo hi d n : 1 < n → ∃ J, clip_jac lo hi (Arr_ [1; n] d) = Some J ∧ nrow J ≠ asize (Arr_ [1; n] d).
Proof. intros H. eexists. split; [reflexivity|]. unfold asize. simpl. lia. Qed.
