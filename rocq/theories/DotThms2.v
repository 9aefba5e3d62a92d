(** More on products: one operand twice, sparse matrix times vector, cross. *)
From Coq Require Import Reals Lra.
From stdpp Require Import list list_numbers numbers gmap.
From Verif Require Import ArrModel Curve ArrThms ElemModel ElemThms ReorderModel ReorderSpec ReorderThms ReorderCache IndexThms RedThms DotModel DotSpec DotThms.

Lemma madd_fits J K r c : fits J r c → fits K r c → fits (madd J K) r c.
Proof.
  intros (E1 & E2 & E3) (F1 & F2 & F3). unfold fits, madd, in_range in *. simpl. split_and!; [done..|].
  apply Forall_app. split; [done|]. rewrite E1, E2. by rewrite F1, F2 in F3.
Qed.
Lemma diff2_same f J K a : diff2 f J K a a → diff1 (λ x, f x x) (madd J K) a.
Proof.
  intros H y v Hy Hm. eapply amoves_ext; [|apply (H y v y v Hy Hy Hm Hm)]. intros i. cbv beta. symmetry. apply mact_madd.
Qed.
(** dot(x, x) *)
Lemma dot_same_right a y : np_dot a a = Some y → length (sh a) ≤ 2 → 0 < nth 0 (sh a) 0 →
  ∃ J, dot_jac true true a a = Some (Some J) ∧ fits J (asize y) (asize a) ∧ diff1 (λ x, default x (np_dot x x)) J a.
Proof.
  intros Hy Hl Hp. destruct (dot_right a a y Hy Hl Hp) as (Ja & Jb & H1 & H2 & Fa & Fb & Hd & _).
  exists (madd Ja Jb). unfold dot_jac in *. destruct (dot_d1 a a) as [d1'|]; [|done]. destruct (dot_d2 a a) as [d2'|]; [|done].
  simpl in H1, H2. injection H1 as ->. injection H2 as ->. split_and!.
  - simpl. destruct Fa as (E1 & E2 & _), Fb as (F1 & F2 & _). rewrite decide_True; [done|]. split; congruence.
  - by apply madd_fits.
  - by apply (diff2_same (λ u v, default u (np_dot u v))).
Qed.
(** with more than two dimensions on the right the Jacobian is not the derivative *)
Lemma dot_wrong : ∃ a b Ja Jb, length (sh b) = 3 ∧ is_Some (np_dot a b) ∧ dot_jac true false a b = Some (Some Ja) ∧ dot_jac false true a b = Some (Some Jb) ∧
  ¬ diff2 (λ u v, default u (np_dot u v)) Ja Jb a b.
Proof.
  set (u := λ t : R, Arr_ [2; 2] (λ i, if decide (i = 1) then t else 0%R)). set (b := Arr_ [2; 2; 2] (λ i, if decide (i = 2) then 1%R else 0%R)).
  exists (u 0%R), b, (kron (eye 2) (mat_T 2 4 b)), (kron (mat 2 2 (u 0%R)) (eye 4)). split_and!; [done|by eexists|done|done|].
  intros H.
  assert (Hm : amoves u (λ i, if decide (i = 1) then 1%R else 0%R)).
  { apply (amoves_intro _ _ [2; 2]); [by apply near_always|..].
    - intros i _. simpl. destruct (decide (i = 1)); [apply derivable_pt_lim_id|apply deriv_const].
    - intros i Hi. rewrite decide_False; [done|]. cbn in Hi. lia. }
  assert (Hz : amoves (λ _, b) (λ _, 0%R)).
  { apply (amoves_intro _ _ [2; 2; 2]); [by apply near_always|intros i _; apply deriv_const|done]. }
  pose proof (H u _ (λ _, b) _ eq_refl eq_refl Hm Hz) as M.
  assert (Hs : 0 < asize (default (u 0%R) (np_dot (u 0%R) b))) by exact (Nat.lt_0_succ 7).
  pose proof (amoves_dat _ _ 0 M Hs) as D. cbv beta in D.
  assert (D' : derivable_pt_lim (λ t, dat (default (u t) (np_dot (u t) b)) 0) 0%R 1%R).
  { eapply deriv_ext; [|apply derivable_pt_lim_id]. intros t. change (t = (dat (u t) 0 * dat b 0 + (dat (u t) 1 * dat b 2 + 0))%R). simpl. ring. }
  pose proof (deriv_unique _ _ _ D D') as E. rewrite mact_zero in E.
  pose proof (d1_act 2 2 4 b (λ i, if decide (i = 1) then 1%R else 0%R) 0 0 ltac:(lia) ltac:(lia)) as A. simpl Nat.add in A. rewrite A in E. cbn in E.
  repeat (destruct (decide _) in E; try done); lra.
Qed.

(* ------------------------------------------------------------------ *)
(** MatVecMult *)
Lemma matvec_value m v y : matvec_r m v = Some y → asize y = nrow m ∧ ncol m = asize v ∧ ∀ i, dat y i = mact m (elem v) i.
Proof.
  unfold matvec_r. destruct (decide (ncol m = asize v)) as [Hc|]; [|done]. cbv zeta. destruct (decide _).
  - intros [Hs Hd]%reshaped_value. split_and!; [rewrite Hs; cbn; lia|done|]. intros i. by rewrite Hd.
  - intros [= <-]. split_and!; [cbn; lia|done|done].
Qed.
Lemma matvec_shape m v y : matvec_r m v = Some y →
  (∀ n c rest, sh v = n :: c :: rest → 1 < c → ∃ k, sh y = [k; c] ∧ k * c = nrow m) ∧
  ((∀ n c rest, sh v = n :: c :: rest → c ≤ 1) → sh y = [nrow m]).
Proof.
  intros Hy. pose proof (matvec_value m v y Hy) as (Hs & _ & _). revert Hy. unfold matvec_r. destruct (decide (ncol m = asize v)) as [Hc|]; [|done]. cbv zeta. destruct (decide _) as [[H1 H2]|Hn].
  - unfold reshaped. intros (s & Hf & ->)%fmap_Some. destruct (sh v) as [|n [|c rest]] eqn:Ev; [simpl in H1; lia..|]. simpl in H2, Hf. split.
    + intros n' c' rest' [= <- <- <-] _. unfold fill_shape in Hf. case_decide; [|done]. injection Hf as <-. revert Hs. cbn [fmap list_fmap sh asize]. unfold asize. cbn [sh fmap list_fmap].
      destruct (decide (-1 = -1)%Z); [|done]. destruct (decide (Z.of_nat c = -1)%Z); [lia|]. rewrite Nat2Z.id. intros Hs. eexists. split; [done|]. revert Hs. generalize (size [nrow m] `div` size (Z.to_nat <$> filter (λ d : Z, d ≠ (-1)%Z) [(-1)%Z; Z.of_nat c])). intros k Hs. simpl in Hs. lia.
    + intros H. specialize (H n c rest eq_refl). lia.
  - intros [= <-]. split; [|done]. intros n c rest E Hc'. exfalso. apply Hn. rewrite E. simpl. lia.
Qed.
Lemma matvec_right m v y : in_range m → matvec_r m v = Some y → fits m (asize y) (asize v) ∧ diff1 (λ x, default x (matvec_r m x)) m v.
Proof.
  intros Hr Hy. destruct (matvec_value m v y Hy) as (Hs & Hc & _). split; [by unfold fits|].
  apply (linear_diff _ _ _ (sh y)); [done|done|]. intros x Hx.
  assert (∃ z, matvec_r m x = Some z ∧ sh z = sh y) as (z & Hz & Hsz).
  { unfold matvec_r in *. unfold asize in *. rewrite Hx. rewrite decide_True in Hy |- * by done. cbv zeta in *. destruct (decide _).
    - unfold reshaped in *. apply fmap_Some in Hy as (s & Hs' & ->). exists (Arr_ s (mact m (elem x))). split; [|done]. unfold asize in *. simpl in *. by rewrite Hs'.
    - injection Hy as <-. by eexists. }
  rewrite Hz. simpl. split; [done|]. intros i _. by apply (matvec_value m x z Hz).
Qed.

(* ------------------------------------------------------------------ *)
(** cross *)
Lemma seq_blocks n w k : seq k (n * w) = seq 0 n ≫= λ i, (λ c, k + i * w + c) <$> seq 0 w.
Proof.
  revert k. induction n as [|n IH]; intros k; [done|]. simpl Nat.mul. rewrite seq_app, IH. change (seq 0 (S n)) with (0 :: seq 1 n). rewrite <- (fmap_S_seq 0 n).
  rewrite bind_cons. f_equal.
  - rewrite <- (Nat.add_0_r k) at 1. rewrite <- fmap_add_seq. apply list_fmap_ext_ne. intros c _. lia.
  - clear IH. induction (seq 0 n) as [|x l IHl]; [done|]. rewrite fmap_cons, !bind_cons, IHl. f_equal. apply list_fmap_ext_ne. intros c _. lia.
Qed.
Lemma mact_blocks N C w (f : nat → R) (JS : nat → nat) v i : 0 < w → i < N →
  mact (coo N C (f <$> seq 0 (N * w)) ((λ q, q / w) <$> seq 0 (N * w)) (JS <$> seq 0 (N * w))) v i =
  rsum ((λ c, (f (i * w + c)%nat * v (JS (i * w + c)%nat))%R) <$> seq 0 w).
Proof.
  intros Hw Hi. rewrite mact_alt. unfold coo. cbn [trip]. rewrite !zip_fmap_same. rewrite <- list_fmap_compose. unfold compose. cbn [fst snd].
  rewrite (seq_blocks N w 0), rsum_bind.
  rewrite (rsum_single _ _ i).
  - rewrite <- list_fmap_compose. apply rsum_ext. intros c [_ Hc]%elem_of_seq. unfold compose.
    rewrite Nat.add_0_l. rewrite decide_True; [done|]. symmetry. apply (Nat.div_unique _ _ _ c); lia.
  - apply NoDup_seq_.
  - apply elem_of_seq. lia.
  - intros j _ Hne. rewrite <- list_fmap_compose. apply rsum_zero. intros c [_ Hc]%elem_of_seq. unfold compose.
    rewrite decide_False; [done|]. rewrite Nat.add_0_l. rewrite <- (Nat.div_unique (j * w + c) w j c) by lia. done.
Qed.
Lemma div_step r c w : c < w → (r * w + c) / w = r ∧ (r * w + c) mod w = c.
Proof. intros Hc. by apply div_mod_eq. Qed.
Lemma js_is h : ∃ J, reorder 0 (Repeat 3 (Some 0%Z)) (Arr_ [h; 3] (dat (arange [h * 3]))) = Some J ∧ asize J = h * 3 * 3 ∧
  ∀ i, dat J i = i / 3 / 3 * 3 + i mod 3.
Proof.
  eexists. split; [reflexivity|]. split; [change (3 * h * (3 * 1) = h * 3 * 3); lia|]. intros i. cbn [dat moved fst snd].
  change (i / 3 / 3 * 3 + (i mod 3 / 1 * 1 + 0) = i / 3 / 3 * 3 + i mod 3). rewrite Nat.div_1_r. lia.
Qed.
Lemma is_is h : ∃ I, reorder 0 (Repeat 3 None) (arange [h * 3]) = Some I ∧ asize I = h * 3 * 3 ∧ ∀ i, dat I i = i / 3.
Proof.
  eexists. split; [reflexivity|]. split; [change (h * 3 * 1 * 3 * 1 = h * 3 * 3); lia|]. intros i. cbn [dat moved fst snd].
  change (i / 1 / 3 / 1 * 1 + 0 = i / 3). rewrite !Nat.div_1_r. lia.
Qed.
Lemma tiled_is h : ∃ t, reorder 0%R (Tile [h; 1]) (np_eye 3) = Some t ∧ sh t = [3 * h; 3] ∧
  ∀ q c, c < 3 → dat t (q * 3 + c) = if decide (q mod 3 = c) then 1%R else 0%R.
Proof.
  eexists. split; [reflexivity|]. split; [done|]. intros q c Hc. cbn [dat moved fst snd].
  change (dat (np_eye 3) (((q * 3 + c) / 3) mod 3 * 3 + ((((q * 3 + c) mod 3) / 1) mod 3 * 1 + 0)) = if decide (q mod 3 = c) then 1%R else 0%R).
  destruct (div_step q c 3 Hc) as [-> ->]. rewrite Nat.div_1_r, (Nat.mod_small c 3) by done. rewrite Nat.mul_1_r, Nat.add_0_r.
  cbn [dat np_eye]. assert (Hq : q mod 3 < 3) by (by apply Nat.mod_upper_bound). destruct (div_step (q mod 3) c 3 Hc) as [-> ->]. done.
Qed.
Lemma rp_is h (b : arr R) : sh b = [h; 3] → ∃ t, reorder 0%R (Repeat 3 (Some 0%Z)) (amap Ropp b) = Some t ∧ sh t = [3 * h; 3] ∧
  ∀ q c, c < 3 → dat t (q * 3 + c) = (- dat b (q / 3 * 3 + c))%R.
Proof.
  intros Hb. unfold reorder. cbn [amap sh]. rewrite Hb. eexists. split; [reflexivity|]. split; [done|]. intros q c Hc. cbn [dat moved fst snd].
  unfold at_. cbn [sh dat amap]. rewrite Hb.
  change ((- dat b ((q * 3 + c) / 3 / 3 * 3 + ((q * 3 + c) mod 3 / 1 * 1 + 0)))%R = (- dat b (q / 3 * 3 + c))%R).
  destruct (div_step q c 3 Hc) as [-> ->]. rewrite Nat.div_1_r. do 3 f_equal. lia.
Qed.
Definition cross_at (u v : nat → R) (c : nat) : R := (u ((c + 1) mod 3)%nat * v ((c + 2) mod 3)%nat - u ((c + 2) mod 3)%nat * v ((c + 1) mod 3)%nat)%R.
Lemma cross_at_3 u v c : c < 3 → cross_at u v c = cross3 u v c.
Proof. intros Hc. destruct c as [|[|[|c]]]; [reflexivity..|lia]. Qed.
Definition vrow (a : arr R) (r : nat) : nat → R := λ c, dat a (r * 3 + c).
Lemma cross_is h (a b : arr R) : sh a = [h; 3] → sh b = [h; 3] → ∃ y, np_cross a b = Some y ∧ sh y = [h; 3] ∧
  ∀ r c, c < 3 → dat y (r * 3 + c) = cross3 (vrow a r) (vrow b r) c.
Proof.
  intros Ha Hb. unfold np_cross. rewrite Ha, Hb, decide_True by done. eexists. split; [done|]. split; [done|]. intros r c Hc. cbv zeta. cbn [dat].
  destruct (div_step r c 3 Hc) as [-> ->]. rewrite <- cross_at_3 by done. done.
Qed.
Lemma np_cross_inv a b y : np_cross a b = Some y → ∃ h, sh a = [h; 3] ∧ sh b = [h; 3].
Proof.
  unfold np_cross. destruct (sh a) as [|h [|[|[|[|[|?]]]] [|]]]; try done. destruct (sh b) as [|h' [|[|[|[|[|?]]]] [|]]]; try done.
  destruct (decide (h = h')) as [<-|]; [|done]. intros _. by exists h.
Qed.
Lemma elems_sized {T} (a : arr T) n : asize a = n → elems a = dat a <$> seq 0 n.
Proof. by intros <-. Qed.
(** the Jacobian with respect to one operand, from the array of data *)
Lemma cross_coo h (res : arr R) I J n : asize res = n * 3 → asize I = n * 3 → asize J = n * 3 → n = h * 3 →
  (∀ i, dat I i = i / 3) → (∀ i, dat J i = i / 3 / 3 * 3 + i mod 3) →
  fits (coo n n (elems res) (elems I) (elems J)) n n ∧
  ∀ v r k, r < h → k < 3 → mact (coo n n (elems res) (elems I) (elems J)) v (r * 3 + k) =
    rsum ((λ c, (dat res ((r * 3 + k) * 3 + c) * v (r * 3 + c)%nat)%R) <$> seq 0 3).
Proof.
  intros Hr HI HJ Hn EI EJ. rewrite (elems_sized _ _ Hr), (elems_sized _ _ HI), (elems_sized _ _ HJ).
  assert (E : (dat I <$> seq 0 (n * 3)) = (λ q, q / 3) <$> seq 0 (n * 3)) by (apply list_fmap_ext_ne; intros; apply EI). rewrite E. split.
  - unfold fits. split_and!; [done..|]. unfold in_range. cbn [trip coo nrow ncol]. rewrite !zip_fmap_same. apply list.Forall_forall.
    intros e (q & -> & Hq)%elem_of_list_fmap. apply elem_of_seq in Hq. cbn [fst snd]. rewrite EJ. split.
    + apply Nat.div_lt_upper_bound; lia.
    + pose proof (Nat.mod_upper_bound q 3 ltac:(done)). assert (q / 3 / 3 < h); [|lia].
      apply Nat.div_lt_upper_bound; [done|]. apply Nat.div_lt_upper_bound; lia.
  - intros v r k Hrh Hk. rewrite mact_blocks by lia. apply rsum_ext. intros c [_ Hc]%elem_of_seq. rewrite EJ.
    destruct (div_step (r * 3 + k) c 3 ltac:(lia)) as [-> ->]. destruct (div_step r k 3 Hk) as [-> _]. done.
Qed.
Lemma vrow_ext (u u' v v' : nat → R) c : (∀ k, k < 3 → u k = u' k) → (∀ k, k < 3 → v k = v' k) → cross3 u v c = cross3 u' v' c.
Proof. intros H1 H2. unfold cross3. destruct c as [|[|c]]; rewrite ?H1, ?H2 by lia; done. Qed.
Definition e3 (k : nat) : nat → R := λ c, if decide (k = c) then 1%R else 0%R.
Lemma cross_jac_a h a b : sh a = [h; 3] → sh b = [h; 3] → ∃ J, cross_jac true false a b = Some (Some J) ∧ fits J (h * 3) (h * 3) ∧ cross_jac true true a b = Some (Some J) ∧
  ∀ v r k, r < h → k < 3 → mact J v (r * 3 + k) = cross3 (λ c, v (r * 3 + c)) (vrow b r) k.
Proof.
  intros Ha Hb. destruct (js_is h) as (JS & HJ & EJ & DJ). destruct (is_is h) as (IS & HI & EI & DI).
  destruct (tiled_is h) as (t & Ht & St & Dt). destruct (rp_is h b Hb) as (rp & Hrp & Srp & Drp).
  destruct (cross_is (3 * h) t rp St Srp) as (res & Hres & Sres & Dres). destruct (cross_is h a b Ha Hb) as (y & Hy & Sy & _).
  assert (Esz : asize res = h * 3 * 3) by (unfold asize; rewrite Sres; cbn; lia).
  destruct (cross_coo h res IS JS (h * 3) Esz EI EJ eq_refl DI DJ) as [F A].
  exists (coo (h * 3) (h * 3) (elems res) (elems IS) (elems JS)).
  assert (Hj : ∀ wb, cross_jac true wb a b = Some (Some (coo (h * 3) (h * 3) (elems res) (elems IS) (elems JS)))).
  { intros wb. unfold cross_jac. rewrite Ha. cbn [orb]. cbv zeta. rewrite HJ. cbn [mbind option_bind]. rewrite HI. cbn [mbind option_bind]. rewrite Ht. cbn [mbind option_bind].
    rewrite Hrp. cbn [mbind option_bind]. rewrite Hres. cbn [mbind option_bind]. rewrite Hy. cbn [mbind option_bind].
    rewrite decide_True by congruence. unfold asize. rewrite Sy, Ha. do 3 f_equal; cbn; lia. }
  split_and!; [apply Hj|done|apply Hj|]. intros v r k Hr Hk. rewrite A by done.
  transitivity (rsum ((λ c, (cross3 (e3 k) (λ c, - vrow b r c) c * v (r * 3 + c)%nat)%R) <$> seq 0 3)).
  { apply rsum_ext. intros c [_ Hc]%elem_of_seq. rewrite Dres by lia. f_equal. apply vrow_ext; intros d Hd; unfold vrow.
    - rewrite Dt by done. destruct (div_step r k 3 Hk) as [_ ->]. done.
    - rewrite Drp by done. destruct (div_step r k 3 Hk) as [-> _]. done. }
  unfold rsum, e3. simpl. destruct k as [|[|[|k]]]; simpl; [ring..|lia].
Qed.
Lemma cross_jac_b h a b : sh a = [h; 3] → sh b = [h; 3] → ∃ J, cross_jac false true a b = Some (Some J) ∧ fits J (h * 3) (h * 3) ∧
  ∀ v r k, r < h → k < 3 → mact J v (r * 3 + k) = cross3 (vrow a r) (λ c, v (r * 3 + c)) k.
Proof.
  intros Ha Hb. destruct (js_is h) as (JS & HJ & EJ & DJ). destruct (is_is h) as (IS & HI & EI & DI).
  destruct (tiled_is h) as (t & Ht & St & Dt). destruct (rp_is h a Ha) as (rp & Hrp & Srp & Drp).
  destruct (cross_is (3 * h) rp t Srp St) as (res & Hres & Sres & Dres). destruct (cross_is h a b Ha Hb) as (y & Hy & Sy & _).
  assert (Esz : asize res = h * 3 * 3) by (unfold asize; rewrite Sres; cbn; lia).
  destruct (cross_coo h res IS JS (h * 3) Esz EI EJ eq_refl DI DJ) as [F A].
  exists (coo (h * 3) (h * 3) (elems res) (elems IS) (elems JS)). split_and!.
  { unfold cross_jac. rewrite Ha. cbn [orb]. cbv zeta. rewrite HJ. cbn [mbind option_bind]. rewrite HI. cbn [mbind option_bind]. rewrite Ht. cbn [mbind option_bind].
    rewrite Hrp. cbn [mbind option_bind]. rewrite Hres. cbn [mbind option_bind]. rewrite Hy. cbn [mbind option_bind].
    rewrite decide_True by congruence. unfold asize. rewrite Sy, Hb. do 3 f_equal; cbn; lia. }
  { done. }
  intros v r k Hr Hk. rewrite A by done.
  transitivity (rsum ((λ c, (cross3 (λ c, - vrow a r c) (e3 k) c * v (r * 3 + c)%nat)%R) <$> seq 0 3)).
  { apply rsum_ext. intros c [_ Hc]%elem_of_seq. rewrite Dres by lia. f_equal. apply vrow_ext; intros d Hd; unfold vrow.
    - rewrite Drp by done. destruct (div_step r k 3 Hk) as [-> _]. done.
    - rewrite Dt by done. destruct (div_step r k 3 Hk) as [_ ->]. done. }
  unfold rsum, e3. simpl. destruct k as [|[|[|k]]]; simpl; [ring..|lia].
Qed.
Lemma cross3_deriv (u v : R → nat → R) (u' v' : nat → R) k :
  (∀ c, c < 3 → derivable_pt_lim (λ t, u t c) 0%R (u' c)) → (∀ c, c < 3 → derivable_pt_lim (λ t, v t c) 0%R (v' c)) →
  derivable_pt_lim (λ t, cross3 (u t) (v t) k) 0%R (cross3 u' (v 0) k + cross3 (u 0) v' k)%R.
Proof.
  intros Hu Hv.
  assert (A : ∀ c d, c < 3 → d < 3 → derivable_pt_lim (λ t, u t c * v t d - u t d * v t c)%R 0%R
    ((u' c * v 0%R d - u' d * v 0%R c) + (u 0%R c * v' d - u 0%R d * v' c))%R).
  { intros c d Hc Hd.
    pose proof (derivable_pt_lim_minus _ _ _ _ _ (deriv_mult _ _ _ _ (Hu c Hc) (Hv d Hd)) (deriv_mult _ _ _ _ (Hu d Hd) (Hv c Hc))) as D.
    refine (lim_eq _ _ _ _ _ D). ring. }
  unfold cross3. destruct k as [|[|k]]; apply A; lia.
Qed.
Lemma cross_right a b y : np_cross a b = Some y → ∃ Ja Jb, cross_jac true false a b = Some (Some Ja) ∧ cross_jac false true a b = Some (Some Jb) ∧
  fits Ja (asize y) (asize a) ∧ fits Jb (asize y) (asize b) ∧ diff2 (λ u v, default u (np_cross u v)) Ja Jb a b.
Proof.
  intros Hy. destruct (np_cross_inv a b y Hy) as (h & Ha & Hb).
  destruct (cross_jac_a h a b Ha Hb) as (Ja & HJa & Fa & _ & Aa). destruct (cross_jac_b h a b Ha Hb) as (Jb & HJb & Fb & Ab).
  destruct (cross_is h a b Ha Hb) as (y' & Hy' & Sy & Dy). rewrite Hy in Hy'. injection Hy' as <-.
  assert (E : ∀ s : arr R, sh s = [h; 3] → asize s = h * 3) by (intros s Hs; unfold asize; rewrite Hs; cbn; lia).
  exists Ja, Jb. split_and!; [done|done|by rewrite (E y Sy), (E a Ha)|by rewrite (E y Sy), (E b Hb)|].
  intros u v z w Hu Hz Hmu Hmz. pose proof (curve_shape2 _ _ _ _ Hmu Hmz) as Hn2. rewrite Hu, Hz in Hn2.
  assert (Hnear : near (λ t, ∃ y', np_cross (u t) (z t) = Some y' ∧ sh y' = [h; 3] ∧ ∀ r c, c < 3 → dat y' (r * 3 + c) = cross3 (vrow (u t) r) (vrow (z t) r) c)).
  { eapply near_mono; [|exact Hn2]. intros t (_ & H2 & H3). apply cross_is; congruence. }
  apply (amoves_intro _ _ [h; 3]).
  - eapply near_mono; [|exact Hnear]. intros t (y' & -> & Hs & _). done.
  - intros o Ho. assert (Ho' : o < h * 3) by (cbn in Ho; lia). pose proof (Nat.div_mod_eq o 3) as Eo. pose proof (Nat.mod_upper_bound o 3 ltac:(done)) as Hk.
    assert (Hr : o / 3 < h) by (apply Nat.div_lt_upper_bound; lia). set (r := o / 3) in *. set (k := o mod 3) in *.
    replace o with (r * 3 + k) by lia. rewrite Aa, Ab by done.
    apply (deriv_near (λ t, cross3 (vrow (u t) r) (vrow (z t) r) k)).
    { eapply near_mono; [|exact Hnear]. intros t (y' & -> & _ & E'). simpl. by rewrite E'. }
    pose proof (cross3_deriv (λ t, vrow (u t) r) (λ t, vrow (z t) r) (λ c, v (r * 3 + c)) (λ c, w (r * 3 + c)) k) as D.
    cbv beta in D. rewrite Hu, Hz in D. apply D; intros c Hc; unfold vrow.
    + apply (amoves_dat u v); [done|]. rewrite Hu, (E a Ha). lia.
    + apply (amoves_dat z w); [done|]. rewrite Hz, (E b Hb). lia.
  - intros o Ho. assert (Ho' : h * 3 <= o) by (cbn in Ho; lia). destruct Fa as (R1 & _ & R2), Fb as (R3 & _ & R4).
    rewrite (mact_out _ v _ R2) by (rewrite R1; done). rewrite (mact_out _ w _ R4) by (rewrite R3; done). ring.
Qed.
(** cross(x, x) is zero, but its Jacobian is not *)
Lemma cross_same_wrong : ∃ a J y, np_cross a a = Some y ∧ cross_jac true true a a = Some (Some J) ∧ ¬ diff1 (λ x, default x (np_cross x x)) J a.
Proof.
  set (u := λ t : R, Arr_ [1; 3] (λ i, if decide (i = 1) then t else if decide (i = 0) then 1%R else 0%R)).
  destruct (cross_jac_a 1 (u 0%R) (u 0%R) eq_refl eq_refl) as (J & _ & _ & HJ & A).
  destruct (cross_is 1 (u 0%R) (u 0%R) eq_refl eq_refl) as (y & Hy & Sy & _). exists (u 0%R), J, y. split_and!; [done|done|]. intros H.
  assert (Hm : amoves u (λ i, if decide (i = 1) then 1%R else 0%R)).
  { apply (amoves_intro _ _ [1; 3]); [by apply near_always|..].
    - intros i _. simpl. destruct (decide (i = 1)); [apply derivable_pt_lim_id|apply deriv_const].
    - intros i Hi. rewrite decide_False; [done|]. cbn in Hi. lia. }
  pose proof (H u _ eq_refl Hm) as M.
  assert (Hs : 2 < asize (default (u 0%R) (np_cross (u 0%R) (u 0%R)))) by (rewrite Hy; unfold asize; simpl; rewrite Sy; cbn; lia).
  pose proof (amoves_dat _ _ 2 M Hs) as D. cbv beta in D.
  assert (D' : derivable_pt_lim (λ t, dat (default (u t) (np_cross (u t) (u t))) 2) 0%R 0%R).
  { eapply deriv_ext; [|apply (deriv_const 0%R)]. intros t. destruct (cross_is 1 (u t) (u t) eq_refl eq_refl) as (y' & -> & _ & E).
    pose proof (E 0 2 ltac:(lia)) as E'. cbn [Nat.mul Nat.add] in E'. simpl default. rewrite E'. unfold cross3. ring. }
  pose proof (deriv_unique _ _ _ D D') as E. pose proof (A (λ i, if decide (i = 1) then 1%R else 0%R) 0 2 ltac:(lia) ltac:(lia)) as A'.
  cbn [Nat.mul Nat.add] in A'. rewrite A' in E. unfold cross3, vrow in E. simpl in E. lra.
Qed.
