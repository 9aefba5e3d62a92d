(** Proofs about stored element types. *)
From Coq Require Import ZArith Reals Lra Lia.
From Flocq Require Import Core IEEE754.BinarySingleNaN Relative.
From Verif Require Import Dog64 StoreModel StoreSpec.
From stdpp Require Import list numbers.

(** integers *)
Lemma F2R_int z : F2R (Float radix2 z 0) = IZR z.
Proof. unfold F2R. simpl. ring. Qed.
Lemma rnd_fmt x : generic_format radix2 fexp64 x → rnd x = x.
Proof. intros H. apply round_generic; [apply valid_rnd_N|exact H]. Qed.
Lemma fmt_bpow e : (-1022 ≤ e ≤ 1023)%Z → generic_format radix2 fexp64 (bpow radix2 e).
Proof. intros H. apply generic_format_bpow. unfold SpecFloat.fexp, SpecFloat.emin. lia. Qed.
Lemma fmt_int z : (Z.abs z ≤ 2 ^ 53)%Z → generic_format radix2 fexp64 (IZR z).
Proof.
  intros H. destruct (Z.eq_dec (Z.abs z) (2 ^ 53)%Z) as [E|E].
  - destruct (Z.abs_eq_or_opp z) as [E'|E']; rewrite E' in E.
    + rewrite E. change (generic_format radix2 fexp64 (bpow radix2 53)). apply fmt_bpow. lia.
    + replace z with (- 2 ^ 53)%Z by lia. rewrite opp_IZR. apply generic_format_opp. change (generic_format radix2 fexp64 (bpow radix2 53)). apply fmt_bpow. lia.
  - rewrite <- F2R_int. apply generic_format_FLT. assert (Hlt : (Z.abs z < 2 ^ 53)%Z) by lia. exists (Float radix2 z 0); [done|exact Hlt|done].
Qed.
Lemma small_below z : (- 2 ^ 63 ≤ z ≤ 2 ^ 63)%Z → (Rabs (rnd (IZR z)) < bpow radix2 1024)%R.
Proof.
  intros H. apply Rle_lt_trans with (bpow radix2 63); [|apply bpow_lt; lia].
  apply abs_round_le_generic; [apply fexp_correct; exact H53|apply valid_rnd_N|apply fmt_bpow; lia|].
  rewrite <- abs_IZR. change (bpow radix2 63) with (IZR (2 ^ 63)%Z). apply IZR_le. lia.
Qed.
Theorem of_int_nearest z : (- 2 ^ 63 ≤ z < 2 ^ 63)%Z → nearest_to z (of_int z).
Proof.
  intros H. unfold nearest_to, of_int. generalize (binary_normalize_correct 53 1024 H53 H1024 mode_NE z 0 false). cbv zeta. rewrite F2R_int.
  case Rlt_bool_spec; intros Hr.
  - intros (A & B & _). split; [exact B|exact A].
  - exfalso. pose proof (small_below z ltac:(lia)) as Hs. apply (Rlt_irrefl (bpow radix2 1024)). eapply Rle_lt_trans; [exact Hr|exact Hs].
Qed.
Theorem of_int_exact z : (Z.abs z ≤ 2 ^ 53)%Z → fin64 (of_int z) ∧ B2R (of_int z) = IZR z.
Proof. intros H. destruct (of_int_nearest z) as [A B]; [lia|]. split; [exact A|]. rewrite B. by apply rnd_fmt, fmt_int. Qed.
Theorem of_int_le z z' : (- 2 ^ 63 ≤ z < 2 ^ 63)%Z → (- 2 ^ 63 ≤ z' < 2 ^ 63)%Z → (z ≤ z')%Z → (B2R (of_int z) <= B2R (of_int z'))%R.
Proof. intros H H' Hle. rewrite (proj2 (of_int_nearest z H)), (proj2 (of_int_nearest z' H')). apply rnd_le. by apply IZR_le. Qed.
Lemma floats_are v : fits64 v → doubles v (floats v).
Proof. destruct v as [a l|a l]; simpl; [|done]. induction 1; simpl; constructor; [by apply of_int_nearest|done]. Qed.

(** writing items *)
Lemma put_spec {A} ps (vs l l' : list A) : put ps vs l = Some l' → NoDup ps → length l' = length l ∧ length vs = length ps ∧
  (∀ p i v, ps !! p = Some i → vs !! p = Some v → l' !! i = Some v) ∧ ∀ i, i ∉ ps → l' !! i = l !! i.
Proof.
  unfold put. destruct (decide _) as [[Hl Hin]|]; [|done]. intros [= <-] Hn. split; [|split; [done|]].
  - clear Hin Hn. revert vs l Hl. induction ps as [|p ps IH]; intros [|v vs] l Hl; simpl in *; try done. rewrite IH by lia. apply insert_length.
  - revert vs l Hl Hin. induction ps as [|p ps IH]; intros [|v vs] l Hl Hin; simpl in *; try done. apply stdpp.list.NoDup_cons in Hn as [Hp Hn]. inversion Hin as [|? ? H1 H2]; subst.
    destruct (IH Hn vs (<[p:=v]> l)) as [A1 A2]; [lia|by rewrite insert_length|]. split.
    + intros [|q] i w Hi Hv; simpl in *; [|by eapply A1]. simplify_eq. rewrite A2 by done. by apply list_lookup_insert.
    + intros i Hi. apply not_elem_of_cons in Hi as [Hi1 Hi2]. rewrite A2 by done. by apply list_lookup_insert_ne.
Qed.
Theorem item_floats ps v a l h' : fits64 v → NoDup ps → setitem ps v (Flts a l) = Some h' → ∃ l', h' = Flts true l' ∧ meant l (SetItem ps v) l'.
Proof.
  intros Hv Hn H. simpl in H. apply fmap_Some in H as (l' & Hp & ->). exists l'. split; [done|]. apply put_spec in Hp as (H1 & H2 & H3 & H4); [|done].
  econstructor; [by apply floats_are|done|]. done.
Qed.
Theorem item_both ps v h h' : fits64 v → NoDup ps → (of_floats h = true ∨ of_floats v = false) → setitem ps v h = Some h' →
  of_floats h' = of_floats h ∧ meant (floats h) (SetItem ps v) (floats h').
Proof.
  intros Hv Hn Hc H. destruct h as [a l|a l].
  - destruct Hc as [Hc|Hc]; [done|]. destruct v as [b vs|b vs]; [|done]. simpl in H. apply fmap_Some in H as (l' & Hp & ->). split; [done|]. apply put_spec in Hp as (H1 & H2 & H3 & H4); [|done].
    apply (meant_item ps _ (floats (Ints b vs))); [by apply floats_are|simpl; by rewrite fmap_length|]. simpl. split; [by rewrite !fmap_length|]. split.
    + intros p i x Hp Hx. rewrite list_lookup_fmap in Hx. apply fmap_Some in Hx as (z & Hz & ->). by rewrite list_lookup_fmap, (H3 p i z).
    + intros i Hi. by rewrite !list_lookup_fmap, H4.
  - destruct (item_floats ps v a l h' Hv Hn H) as (l' & -> & Hm). done.
Qed.
Theorem run_tame h os h' : Forall op_fits os → tame (of_floats h) os → run h os = Some h' → meant_all (floats h) os (floats h').
Proof.
  revert h. induction os as [|o os IH]; intros h Hf Hk Hr; simpl in Hr; [injection Hr as <-; constructor|]. inversion Hf as [|? ? F1 F2]; subst.
  apply bind_Some in Hr as (h1 & H1 & Hr). destruct o as [v|ps v|ps v]; simpl in Hk; [| |done].
  - simpl in H1. injection H1 as <-. econstructor; [constructor; by apply floats_are|]. by apply IH.
  - destruct Hk as (Hn & Hc & Hk). destruct (item_both ps v h h1 F1 Hn Hc H1) as [E Hm]. econstructor; [exact Hm|]. apply IH; [done| |done]. by rewrite E.
Qed.
Theorem run_built (named : bool) v os h' : fits64 v → Forall op_fits os → let h := if named then by_name v else by_position v in tame (of_floats h) os → run h os = Some h' →
  ∃ l, doubles v l ∧ meant_all l os (floats h').
Proof.
  intros Hv Hf h Ht Hr. exists (floats v). split; [by apply floats_are|]. replace (floats v) with (floats h) by by destruct named. by apply run_tame.
Qed.

(** cutting off fractions *)
Theorem trunc64_is x z : trunc64 x = Some z → fin64 x ∧ z = Ztrunc (B2R x) ∧ (- 2 ^ 63 ≤ z < 2 ^ 63)%Z.
Proof.
  unfold trunc64. intros (y & Hy & H)%bind_Some. destruct (decide _) as [Hr|]; [|done]. injection H as <-. destruct x as [s| | |s m e B]; try done.
  - injection Hy as <-. split; [done|]. split; [|done]. simpl. by rewrite Ztrunc_IZR.
  - injection Hy as <-. split; [done|]. split; [|done]. clear Hr. simpl.
    assert (E : Ztrunc (F2R (Float radix2 (Z.pos m) e)) = if decide (0 ≤ e)%Z then (Z.pos m * 2 ^ e)%Z else (Z.pos m / 2 ^ (- e))%Z).
    { destruct (decide (0 ≤ e)%Z) as [He|He].
      - unfold F2R. simpl. rewrite <- IZR_Zpower by done. rewrite <- mult_IZR. by rewrite Ztrunc_IZR.
      - rewrite Ztrunc_floor by (apply F2R_ge_0; simpl; lia). unfold F2R. simpl Fnum. simpl Fexp. replace e with (- (- e))%Z at 1 by lia. rewrite bpow_opp, <- IZR_Zpower by lia. apply Zfloor_div. apply Z.neq_sym. apply Z.lt_neq. apply Z.pow_pos_nonneg; lia. }
    destruct s; simpl.
    + rewrite F2R_Zopp, Ztrunc_opp. by rewrite E.
    + by rewrite E.
Qed.
Theorem item_ints ps a l b vs h' : setitem ps (Flts b vs) (Ints a l) = Some h' → NoDup ps → ∀ p i w, ps !! p = Some i → vs !! p = Some w →
  ∃ z, floats h' !! i = Some (of_int z) ∧ fin64 w ∧ z = Ztrunc (B2R w).
Proof.
  simpl. intros (zs & Hz & H)%bind_Some Hn p i w Hp Hw. apply fmap_Some in H as (l' & H & ->). apply put_spec in H as (H1 & H2 & H3 & H4); [|done].
  apply mapM_Some in Hz. destruct (Forall2_lookup_l _ _ _ _ _ Hz Hw) as (z & Hzp & Ht). exists z. apply trunc64_is in Ht as (T1 & T2 & _). split; [|done]. simpl. rewrite list_lookup_fmap, (H3 p i z) by done. done.
Qed.

(** assignment through views *)
Notation zero64 := (B754_zero false : b64).
Definition pz (v : b64) : b64 := Bplus mode_NE zero64 v.
Definition put_back (x v : b64) : b64 := Bminus mode_NE (Bplus mode_NE x (pz v)) (pz x).
Lemma pz_is v : pz v = v ∨ v = B754_zero true ∧ pz v = zero64.
Proof. destruct v as [[]|[]| |[]]; auto. Qed.
Lemma pz_fin v : fin64 v → fin64 (pz v) ∧ B2R (pz v) = B2R v.
Proof. intros H. destruct (pz_is v) as [->|[-> ->]]; done. Qed.
Lemma pz_inf v : ¬ fin64 v → pz v = v.
Proof. intros H. destruct (pz_is v) as [->|[-> ->]]; done. Qed.
Lemma kept_num x : same_num x (Bminus mode_NE (Bplus mode_NE x zero64) zero64).
Proof.
  destruct x as [[]|[]| |s m e B]; try (left; done); try (right; split; [done|reflexivity]).
Qed.
Lemma spread_none ps vs i : i ∉ ps → spread ps vs i = zero64.
Proof.
  unfold spread. generalize zero64. revert vs. induction ps as [|p ps IH]; intros [|v vs] t Hi; try done. simpl. apply not_elem_of_cons in Hi as [H1 H2]. rewrite decide_False by done. by apply IH.
Qed.
Lemma fold_none (ps : list nat) (vs : list b64) (i : nat) (t : b64) : i ∉ ps → foldl (λ t pv, if decide (pv.1 = i) then Bplus mode_NE t pv.2 else t) t (zip ps vs) = t.
Proof.
  revert vs t. induction ps as [|p ps IH]; intros [|v vs] t Hi; try done. simpl. apply not_elem_of_cons in Hi as [H1 H2]. rewrite decide_False by done. by apply IH.
Qed.
Lemma spread_one ps vs p i v : NoDup ps → ps !! p = Some i → vs !! p = Some v → spread ps vs i = pz v.
Proof.
  unfold spread. revert vs p. induction ps as [|q ps IH]; intros [|w vs] [|p] Hn Hi Hv; simpl in *; try done; apply stdpp.list.NoDup_cons in Hn as [Hq Hn].
  - simplify_eq. rewrite decide_True by done. by rewrite fold_none.
  - rewrite decide_False. 2:{ intros ->. apply Hq. by eapply elem_of_list_lookup_2. } by eapply IH.
Qed.
Lemma add_fin x v : fin64 x → fin64 v → (Rabs (rnd (B2R x + B2R v)) < bpow radix2 1024)%R → fin64 (Bplus mode_NE x v) ∧ B2R (Bplus mode_NE x v) = rnd (B2R x + B2R v).
Proof. intros Hx Hv Hb. generalize (Bplus_correct 53 1024 _ _ mode_NE x v Hx Hv). case Rlt_bool_spec; intros Hr; [intros (A & B & _); split; [exact B|exact A]|]. exfalso. apply (Rlt_irrefl (bpow radix2 1024)). eapply Rle_lt_trans; [exact Hr|exact Hb]. Qed.
Lemma sub_fin x v : fin64 x → fin64 v → (Rabs (rnd (B2R x - B2R v)) < bpow radix2 1024)%R → fin64 (Bminus mode_NE x v) ∧ B2R (Bminus mode_NE x v) = rnd (B2R x - B2R v).
Proof. intros Hx Hv Hb. generalize (Bminus_correct 53 1024 _ _ mode_NE x v Hx Hv). case Rlt_bool_spec; intros Hr; [intros (A & B & _); split; [exact B|exact A]|]. exfalso. apply (Rlt_irrefl (bpow radix2 1024)). eapply Rle_lt_trans; [exact Hr|exact Hb]. Qed.
Lemma put_back_exact x v : fin64 x → fin64 v → generic_format radix2 fexp64 (B2R x + B2R v) → (Rabs (B2R x + B2R v) < bpow radix2 1024)%R → fin64 (put_back x v) ∧ B2R (put_back x v) = B2R v.
Proof.
  intros Hx Hv Hf Hb. destruct (pz_fin x Hx) as [X1 X2]. destruct (pz_fin v Hv) as [V1 V2]. unfold put_back.
  destruct (add_fin x (pz v) Hx V1) as [A1 A2]; [rewrite V2, rnd_fmt; done|]. rewrite V2, rnd_fmt in A2 by done.
  assert (E : (B2R x + B2R v - B2R x = B2R v)%R) by lra. assert (Ev : rnd (B2R v) = B2R v) by (apply rnd_fmt; exact (generic_format_B2R 53 1024 v)).
  destruct (sub_fin (Bplus mode_NE x (pz v)) (pz x) A1 X1) as [B1 B2]; rewrite A2, X2, E, Ev in *; [apply abs_B2R_lt_emax|]. by rewrite B2.
Qed.
Lemma put_back_lost x v : ¬ fin64 x → put_back x v = B754_nan.
Proof. intros Hx. unfold put_back. rewrite (pz_inf x Hx). destruct (pz_is v) as [->|[-> ->]]; destruct x as [|[]| |]; try done; destruct v as [[]|[]| |[]]; done. Qed.
Lemma put_back_inf x v : fin64 x → ¬ fin64 v → put_back x v = v.
Proof. intros Hx Hv. unfold put_back. rewrite (pz_inf v Hv). destruct (pz_is x) as [E|[-> E]]; rewrite E; [destruct x as [[]| | |[]]; try done|]; destruct v as [|[]| |]; done. Qed.
Lemma rnd_err t : (Rabs (rnd t - t) <= / 2 * bpow radix2 (-52) * Rabs t + / 2 * bpow radix2 (-1074))%R.
Proof.
  destruct (error_N_FLT radix2 (-1074) 53 eq_refl (λ x, negb (Z.even x)) t) as (eps & eta & H1 & H2 & _ & H).
  change (round radix2 (FLT_exp (-1074) 53) ZnearestE t) with (rnd t) in H. rewrite H. replace (t * (1 + eps) + eta - t)%R with (t * eps + eta)%R by ring.
  eapply Rle_trans; [apply Rabs_triang|]. rewrite Rabs_mult. apply Rplus_le_compat; [|exact H2]. rewrite Rmult_comm. apply Rmult_le_compat_r; [apply Rabs_pos|exact H1].
Qed.
Lemma rnd_below t e : (-1022 ≤ e ≤ 1023)%Z → (Rabs t <= bpow radix2 e)%R → (Rabs (rnd t) <= bpow radix2 e)%R.
Proof. intros He H. apply abs_round_le_generic; [apply fexp_correct; exact H53|apply valid_rnd_N|by apply fmt_bpow|exact H]. Qed.
Lemma put_back_near x v : fin64 x → fin64 v → (Rabs (B2R x) <= bpow radix2 1021)%R → (Rabs (B2R v) <= bpow radix2 1021)%R →
  fin64 (put_back x v) ∧ (Rabs (B2R (put_back x v) - B2R v) <= bpow radix2 (-51) * (Rabs (B2R x) + Rabs (B2R v)) + bpow radix2 (-1072))%R.
Proof.
  intros Hx Hv Bx Bv. destruct (pz_fin x Hx) as [X1 X2]. destruct (pz_fin v Hv) as [V1 V2]. unfold put_back.
  assert (P22 : (bpow radix2 1022 = 2 * bpow radix2 1021)%R) by (change 1022%Z with (1 + 1021)%Z; rewrite bpow_plus; simpl; lra).
  assert (P23 : (bpow radix2 1023 = 2 * bpow radix2 1022)%R) by (change 1023%Z with (1 + 1022)%Z; rewrite bpow_plus; simpl; lra).
  assert (P24 : (bpow radix2 1024 = 2 * bpow radix2 1023)%R) by (change 1024%Z with (1 + 1023)%Z; rewrite bpow_plus; simpl; lra).
  assert (P0 : (0 < bpow radix2 1021)%R) by apply bpow_gt_0.
  assert (S1 : (Rabs (B2R x + B2R v) <= bpow radix2 1022)%R) by (eapply Rle_trans; [apply Rabs_triang|lra]).
  pose proof (rnd_below _ 1022 ltac:(lia) S1) as S2.
  destruct (add_fin x (pz v) Hx V1) as [A1 A2]; [rewrite V2; lra|]. rewrite V2 in A2. set (s := rnd (B2R x + B2R v)) in *.
  assert (S3 : (Rabs (s - B2R x) <= bpow radix2 1023)%R). { eapply Rle_trans; [apply Rabs_triang|]. rewrite Rabs_Ropp. lra. }
  pose proof (rnd_below _ 1023 ltac:(lia) S3) as S4.
  destruct (sub_fin (Bplus mode_NE x (pz v)) (pz x) A1 X1) as [B1 B2]; rewrite A2, X2 in *; [lra|]. split; [exact B1|]. rewrite B2.
  pose proof (rnd_err (B2R x + B2R v)) as E1. fold s in E1. pose proof (rnd_err (s - B2R x)) as E2.
  set (t := rnd (s - B2R x)) in *. set (u := bpow radix2 (-52)) in *. set (n := bpow radix2 (-1074)) in *.
  assert (Eu : (bpow radix2 (-51) = 2 * u)%R) by (unfold u; change (-51)%Z with (1 + -52)%Z; rewrite bpow_plus; simpl (bpow radix2 1); lra).
  assert (En : (bpow radix2 (-1072) = 4 * n)%R) by (unfold n; change (-1072)%Z with (2 + -1074)%Z; rewrite bpow_plus; simpl (bpow radix2 2); lra).
  assert (U0 : (0 < u)%R) by apply bpow_gt_0. assert (U1 : (u <= 1)%R) by (change 1%R with (bpow radix2 0); apply bpow_le; lia). assert (N0 : (0 < n)%R) by apply bpow_gt_0.
  rewrite Eu, En. pose proof (Rabs_triang (B2R x) (B2R v)) as T1. set (a := Rabs (B2R x)) in *. set (b := Rabs (B2R v)) in *. set (c := Rabs (B2R x + B2R v)) in *.
  assert (T2 : (Rabs (s - B2R x) <= b + Rabs (s - (B2R x + B2R v)))%R). { replace (s - B2R x)%R with (B2R v + (s - (B2R x + B2R v)))%R by ring. apply Rabs_triang. }
  assert (T3 : (Rabs (t - B2R v) <= Rabs (t - (s - B2R x)) + Rabs (s - (B2R x + B2R v)))%R). { replace (t - B2R v)%R with ((t - (s - B2R x)) + (s - (B2R x + B2R v)))%R by ring. apply Rabs_triang. }
  set (d := Rabs (s - (B2R x + B2R v))) in *. set (f := Rabs (s - B2R x)) in *. assert (A0 : (0 <= a)%R) by apply Rabs_pos. assert (B0 : (0 <= b)%R) by apply Rabs_pos. assert (D0 : (0 <= d)%R) by apply Rabs_pos. assert (C0 : (0 <= c)%R) by apply Rabs_pos.
  assert (M1 : (u * c <= u * (a + b))%R) by (apply Rmult_le_compat_l; lra). assert (M2 : (u * f <= u * (b + d))%R) by (apply Rmult_le_compat_l; lra).
  assert (M3 : (u * d <= 1 * d)%R) by (apply Rmult_le_compat_r; lra). assert (M4 : (0 <= u * a)%R) by (apply Rmult_le_pos; lra). assert (M5 : (0 <= u * b)%R) by (apply Rmult_le_pos; lra). lra.
Qed.
Theorem view_elems ps v h h' : setview ps v h = Some h' → NoDup ps → ∃ l', h' = Flts true l' ∧ length l' = length (floats h) ∧
  (∀ i x, i ∉ ps → floats h !! i = Some x → ∃ y, l' !! i = Some y ∧ same_num x y) ∧
  (∀ p i w x, ps !! p = Some i → floats v !! p = Some w → floats h !! i = Some x → l' !! i = Some (put_back x w)).
Proof.
  unfold setview. destruct (decide _) as [(Ha & Hl & Hin)|]; [|done]. intros [= <-] Hn. eexists. split; [done|]. split; [apply imap_length|]. split.
  - intros i x Hi Hx. rewrite list_lookup_imap. unfold b64 in *. rewrite Hx. eexists. split; [done|]. rewrite !spread_none by done. apply kept_num.
  - intros p i w x Hp Hw Hx. rewrite list_lookup_imap. unfold b64 in *. rewrite Hx. simpl. do 2 f_equal. rewrite (spread_one ps _ p i w) by done. unfold put_back. f_equal.
    apply (spread_one ps _ p); [done..|]. rewrite list_lookup_fmap, Hp. simpl. f_equal. by rewrite nth_lookup, Hx.
Qed.
(** elements written through a view *)
Theorem view_exact ps v h h' : setview ps v h = Some h' → NoDup ps → ∀ p i w x, ps !! p = Some i → floats v !! p = Some w → floats h !! i = Some x →
  fin64 x → fin64 w → generic_format radix2 fexp64 (B2R x + B2R w) → (Rabs (B2R x + B2R w) < bpow radix2 1024)%R → ∃ y, floats h' !! i = Some y ∧ fin64 y ∧ B2R y = B2R w.
Proof. intros H Hn p i w x Hp Hw Hx Fx Fw Hf Hb. destruct (view_elems ps v h h' H Hn) as (l' & -> & _ & _ & E). exists (put_back x w). split; [by eapply E|]. by apply put_back_exact. Qed.
Theorem view_near ps v h h' : setview ps v h = Some h' → NoDup ps → ∀ p i w x, ps !! p = Some i → floats v !! p = Some w → floats h !! i = Some x →
  fin64 x → fin64 w → (Rabs (B2R x) <= bpow radix2 1021)%R → (Rabs (B2R w) <= bpow radix2 1021)%R → ∃ y, floats h' !! i = Some y ∧ fin64 y ∧
  (Rabs (B2R y - B2R w) <= bpow radix2 (-51) * (Rabs (B2R x) + Rabs (B2R w)) + bpow radix2 (-1072))%R.
Proof. intros H Hn p i w x Hp Hw Hx Fx Fw Bx Bw. destruct (view_elems ps v h h' H Hn) as (l' & -> & _ & _ & E). exists (put_back x w). split; [by eapply E|]. by apply put_back_near. Qed.
Theorem view_inf ps v h h' : setview ps v h = Some h' → NoDup ps → ∀ p i w x, ps !! p = Some i → floats v !! p = Some w → floats h !! i = Some x →
  fin64 x → ¬ fin64 w → floats h' !! i = Some w.
Proof. intros H Hn p i w x Hp Hw Hx Fx Fw. destruct (view_elems ps v h h' H Hn) as (l' & -> & _ & _ & E). transitivity (Some (put_back x w)); [by eapply E|]. f_equal. by apply put_back_inf. Qed.
Theorem view_stuck ps v h h' : setview ps v h = Some h' → NoDup ps → ∀ p i w x, ps !! p = Some i → floats v !! p = Some w → floats h !! i = Some x →
  ¬ fin64 x → floats h' !! i = Some B754_nan.
Proof. intros H Hn p i w x Hp Hw Hx Fx. destruct (view_elems ps v h h' H Hn) as (l' & -> & _ & _ & E). transitivity (Some (put_back x w)); [by eapply E|]. f_equal. by apply put_back_lost. Qed.
Theorem view_others ps v h h' : setview ps v h = Some h' → NoDup ps → length (floats h') = length (floats h) ∧ ∀ i x, i ∉ ps → floats h !! i = Some x → ∃ y, floats h' !! i = Some y ∧ same_num x y.
Proof. intros H Hn. destruct (view_elems ps v h h' H Hn) as (l' & -> & L & O & _). done. Qed.
(** small integers *)
Theorem view_small ps v h h' : setview ps v h = Some h' → NoDup ps → ∀ p i w x m n, ps !! p = Some i → floats v !! p = Some w → floats h !! i = Some x →
  fin64 x → fin64 w → B2R x = IZR m → B2R w = IZR n → (Z.abs m ≤ 2 ^ 52)%Z → (Z.abs n ≤ 2 ^ 52)%Z → ∃ y, floats h' !! i = Some y ∧ fin64 y ∧ B2R y = B2R w.
Proof.
  intros H Hn p i w x m n Hp Hw Hx Fx Fw Em En Bm Bn. eapply (view_exact ps v h h' H Hn p i w x); [done..| |].
  - rewrite Em, En, <- plus_IZR. apply fmt_int. lia.
  - rewrite Em, En, <- plus_IZR. eapply Rle_lt_trans; [|apply (bpow_lt radix2 53 1024); lia]. rewrite <- abs_IZR. change (bpow radix2 53) with (IZR (2 ^ 53)%Z). apply IZR_le. lia.
Qed.
Theorem view_types ps v h h' : setview ps v h = Some h' → is_array h' = true ∧ h' = Flts true (floats h').
Proof. unfold setview. destruct (decide _); [|done]. by intros [= <-]. Qed.

(** Runs. *)
Definition half64 : b64 := ratio 1 2.
Theorem ints_cut : ∃ v ps w h', fits64 v ∧ run (by_name v) [SetItem ps (Flts true [w])] = Some h' ∧ ps = [0] ∧ fin64 w ∧ ∃ y, floats h' !! 0 = Some y ∧ Beqb y w = false ∧ Beqb y (of_int 0) = true.
Proof.
  exists (Ints true [1; 2; 3]%Z), [0], half64. assert (E : match setitem [0] (Flts true [half64]) (Ints true [1; 2; 3]%Z) with Some _ => true | None => false end = true) by (vm_compute; reflexivity).
  destruct (setitem [0] _ _) as [h'|] eqn:H; [|done]. exists h'. split; [simpl; repeat constructor; lia|]. split; [unfold by_name; cbn [run step]; by rewrite H|]. split; [done|]. split; [vm_compute; reflexivity|].
  destruct (item_ints [0] true _ true [half64] h' H (NoDup_singleton 0) 0 0 half64 eq_refl eq_refl) as (z & Hz & F & Ez). exists (of_int z). split; [done|].
  assert (Z0 : trunc64 half64 = Some 0%Z) by (vm_compute; reflexivity). apply trunc64_is in Z0 as (_ & Z0 & _). rewrite <- Ez in Z0. subst z. rewrite <- Z0. split; vm_compute; reflexivity.
Qed.
Theorem ints_cut_later : ∃ v ps w h', run (by_position (Ints true [1; 2; 3]%Z)) [SetX v; SetItem ps (Flts true [w])] = Some h' ∧ ps = [0] ∧ fin64 w ∧ ∃ y, floats h' !! 0 = Some y ∧ Beqb y w = false.
Proof.
  destruct ints_cut as (v & ps & w & h' & _ & H & Hp & Hw & y & Hy & E & _). exists v, ps, w, h'. split; [exact H|]. split; [exact Hp|]. split; [exact Hw|]. by exists y.
Qed.
Definition large : b64 := of_int (2 ^ 54).
Theorem digits_lost : ∃ h ps w h', run h [SetView ps (Flts true [w])] = Some h' ∧ ps = [0] ∧ floats h = [large] ∧ fin64 w ∧ Beqb w (of_int 1) = true ∧ ∃ y, floats h' !! 0 = Some y ∧ Beqb y (of_int 0) = true.
Proof.
  exists (Flts true [large]), [0], (of_int 1). assert (E : match setview [0] (Flts true [of_int 1]) (Flts true [large]) with Some _ => true | None => false end = true) by (vm_compute; reflexivity).
  destruct (setview [0] _ _) as [h'|] eqn:H; [|done]. exists h'. split; [unfold by_name; cbn [run step]; by rewrite H|]. split; [done|]. split; [done|]. split; [vm_compute; reflexivity|]. split; [vm_compute; reflexivity|].
  destruct (view_elems [0] _ _ h' H (NoDup_singleton 0)) as (l' & -> & _ & _ & El). exists (put_back large (of_int 1)). split; [by apply (El 0)|]. vm_compute. reflexivity.
Qed.
Theorem nan_stays : ∃ h ps w h', run h [SetView ps (Flts true [w])] = Some h' ∧ ps = [0] ∧ fin64 w ∧ floats h' !! 0 = Some B754_nan.
Proof.
  exists (Flts true [B754_nan]), [0], (of_int 1). assert (E : match setview [0] (Flts true [of_int 1]) (Flts true [B754_nan]) with Some _ => true | None => false end = true) by (vm_compute; reflexivity).
  destruct (setview [0] _ _) as [h'|] eqn:H; [|done]. exists h'. split; [unfold by_name; cbn [run step]; by rewrite H|]. split; [done|]. split; [vm_compute; reflexivity|]. apply (view_stuck [0] _ _ h' H (NoDup_singleton 0) 0 0 (of_int 1) B754_nan); try done.
Qed.
Theorem list_raises ps v h : is_array h = false → setview ps v h = None.
Proof. intros H. unfold setview. rewrite decide_False; [done|]. rewrite H. by intros [? _]. Qed.
Theorem big_lost : ∃ z, (- 2 ^ 63 ≤ z < 2 ^ 63)%Z ∧ B2R (of_int z) ≠ IZR z ∧ ∃ z', z' ≠ z ∧ B2R (of_int z') = B2R (of_int z).
Proof.
  exists (2 ^ 53 + 1)%Z. split; [lia|]. assert (E : Beqb (of_int (2 ^ 53 + 1)) (of_int (2 ^ 53)) = true) by (vm_compute; reflexivity).
  destruct (of_int_exact (2 ^ 53)) as [F V]; [lia|]. destruct (of_int_nearest (2 ^ 53 + 1)) as [F' _]; [lia|]. rewrite Beqb_correct in E by done. revert E. case Req_bool_spec; [|done]. intros E _. split.
  - rewrite E, V. intros H. apply eq_IZR in H. lia.
  - exists (2 ^ 53)%Z. split; [lia|done].
Qed.
