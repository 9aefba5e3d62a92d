(** Runs of the optimizer on smooth problems. *)
From Coq Require Import Reals Lra Lia FunctionalExtensionality.
From stdpp Require Import prelude.
From Verif Require Import ArrModel ArrThms DogModel DogSpec DogThms DogExact DogGeo DogGeoThms DogLive DogStops DogBest LsqThms SmoothSpec SmoothThms.

Lemma archimed_nat (r : R) : ∃ k : nat, (r < INR k)%R.
Proof.
  destruct (archimed r) as [H _]. exists (Z.to_nat (up r)). rewrite INR_IZR_INZ. destruct (decide (0 <= up r)%Z) as [Hz|Hz].
  - rewrite Z2Nat.id by done. lra.
  - assert (IZR (up r) <= 0)%R by (apply IZR_le; lia). assert (0 <= IZR (Z.of_nat (Z.to_nat (up r))))%R by (apply IZR_le; lia). lra.
Qed.

Section smooth.
  Context (m n : nat) (slv : mat → vec → option vec) (F : vec → vec) (J : vec → mat) (x0 : vec).
  Notation E := (exact m n slv).
  Context (P : problem reals E) (HP : problem_of m n slv F J P) (HS : solves_at m n slv F J x0).
  Context (t1 t2 : R) (Ht1 : (0 < t1)%R) (He1 : e1 reals E P = Some t1) (He2 : e2 reals E P = Some t2) (He3 : klt reals (Some 0%R) (e3 reals E P) = false).
  Notation st := (st reals E). Notation ev := (event reals E).
  Notation sp := (s_p reals E). Notation fv := (s_fv reals E). Notation sr := (s_r reals E). Notation slog := (s_log reals E).
  Notation sdone := (s_done reals E). Notation sfe := (s_fevals reals E). Notation sdelta := (s_delta reals E). Notation sdl := (s_dl reals E). Notation sit := (s_iter reals E).
  Notation sJ := (s_J reals E). Notation sA := (s_A reals E). Notation sg := (s_g reals E). Notation ssd := (s_sd reals E). Notation sgn := (s_gn reals E).
  Notation upd s := (update_step reals E (ssd s) (sgn s) (sdelta s) (sA s) (sg s)).
  Notation grad x := (descent m (J x) (F x)). Notation sq x := (sum_squares m F x). Notation up x v := (gain m n (J x) (F x) v).
  Implicit Types (s : st) (x v : vec).

  Record point s x : Prop := {
    pt_p : sp s = Some x; pt_fv : fv s = Some x; pt_r : sr s = Some (F x); pt_J : sJ s = J x; pt_A : sA s = gram E (J x); pt_g : sg s = Some (grad x)
  }.
  Lemma stop_point s x : point s x → point (stop reals E s) x.
  Proof. intros [? ? ? ? ? ?]. by constructor. Qed.
  Definition small_at x : Prop := (maxabs n (grad x) < t1)%R.
  Lemma not_small x : ¬ small_at x → (0 < dot n (grad x) (grad x))%R.
  Proof. intros H. apply (gradient_ne m n slv t1); [done|]. change (vinf E (Some (grad x))) with (Some (maxabs n (grad x))). apply xlt_false. unfold small_at in H. lra. Qed.
  Record inside s x : Prop := {
    in_pt : point s x; in_sd : ssd s = Some (sdv m n (J x) (F x)); in_gn : sgn s = None ∨ ∃ y, sgn s = Some (Some y) ∧ normal_eq m n (J x) (F x) y;
    in_no : no_worse m F x0 x; in_big : ¬ small_at x; in_rad : positive (sdelta s); in_on : sdone s = false
  }.
  Record goes x (d : R) (old : option (option R)) v : Prop := {
    go_gain : (0 < up x v)%R; go_pos : (0 < d)%R; go_old : old = None ∨ old = Some (Some d); go_in : (len n v <= d)%R;
    go_kind : ∃ y, normal_eq m n (J x) (F x) y ∧ (v = y ∨ dogleg n (sdv m n (J x) (F x)) y d v)
  }.
  Lemma upd_goes s x : inside s x →
    ∃ gn v d, upd s = Some (gn, Some v, Some d) ∧ goes x d (sdelta s) v ∧ (gn = None ∨ ∃ y, gn = Some (Some y) ∧ normal_eq m n (J x) (F x) y).
  Proof.
    intros [[E1 E2 E3 E4 E5 E6] Hsd Hgn Hno Hbig Hd _]. pose proof (not_small x Hbig) as Hg.
    assert (X : ∃ y, from_option Some (solve E (sA s) (sg s)) (sgn s) = Some (Some y) ∧ normal_eq m n (J x) (F x) y).
    { destruct Hgn as [->|(y & -> & Hy)]; [|by exists y]. destruct (HS x Hno) as (y & Ey & Hy). exists y. split; [|done]. cbn [from_option]. rewrite E5, E6. cbn -[gram]. by rewrite Ey. }
    destruct X as (y & Es & Hy). pose proof (gain_gn m n (J x) (F x) y Hg Hy) as Gy. pose proof (gain_moves m n (J x) (F x) y Gy) as Ly.
    destruct Hd as [Ed|(d & Ed & Hd)]; rewrite Ed.
    - exists (Some (Some y)), y, (len n y). split_and!; [unfold update_step; by rewrite Es| |right; by exists y]. constructor; try done; [by left|lra|]. exists y. split; [done|by left].
    - rewrite Hsd. destruct (step_exact m n slv (sdv m n (J x) (F x)) y d (sA s) (sg s) Hd) as (v & gn' & Eu & Hdog & ->).
      assert (X : ∃ gn, update_step reals E (Some (sdv m n (J x) (F x))) (sgn s) (Some (Some d)) (sA s) (sg s) = Some (gn, Some v, Some d) ∧ (gn = sgn s ∨ gn = Some (Some y))).
      { unfold update_step in *. destruct (kle reals (Some d) (vnorm E (Some (sdv m n (J x) (F x))))).
        - exists (sgn s). split; [|by left]. exact (f_equal (λ o : option (option (V E) * V E * K reals), match o with Some (_, a, c) => Some (sgn s, a, c) | None => None end) Eu).
        - rewrite Es. exists (Some (Some y)). split; [exact Eu|by right]. }
      destruct X as (gn & Eg & Hgn'). exists gn, v, d. split_and!; [done| |].
      + constructor; try done; [by apply (gain_step m n (J x) (F x) y d)|by right|by apply (dogleg_in n (sdv m n (J x) (F x)) y)|]. exists y. split; [done|by right].
      + destruct Hgn' as [->| ->]; [done|]. right. by exists y.
  Qed.
  (** the ratio *)
  Definition ratio x v : R := let a := (sq x - sq (λ i, x i + v i))%R in if Rlt_dec 0 a then (a / up x v)%R else a.
  Lemma trial_ratio s x v gn d : point s x → (0 < up x v)%R →
    ∀ l, trial reals E (set_log reals E (set_step reals E s gn (Some v) d) l) (Some (F (λ i, x i + v i)%R)) = Some (ratio x v).
  Proof.
    intros [E1 E2 E3 E4 E5 E6] Hg l. unfold trial. cbn [s_r set_log set_step]. rewrite E3.
    assert (X : ksub reals (ksq reals (wnorm E (Some (F x)))) (ksq reals (wnorm E (Some (F (λ i, x i + v i)%R)))) = Some (sq x - sq (λ i, x i + v i))%R).
    { cbn. f_equal. unfold sum_squares. by rewrite !len_sq. }
    rewrite X. rewrite (predicted_gain m n slv (J x) (F x) v); [|done|by rewrite (jt_neg_descent m n slv)|done].
    unfold ratio. cbv zeta. set (a := (sq x - sq (λ i, x i + v i))%R). change (klt reals (k0 reals) (Some a)) with (if Rlt_dec 0 a then true else false). destruct (Rlt_dec 0 a); [|done].
    cbn -[gain]. destruct (Req_EM_T _ 0); [lra|]. done.
  Qed.
  Definition radius (rho d : R) v : R := if Rlt_dec (9 / 10) rho then Rmax d (25 / 10 * len n v) else if Rlt_dec rho (5 / 100) then (d * (25 / 100))%R else d.
  Lemma new_radius_is rho d v : new_radius reals E (Some rho) (Some d) (Some v) = Some (radius rho d v).
  Proof.
    unfold new_radius, radius. cbv zeta. change (klt reals (k09 reals) (Some rho)) with (if Rlt_dec (9 / 10) rho then true else false). destruct (Rlt_dec _ rho).
    - change (kmul reals (k25 reals) (vnorm E (Some v))) with (Some (25 / 10 * len n v)%R). destruct (klt reals (Some d) (Some (25 / 10 * len n v)%R)) eqn:Ek.
      + apply xlt_true in Ek. rewrite Rmax_right; [done|lra].
      + apply xlt_false in Ek. by rewrite Rmax_left.
    - change (klt reals (Some rho) (k005 reals)) with (if Rlt_dec rho (5 / 100) then true else false). by destruct (Rlt_dec rho _).
  Qed.
  Definition limited s : Prop := over (maxiter reals E P) (sit s) = true ∨ over (max_fevals reals E P) (sfe s) = true.
  (** one pass through the inner loop *)
  Lemma after_stop s : after_inner reals E P (stop reals E s) = stop reals E s.
  Proof. unfold after_inner. repeat destruct (over _ _); done. Qed.
  Lemma pass s x : inside s x → ∃ v d, goes x d (sdelta s) v ∧
    let y := λ i, (x i + v i)%R in let d' := radius (ratio x v) d v in
    ((∃ s', step reals E P (AtInner reals E s) = AtOuter reals E s' ∧ sdone s' = true ∧ point s' x ∧ sdl s' = Some v ∧ (len n v <= t2 * len n x)%R) ∨
     (ratio x v <= 0)%R ∧ (∃ s', sdelta s' = Some (Some d') ∧
        (step reals E P (AtInner reals E s) = AtInner reals E s' ∧ inside s' x ∨
         step reals E P (AtInner reals E s) = AtOuter reals E s' ∧ sdone s' = true ∧ point s' x ∧ ((d' <= t2 * len n x)%R ∨ limited s'))) ∨
     (0 < ratio x v)%R ∧ (∃ s', step reals E P (AtInner reals E s) = AtOuter reals E s' ∧ point s' y ∧ sdelta s' = Some (Some d') ∧
        (sdone s' = true → small_at y ∨ (d' <= t2 * len n y)%R ∨ limited s') ∧ (sdone s' = false → ¬ small_at y))).
  Proof.
    intros Hin. destruct (upd_goes s x Hin) as (gn & v & d & Eu & Hgo & Hgn). exists v, d. split; [done|]. cbv zeta.
    pose proof Hin as [[E1 E2 E3 E4 E5 E6] Hsd Hgn0 Hno Hbig Hd Hon].
    cbn [step]. unfold inner. rewrite Eu. cbv zeta.
    match goal with |- context [set_log reals E (set_step reals E s gn ?a ?c) ?e] => set (s1 := set_log reals E (set_step reals E s gn a c) e) end.
    assert (P1 : sp s1 = Some x) by exact E1. rewrite He2.
    match goal with |- context [if kle reals ?a ?c then inl (stop reals E s1, true) else _] => assert (Ek : kle reals a c = if Rle_dec (len n v) (t2 * len n x) then true else false) by (by rewrite P1) end.
    rewrite Ek. clear Ek. destruct (Rle_dec (len n v) (t2 * len n x)) as [Hle|Hgt].
    { left. eexists. split; [reflexivity|]. rewrite after_stop. split_and!; try done; by constructor. }
    right. set (y := λ i, (x i + v i)%R). match goal with |- context [vadd E (sp s1) ?a] => assert (Ey : vadd E (sp s1) a = Some y) by (by rewrite P1) end. rewrite Ey.
    match goal with |- context [resid reals E P ?k ?a] => assert (Er : resid reals E P k a = Some (Some (F y))) by apply (proj1 HP) end. rewrite Er.
    match goal with |- context [trial reals E s1 ?a] => assert (Et : trial reals E s1 a = Some (ratio x v)) by (apply (trial_ratio s x v gn (Some (Some d)) (in_pt _ _ Hin) (go_gain _ _ _ _ Hgo))) end. rewrite Et.
    set (rho := ratio x v). change (klt reals (k0 reals) (Some rho)) with (if Rlt_dec 0 rho then true else false).
    rewrite new_radius_is. set (d' := radius rho d v). destruct (Rlt_dec 0 rho) as [Hrho|Hrho]; cbv iota.
    - right. split; [done|].
      set (s2 := set_log reals E (set_log reals E (count reals E (set_fv reals E s1 (Some y))) (EEval reals E (Some y) (Some (F y)))) (ETrial reals E (Some rho) true)).
      unfold accept. cbv zeta. change (k0 reals) with (Some 0%R). rewrite He3. cbn [andb]. set (s3 := set_log reals E (set_p reals E s2 (Some y)) (ECall reals E (fv s2))).
      match goal with |- context [jac reals E P ?k ?a] => assert (Ej : jac reals E P k a = Some (J y)) by apply (proj2 HP) end. rewrite Ej.
      match goal with |- context [small_gradient reals E P ?a] => set (s4 := a) end.
      assert (P4 : point s4 y). { constructor; try done. cbn [s_g s4 set_r]. unfold s4, set_r. cbn [s_g]. by rewrite (jt_neg_descent m n slv). }
      set (s5 := small_gradient reals E P s4). assert (P5 : point s5 y) by (unfold s5, small_gradient; destruct (klt reals (vinf E (sg s4)) (e1 reals E P)); [by apply stop_point|done]).
      assert (D5 : sdone s5 = if Rlt_dec (maxabs n (grad y)) t1 then true else false).
      { unfold s5, small_gradient. rewrite (pt_g _ _ P4), He1. change (klt reals (vinf E (Some (grad y))) (Some t1)) with (if Rlt_dec (maxabs n (grad y)) t1 then true else false). destruct (Rlt_dec _ _); [done|exact Hon]. }
      match goal with |- context [set_delta reals E s5 ?a] => set (s6 := set_delta reals E s5 a) end. assert (X6 : sp s6 = Some y) by exact (pt_p _ _ P5).
      match goal with |- context [kle reals ?a ?c] => assert (Ek : kle reals a c = if Rle_dec d' (t2 * len n y) then true else false) by (by rewrite X6) end. rewrite Ek. clear Ek.
      match goal with |- context [if ?a then stop reals E s6 else s6] => set (s7 := if a then stop reals E s6 else s6) end.
      assert (P6 : point s6 y) by (destruct P5; by constructor). assert (P7 : point s7 y) by (unfold s7; destruct (Rle_dec _ _); [by apply stop_point|done]).
      assert (O7 : sdelta s7 = Some (Some d')) by (unfold s7; by destruct (Rle_dec _ _)).
      assert (D7 : (sdone s7 = true → small_at y ∨ (d' <= t2 * len n y)%R) ∧ (sdone s7 = false → ¬ small_at y)).
      { unfold s7. destruct (Rle_dec d' _) as [Hr|Hr]; cbn [s_done stop]; [split; [by right|done]|]. change (sdone s6) with (sdone s5). rewrite D5. unfold small_at. destruct (Rlt_dec _ _); split; try done. by left. }
      rewrite orb_true_r. cbn [orb]. exists (after_inner reals E P s7). split; [done|]. unfold after_inner.
      destruct (over (maxiter reals E P) (sit s7)) eqn:X1; [|destruct (over (max_fevals reals E P) (sfe s7)) eqn:X2].
      + split_and!; [by apply stop_point|done| |done]. intros _. right. right. left. done.
      + split_and!; [by apply stop_point|done| |done]. intros _. right. right. right. done.
      + split_and!; [done..| |apply D7]. intros H. destruct (proj1 D7 H); [by left|right; by left].
    - left. split; [lra|]. match goal with |- context [set_delta reals E ?a ?c] => set (s6 := set_delta reals E a c) end. assert (X6 : sp s6 = Some x) by exact E1.
      assert (P6 : point s6 x) by (by constructor).
      match goal with |- context [kle reals ?a ?c] => assert (Ek : kle reals a c = if Rle_dec d' (t2 * len n x) then true else false) by (by rewrite X6) end. rewrite Ek. clear Ek.
      assert (D6 : sdone s6 = false) by exact Hon.
      destruct (Rle_dec d' (t2 * len n x)) as [Hr|Hr].
      { exists (stop reals E s6). split; [done|]. right. cbn [stop s_done orb]. split_and!; [by rewrite after_stop|done|by apply stop_point|by left]. }
      rewrite D6. cbn [orb]. destruct (over (max_fevals reals E P) (sfe s6)) eqn:Eo.
      + exists (stop reals E s6). split; [done|]. right. split_and!; [|done|by apply stop_point|right; by right]. unfold after_inner. rewrite Eo. by destruct (over (maxiter reals E P) (sit s6)).
      + exists s6. split; [done|]. left. split; [done|]. constructor; try done. right. exists d'. split; [done|]. unfold d', radius. pose proof (go_pos _ _ _ _ Hgo) as Hpos.
        destruct (Rlt_dec (9 / 10) rho) as [H9|H9]; [lra|]. destruct (Rlt_dec rho (5 / 100)) as [H5|H5]; lra.
  Qed.

  (** How far it has to go *)
  Context (B L h : R) (HB : (0 < B)%R) (HJ : ∀ x v, no_worse m F x0 x → (dot m (mulv n (J x) v) (mulv n (J x) v) <= B * dot n v v)%R).
  Context (HL : (0 <= L)%R) (Hh : (0 < h)%R).
  Context (HF : ∀ x v, no_worse m F x0 x → (len n v <= h)%R → (len m (λ i, F (λ j, x j + v j) i - linear n (J x) (F x) v i) <= L * dot n v v)%R).
  Definition kk : R := (2 * len m (F x0) * L + L * L + 1)%R.
  Definition cc : R := Rmin (Rmin h 1) (Rmin (t1 / B) (t1 / (2 * kk))).
  Lemma kk_pos : (1 <= kk)%R.
  Proof. unfold kk. pose proof (len_nonneg m (F x0)). assert (0 <= len m (F x0) * L)%R by (by apply Rmult_le_pos). nra. Qed.
  Lemma cc_pos : (0 < cc)%R.
  Proof. pose proof kk_pos. unfold cc. repeat apply Rmin_pos; try lra; apply Rdiv_lt_0_compat; lra. Qed.
  Lemma cc_le : (cc <= h ∧ cc <= 1 ∧ B * cc <= t1 ∧ 2 * kk * cc <= t1)%R.
  Proof.
    pose proof kk_pos. unfold cc. set (a := (t1 / B)%R). set (b := (t1 / (2 * kk))%R). assert (Ea : (B * a = t1)%R) by (unfold a; field; lra). assert (Eb : (2 * kk * b = t1)%R) by (unfold b; field; lra).
    pose proof (Rmin_l (Rmin h 1) (Rmin a b)). pose proof (Rmin_r (Rmin h 1) (Rmin a b)). pose proof (Rmin_l h 1). pose proof (Rmin_r h 1). pose proof (Rmin_l a b). pose proof (Rmin_r a b).
    split_and!; [lra|lra| |].
    - rewrite <- Ea. apply Rmult_le_compat_l; lra.
    - rewrite <- Eb. apply Rmult_le_compat_l; lra.
  Qed.
  Lemma len_big x : ¬ small_at x → (t1 <= len n (grad x))%R.
  Proof. intros H. unfold small_at in H. pose proof (maxabs_len n (grad x)). lra. Qed.
  Lemma gain_bound x d old v : no_worse m F x0 x → ¬ small_at x → goes x d old v → (Rmin (d * t1) (t1 * t1 / B) <= up x v)%R.
  Proof.
    intros Hx Hb Hg. destruct (go_kind _ _ _ _ Hg) as (y & Hy & Hv). pose proof (len_big x Hb) as Hl.
    eapply Rle_trans; [|apply (gain_least m n (J x) (F x) B y d v (not_small x Hb) HB); [intros u; by apply HJ|done|done]].
    pose proof (go_pos _ _ _ _ Hg). apply Rmin_glb.
    - eapply Rle_trans; [apply Rmin_l|]. apply Rmult_le_compat_l; lra.
    - eapply Rle_trans; [apply Rmin_r|]. rewrite <- len_sq. unfold Rdiv. apply Rmult_le_compat_r; [apply Rlt_le; by apply Rinv_0_lt_compat|]. apply Rmult_le_compat; lra.
  Qed.
  Lemma len_no_worse x : no_worse m F x0 x → (len m (F x) <= len m (F x0))%R.
  Proof. intros H. unfold len. by apply sqrt_le_1_alt. Qed.
  (** short steps are good ones *)
  Lemma short_good x d old v : no_worse m F x0 x → ¬ small_at x → goes x d old v → (d <= cc)%R → (1 / 2 <= ratio x v)%R.
  Proof.
    intros Hx Hb Hg Hd. destruct cc_le as (C1 & C2 & C3 & C4). pose proof (gain_bound x d old v Hx Hb Hg) as G. pose proof (go_pos _ _ _ _ Hg) as Hp. pose proof (go_in _ _ _ _ Hg) as Hi. pose proof (go_gain _ _ _ _ Hg) as Hgg.
    assert (G' : (d * t1 <= up x v)%R).
    { eapply Rle_trans; [|exact G]. apply Rmin_glb; [lra|]. apply (Rmult_le_reg_r B); [done|]. replace (t1 * t1 / B * B)%R with (t1 * t1)%R by (field; lra).
      assert (B * d <= t1)%R by (eapply Rle_trans; [|exact C3]; apply Rmult_le_compat_l; lra). nra. }
    pose proof (HF x v Hx ltac:(lra)) as Hr. pose proof (gain_real m n (J x) (F x) (F (λ j, x j + v j)%R) v L ltac:(lra) HL Hr) as A.
    set (q := dot n v v) in *. assert (Hq0 : (0 <= q)%R) by apply dot_nonneg. pose proof (len_nonneg n v) as Hlv. assert (Hq : (q <= d * d)%R) by (unfold q; rewrite <- len_sq; apply Rmult_le_compat; lra).
    assert (Hq1 : (q <= 1)%R) by nra. pose proof (len_no_worse x Hx) as Hlx. pose proof (len_nonneg m (F x)) as Hl0.
    assert (K1 : (2 * len m (F x) * L + L * L * q <= kk)%R). { unfold kk. assert (len m (F x) * L <= len m (F x0) * L)%R by (by apply Rmult_le_compat_r). assert (0 <= L * L)%R by (by apply Rmult_le_pos). nra. }
    assert (K2 : ((2 * len m (F x) * L + L * L * q) * q <= kk * (d * d))%R). { pose proof kk_pos. apply Rmult_le_compat; try lra. apply Rplus_le_le_0_compat; [apply Rmult_le_pos; lra|]. repeat apply Rmult_le_pos; lra. }
    assert (K3 : (kk * (d * d) <= d * t1 / 2)%R). { pose proof kk_pos. assert (2 * kk * d <= t1)%R by (eapply Rle_trans; [|exact C4]; apply Rmult_le_compat_l; lra). nra. }
    unfold ratio. cbv zeta. fold (sq (λ i, x i + v i)%R) (sq x) in A. unfold sum_squares in *. set (a := (dot m (F x) (F x) - _)%R) in *. destruct (Rlt_dec 0 a); [|lra].
    apply (Rmult_le_reg_r (up x v)); [done|]. unfold Rdiv. rewrite (Rmult_assoc a), Rinv_l by lra. lra.
  Qed.
  (** the potential *)
  Lemma ln_quarter : (ln (25 / 100) <= -1)%R.
  Proof.
    replace (25 / 100)%R with (/ 4)%R by field. rewrite ln_Rinv by lra. enough (1 <= ln 4)%R by lra. rewrite <- (ln_exp 1). pose proof exp_le_3. pose proof (exp_pos 1).
    destruct (Rle_lt_or_eq_dec (exp 1) 4 ltac:(lra)) as [Hl|Hl]; [left; by apply ln_increasing|rewrite Hl; lra].
  Qed.
  Lemma ln_more : (ln (25 / 10) <= 2)%R.
  Proof.
    rewrite <- (ln_exp 2). pose proof (exp_ineq1 2 ltac:(lra)). left. apply ln_increasing; lra.
  Qed.
  Section bound.
    Context (dm : R) (Hdm : (0 < dm)%R) (Hdc : (4 * dm <= cc)%R).
    Definition eta : R := (5 / 100 * Rmin (dm * t1) (t1 * t1 / B))%R.
    Lemma eta_pos : (0 < eta)%R.
    Proof. unfold eta. apply Rmult_lt_0_compat; [lra|]. apply Rmin_pos; [by apply Rmult_lt_0_compat|]. apply Rdiv_lt_0_compat; [by apply Rmult_lt_0_compat|done]. Qed.
    Definition phi x (d : R) : R := (3 * (sq x / eta) + ln (d / dm))%R.
    Lemma phi_pos x d : (dm <= d)%R → (0 <= phi x d)%R.
    Proof.
      intros H. pose proof eta_pos. unfold phi. assert (0 <= sq x / eta)%R by (apply Rmult_le_pos; [apply dot_nonneg|apply Rlt_le; by apply Rinv_0_lt_compat]).
      enough (0 <= ln (d / dm))%R by lra. rewrite <- ln_1. assert (1 <= d / dm)%R by (apply (Rmult_le_reg_r dm); [done|]; unfold Rdiv; rewrite Rmult_assoc, Rinv_l; lra).
      destruct (Rle_lt_or_eq_dec 1 (d / dm) ltac:(lra)) as [Hl|<-]; [left; apply ln_increasing; lra|lra].
    Qed.
    Lemma ln_mul a d : (0 < a)%R → (0 < d)%R → ln (d * a / dm) = (ln (d / dm) + ln a)%R.
    Proof. intros Ha Hd. replace (d * a / dm)%R with (d / dm * a)%R by (field; lra). apply ln_mult; [by apply Rdiv_lt_0_compat|done]. Qed.
    Lemma shrink x d old v : no_worse m F x0 x → ¬ small_at x → goes x d old v → (ratio x v < 5 / 100)%R →
      let d' := radius (ratio x v) d v in (dm <= d')%R ∧ ∀ y, (sq y <= sq x)%R → (phi y d' <= phi x d - 1)%R.
    Proof.
      intros Hx Hb Hg Hr d'. pose proof (go_pos _ _ _ _ Hg) as Hp. assert (Hd : (cc < d)%R). { destruct (Rlt_dec cc d); [done|]. pose proof (short_good x d old v Hx Hb Hg ltac:(lra)). lra. }
      assert (Ed : d' = (d * (25 / 100))%R). { unfold d', radius. destruct (Rlt_dec (9 / 10) _); [lra|]. destruct (Rlt_dec (ratio x v) _); [done|lra]. }
      split; [rewrite Ed; lra|]. intros y Hy. unfold phi. rewrite Ed, ln_mul by lra. pose proof ln_quarter. pose proof eta_pos.
      assert (sq y / eta <= sq x / eta)%R by (apply Rmult_le_compat_r; [apply Rlt_le; by apply Rinv_0_lt_compat|done]). lra.
    Qed.
    Lemma advance x d old v : no_worse m F x0 x → ¬ small_at x → goes x d old v → (dm <= d)%R → (0 < ratio x v)%R →
      let y := λ i, (x i + v i)%R in let d' := radius (ratio x v) d v in no_worse m F x0 y ∧ (dm <= d')%R ∧ (phi y d' <= phi x d - 1)%R.
    Proof.
      intros Hx Hb Hg Hd Hr y d'. pose proof (go_pos _ _ _ _ Hg) as Hp. pose proof (go_gain _ _ _ _ Hg) as Hgg. pose proof (go_in _ _ _ _ Hg) as Hi.
      assert (Ha : (0 < sq x - sq y)%R ∧ ratio x v = ((sq x - sq y) / up x v)%R).
      { unfold ratio in *. cbv zeta in *. fold y in Hr |- *. destruct (Rlt_dec 0 (sq x - sq y)); [done|lra]. }
      destruct Ha as [Ha Er]. assert (Hy : no_worse m F x0 y) by (unfold no_worse in *; lra). split; [done|].
      destruct (Rlt_dec (ratio x v) (5 / 100)) as [Hs|Hs].
      { destruct (shrink x d old v Hx Hb Hg Hs) as [H1 H2]. split; [done|]. apply H2. lra. }
      assert (Hrad : (d <= d' <= d * (25 / 10))%R). { unfold d', radius. destruct (Rlt_dec (9 / 10) _); [split; [apply Rmax_l|apply Rmax_lub; lra]|]. destruct (Rlt_dec (ratio x v) _); lra. }
      split; [lra|]. assert (Hdec : (eta <= sq x - sq y)%R).
      { assert (He : (5 / 100 * up x v <= sq x - sq y)%R). { rewrite Er in Hs. apply Rnot_lt_le in Hs. apply (Rmult_le_compat_r (up x v)) in Hs; [|lra]. unfold Rdiv at 2 in Hs. rewrite (Rmult_assoc (sq x - sq y)%R), Rinv_l in Hs by lra. lra. }
        eapply Rle_trans; [|exact He]. unfold eta. apply Rmult_le_compat_l; [lra|]. eapply Rle_trans; [|by apply (gain_bound x d old v)].
        apply Rmin_glb; [|apply Rmin_r]. eapply Rle_trans; [apply Rmin_l|]. apply Rmult_le_compat_r; lra. }
      pose proof eta_pos as Hep. assert (H1 : (sq y / eta <= sq x / eta - 1)%R).
      { apply (Rmult_le_reg_r eta); [done|]. unfold Rdiv. rewrite Rmult_minus_distr_r, !Rmult_assoc, Rinv_l by lra. lra. }
      assert (H2 : (ln (d' / dm) <= ln (d / dm) + 2)%R).
      { pose proof ln_more as Hm. assert (Hle : (ln (d' / dm) <= ln (d * (25 / 10) / dm))%R).
        { assert (Hc : (d' / dm <= d * (25 / 10) / dm)%R) by (apply Rmult_le_compat_r; [apply Rlt_le; by apply Rinv_0_lt_compat|lra]).
          destruct (Rle_lt_or_eq_dec _ _ Hc) as [Hl|Hl]; [left; apply ln_increasing; [apply Rdiv_lt_0_compat; lra|done]|rewrite Hl; lra]. }
        rewrite ln_mul in Hle by lra. lra. }
      unfold phi. lra.
    Qed.
  End bound.
  (** ... and where it gets *)
  Definition stopped s y : Prop := small_at y ∨ (∃ v, sdl s = Some v ∧ (0 < len n v <= t2 * len n y)%R) ∨ (∃ d, sdelta s = Some (Some d) ∧ (0 < d <= t2 * len n y)%R) ∨ limited s.
  Definition ends (j : nat) (c : conf reals E) : Prop := ∃ s y, Nat.iter j (step reals E P) c = Returned reals E s ∧ fv s = Some y ∧ no_worse m F x0 y ∧ stopped s y.
  Lemma ends_step j c : ends j (step reals E P c) → ends (S j) c.
  Proof. intros (s & y & Hj & H). exists s, y. split; [|done]. rewrite <- Hj. replace (S j) with (j + 1) by lia. exact (iter_add reals E P j 1 c). Qed.
  Lemma ends_more j k c : ends j c → j ≤ k → ends k c.
  Proof.
    intros (s & y & Hj & H) Hk. exists s, y. split; [|done]. replace k with ((k - j) + j) by lia. rewrite (iter_add reals E P), Hj. clear. induction (k - j) as [|i IH]; [done|]. by rewrite Nat.iter_succ, IH.
  Qed.
  Lemma ends_done s y j : sdone s = true → point s y → no_worse m F x0 y → stopped s y → ends (S j) (AtOuter reals E s).
  Proof. intros Hd Hp Hn Hs. apply (ends_more 1); [|lia]. exists s, y. cbn [Nat.iter nat_rect step]. rewrite Hd. split_and!; [done|apply Hp|done|done]. Qed.
  Lemma inside_start s y : sdone s = false → point s y → no_worse m F x0 y → ¬ small_at y → positive (sdelta s) → inside (start_iteration reals E s) y.
  Proof.
    intros Hd [E1 E2 E3 E4 E5 E6] Hn Hs Hr. constructor; try done; [|by left].
    unfold start_iteration. cbn [s_sd]. rewrite E4, E6. apply (cauchy_exact m n slv). by apply not_small.
  Qed.
  Lemma radius_pos rho d v : (0 < d)%R → (0 < radius rho d v)%R.
  Proof. intros H. unfold radius. destruct (Rlt_dec (9 / 10) rho); [pose proof (Rmax_l d (25 / 10 * len n v)); lra|]. destruct (Rlt_dec rho _); lra. Qed.
  (** a pass that ends, or one after which there is less to do *)
  Lemma pass_on s x (Q : R → vec → Prop) : inside s x →
    (∀ v d, goes x d (sdelta s) v → let d' := radius (ratio x v) d v in
      ((ratio x v <= 0)%R → Q d' x) ∧ ((0 < ratio x v)%R → no_worse m F x0 (λ i, x i + v i)%R ∧ Q d' (λ i, x i + v i)%R)) →
    ends 2 (AtInner reals E s) ∨ ∃ s' y d', inside s' y ∧ sdelta s' = Some (Some d') ∧ Q d' y ∧ ∀ j, ends j (AtInner reals E s') → ends (S (S j)) (AtInner reals E s).
  Proof.
    intros Hin HQ. destruct (pass s x Hin) as (v & d & Hg & Hc). cbv zeta in Hc. specialize (HQ v d Hg). cbv zeta in HQ. destruct HQ as [Q1 Q2].
    pose proof (radius_pos (ratio x v) d v (go_pos _ _ _ _ Hg)) as Hrp.
    destruct Hc as [(s' & Es & Hd & Hp & Hdl & Hle)|[(Hr & s' & Ed & [(Es & Hi)|(Es & Hd & Hp & Hst)])|(Hr & s' & Es & Hp & Ed & H1 & H2)]].
    - left. apply ends_step. rewrite Es. apply (ends_done s' x); [done|done|apply Hin|]. right. left. exists v. split; [done|]. pose proof (gain_moves m n (J x) (F x) v (go_gain _ _ _ _ Hg)). lra.
    - right. exists s', x, (radius (ratio x v) d v). split_and!; [done|done|by apply Q1|]. intros j Hj. apply ends_step. rewrite Es. apply (ends_more j); [done|lia].
    - left. apply ends_step. rewrite Es. apply (ends_done s' x); [done|done|apply Hin|]. right. right. destruct Hst as [Hst|Hst]; [left; by eexists|by right].
    - destruct (Q2 Hr) as [Hn Hq]. destruct (sdone s') eqn:Dn.
      + left. apply ends_step. rewrite Es. apply (ends_done s' (λ i, x i + v i)%R); [done|done|done|]. destruct (H1 eq_refl) as [?|[?|?]]; [by left|right; right; left; by eexists|right; right; by right].
      + right. exists (start_iteration reals E s'), (λ i, x i + v i)%R, (radius (ratio x v) d v). split_and!; [|done|done|].
        * apply inside_start; [done|done|done|by apply H2|]. right. by eexists.
        * intros j Hj. apply ends_step. rewrite Es. apply ends_step. cbn [step]. by rewrite Dn.
  Qed.
  Lemma ends_from dm : (0 < dm)%R → (4 * dm <= cc)%R → ∀ k s x d, inside s x → sdelta s = Some (Some d) → (dm <= d)%R → (phi dm x d < INR k)%R → ends (2 * k) (AtInner reals E s).
  Proof.
    intros Hdm Hdc k. induction k as [|k IH]; intros s x d Hin Hd Hdd Hk; [cbn in Hk; pose proof (phi_pos dm Hdm x d Hdd); lra|]. rewrite S_INR in Hk.
    destruct (pass_on s x (λ d' y, (dm <= d')%R ∧ (phi dm y d' <= phi dm x d - 1)%R) Hin) as [H|(s' & y & d' & Hi & Hd' & [H1 H2] & Hj)].
    - intros v d1 Hg d'. assert (d1 = d) as -> by (destruct (go_old _ _ _ _ Hg) as [H|H]; rewrite Hd in H; [done|by injection H as ->]). split; intros Hr.
      + destruct (shrink dm Hdm Hdc x d (sdelta s) v (in_no _ _ Hin) (in_big _ _ Hin) Hg ltac:(lra)) as [H1 H2]. split; [done|]. apply H2. lra.
      + by apply (advance dm Hdm Hdc x d (sdelta s) v (in_no _ _ Hin) (in_big _ _ Hin) Hg Hdd).
    - apply (ends_more 2); [done|lia].
    - replace (2 * S k) with (S (S (2 * k))) by lia. apply Hj, (IH s' y d'); [done|done|done|lra].
  Qed.
  Definition least_radius (d : R) : R := Rmin (cc / 4) d.
  Lemma ends_at s x d k : inside s x → sdelta s = Some (Some d) → (phi (least_radius d) x d < INR k)%R → ends (2 * k) (AtInner reals E s).
  Proof.
    intros Hin Hd Hk. assert (Hp : (0 < d)%R). { destruct (in_rad _ _ Hin) as [H|(d1 & H & Hp)]; rewrite Hd in H; [done|]. by injection H as ->. }
    pose proof cc_pos. assert (Hdm : (0 < least_radius d)%R) by (apply Rmin_pos; lra). pose proof (Rmin_l (cc / 4) d) as A1. pose proof (Rmin_r (cc / 4) d) as A2. fold (least_radius d) in A1, A2.
    apply (ends_from (least_radius d) Hdm ltac:(lra) k s x d); [done|done|done|lra].
  Qed.
  Lemma start_outer : ∃ s, start reals E P (Some x0) = AtOuter reals E s ∧ point s x0 ∧ sdelta s = delta0 reals E P ∧ (sdone s = true → small_at x0) ∧ (sdone s = false → ¬ small_at x0).
  Proof.
    unfold start. match goal with |- context [jac reals E P ?k ?a] => assert (Ej : jac reals E P k a = Some (J x0)) by apply (proj2 HP) end. rewrite Ej.
    match goal with |- context [resid reals E P ?k ?a] => assert (Er : resid reals E P k a = Some (Some (F x0))) by apply (proj1 HP) end. rewrite Er.
    match goal with |- context [small_gradient reals E P ?a] => set (s4 := a) end. exists (small_gradient reals E P s4). split; [done|].
    assert (P4 : point s4 x0). { constructor; try done. unfold s4. cbn [s_g]. by rewrite (jt_neg_descent m n slv). }
    unfold small_gradient. rewrite (pt_g _ _ P4), He1. change (klt reals (vinf E (Some (grad x0))) (Some t1)) with (if Rlt_dec (maxabs n (grad x0)) t1 then true else false).
    destruct (Rlt_dec _ _); split_and!; try done. by apply stop_point.
  Qed.
  Lemma run_first : positive (delta0 reals E P) →
    (∃ s, start reals E P (Some x0) = AtOuter reals E s ∧ sdone s = true ∧ point s x0 ∧ small_at x0) ∨
    (∃ s s', start reals E P (Some x0) = AtOuter reals E s ∧ step reals E P (AtOuter reals E s) = AtInner reals E s' ∧ inside s' x0 ∧ sdelta s' = delta0 reals E P).
  Proof.
    intros Hd0. destruct start_outer as (s & Es & Hp & Ed & H1 & H2). assert (Hn : no_worse m F x0 x0) by (unfold no_worse; lra).
    destruct (sdone s) eqn:Dn; [left; exists s; split_and!; [done|done|done|by apply H1]|]. right. exists s, (start_iteration reals E s). split; [done|]. cbn [step]. rewrite Dn.
    split; [done|]. split; [|done]. apply inside_start; [done|done|done|by apply H2|by rewrite Ed].
  Qed.
  Lemma no_worse_here : no_worse m F x0 x0.
  Proof. unfold no_worse. lra. Qed.
  Theorem run_ends : positive (delta0 reals E P) → ∃ j, ends j (start reals E P (Some x0)).
  Proof.
    intros Hd0. destruct (run_first Hd0) as [(s & Es & Dn & Hp & Hs)|(s & s' & Es & Ei & Hin & Ed)]; rewrite Es.
    { exists 1. apply (ends_done s x0); [done|done|apply no_worse_here|]. by left. }
    enough (X : ∃ j, ends j (AtInner reals E s')) by (destruct X as [j Hj]; exists (S j); apply ends_step; by rewrite Ei).
    destruct (pass_on s' x0 (λ _ _, True) Hin) as [H|(s2 & y & d' & Hi & Hd' & _ & Hj)].
    - intros v d Hg d'. split; [done|]. intros Hr. split; [|done]. unfold ratio in Hr. cbv zeta in Hr. unfold no_worse. destruct (Rlt_dec 0 _); lra.
    - by exists 2.
    - destruct (archimed_nat (phi (least_radius d') y d')) as [k Hk]. exists (S (S (2 * k))). by apply Hj, (ends_at s2 y d').
  Qed.
  (** with a radius to start from, in so many passes *)
  Theorem run_bound d k : delta0 reals E P = Some (Some d) → (0 < d)%R → (phi (least_radius d) x0 d < INR k)%R → ends (2 * k + 1) (start reals E P (Some x0)).
  Proof.
    intros Ed0 Hd Hk. destruct run_first as [(s & Es & Dn & Hp & Hs)|(s & s' & Es & Ei & Hin & Ed)]; [right; by exists d| |]; rewrite Es; rewrite Nat.add_1_r.
    { apply (ends_done s x0); [done|done|apply no_worse_here|]. by left. }
    apply ends_step. rewrite Ei. apply (ends_at s' x0 d); [done|by rewrite Ed|done].
  Qed.
End smooth.
