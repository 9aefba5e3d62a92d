(** Runs of the optimizer on linear least squares problems. *)
From Coq Require Import Reals Lra Lia FunctionalExtensionality.
From stdpp Require Import prelude.
From Verif Require Import ArrModel ArrThms DogModel DogSpec DogThms DogExact DogGeo DogGeoThms DogLive DogStops DogBest LsqSpec LsqThms.

Section lsq.
  Context (m n : nat) (slv : mat → vec → option vec) (J : mat) (b : vec).
  Notation E := (exact m n slv).
  Context (P : problem reals E) (HP : affine_problem m n slv J b P) (HS : solves m n slv J).
  Context (t1 t2 : R) (Ht1 : (0 < t1)%R) (He1 : e1 reals E P = Some t1) (He2 : e2 reals E P = Some t2) (He3 : klt reals (Some 0%R) (e3 reals E P) = false).
  Notation st := (st reals E). Notation ev := (event reals E).
  Notation sp := (s_p reals E). Notation fv := (s_fv reals E). Notation sr := (s_r reals E). Notation slog := (s_log reals E).
  Notation sdone := (s_done reals E). Notation sfe := (s_fevals reals E). Notation sdelta := (s_delta reals E). Notation sdl := (s_dl reals E). Notation sit := (s_iter reals E).
  Notation sJ := (s_J reals E). Notation sA := (s_A reals E). Notation sg := (s_g reals E). Notation ssd := (s_sd reals E). Notation sgn := (s_gn reals E).
  Notation upd s := (update_step reals E (ssd s) (sgn s) (sdelta s) (sA s) (sg s)).
  Notation res x := (linear n J b x). Notation grad x := (descent m J (linear n J b x)).
  Implicit Types (s : st) (x v : vec).

  Record point s x : Prop := {
    pt_p : sp s = Some x; pt_fv : fv s = Some x; pt_r : sr s = Some (res x); pt_J : sJ s = J; pt_A : sA s = gram E J; pt_g : sg s = Some (grad x)
  }.
  Definition radius_of s : option (option R) := sdelta s.
  Lemma stop_point s x : point s x → point (stop reals E s) x.
  Proof. intros [? ? ? ? ? ?]. by constructor. Qed.
  (** a step: how long it is and where it comes from *)
  Record goes x (d : R) (old : option (option R)) v : Prop := {
    go_gain : (0 < gain m n J (res x) v)%R; go_pos : (0 < d)%R; go_old : old = None ∨ old = Some (Some d); go_in : (len n v <= d)%R;
    go_kind : normal_eq m n J (res x) v ∨ (old = Some (Some d) ∧ len n v = d);
    go_ortho : solves_shortest m n slv J → ortho m n J v
  }.
  Lemma upd_goes s x : point s x → (0 < dot n (grad x) (grad x))%R → ssd s = Some (sdv m n J (res x)) → sgn s = None → positive (sdelta s) →
    ∃ gn v d, upd s = Some (gn, Some v, Some d) ∧ goes x d (sdelta s) v.
  Proof.
    intros [E1 E2 E3 E4 E5 E6] Hg Hsd Hgn Hd. destruct (HS (res x)) as (y & Ey & Hy).
    assert (Es : solve E (sA s) (sg s) = Some (Some y)). { rewrite E5, E6. cbn -[gram]. by rewrite Ey. }
    assert (Oy : solves_shortest m n slv J → ortho m n J y).
    { intros H. destruct (H (res x)) as (y' & Ey' & Hy' & Hs). rewrite Ey in Ey'. injection Ey' as <-. by apply (ortho_shortest m n J (res x)). }
    pose proof (gain_gn m n J (res x) y Hg Hy) as Gy. pose proof (gain_moves m n J (res x) y Gy) as Ly.
    destruct Hd as [Ed|(d & Ed & Hd)]; rewrite Hsd, Hgn, Ed.
    - exists (Some (Some y)), y, (len n y). split; [unfold update_step; cbn [from_option]; by rewrite Es|]. constructor; try done; [by left|lra|by left].
    - destruct (step_exact m n slv (sdv m n J (res x)) y d (sA s) (sg s) Hd) as (v & gn' & Eu & Hdog & ->).
      assert (X : ∃ gn, update_step reals E (Some (sdv m n J (res x))) None (Some (Some d)) (sA s) (sg s) = Some (gn, Some v, Some d)).
      { unfold update_step in *. destruct (kle reals (Some d) (vnorm E (Some (sdv m n J (res x))))).
        - exists None. exact (f_equal (λ o : option (option (V E) * V E * K reals), match o with Some (_, a, c) => Some (None, a, c) | None => None end) Eu).
        - cbn [from_option] in *. rewrite Es. exists (Some (Some y)). exact Eu. }
      destruct X as [gn Eg]. exists gn, v, d. split; [done|]. constructor; try done.
      + by apply (gain_step m n J (res x) y d).
      + by right.
      + by apply (dogleg_in n (sdv m n J (res x)) y).
      + destruct Hdog as [t H1 H2 H3|H1 H2 ->|t H1 H2 H3 H4]; [by right|by left|by right].
      + intros HSh. specialize (Oy HSh). destruct Hdog as [t H1 H2 H3|H1 H2 ->|t H1 H2 H3 H4]; [|done|].
        * eapply ortho_ext; [exact H2|]. apply ortho_scal, ortho_sd.
        * eapply ortho_ext; [exact H3|]. apply ortho_add; [apply ortho_sd|]. apply ortho_scal, ortho_sub; [done|apply ortho_sd].
  Qed.
  (** the ratio is 1 *)
  Lemma ratio_one s x v r' gn d : point s x → (0 < gain m n J (res x) v)%R → r' = res (λ i, x i + v i)%R →
    ∀ l, trial reals E (set_log reals E (set_step reals E s gn (Some v) d) l) (Some r') = Some 1%R.
  Proof.
    intros [E1 E2 E3 E4 E5 E6] Hg -> l. unfold trial. cbn [s_r set_log set_step]. rewrite E3.
    assert (X : ksub reals (ksq reals (wnorm E (Some (res x)))) (ksq reals (wnorm E (Some (res (λ i, x i + v i)%R)))) = Some (gain m n J (res x) v)).
    { cbn. f_equal. unfold gain. rewrite !len_sq, linear_linear. done. }
    rewrite X. rewrite (predicted_gain m n slv J (res x) v); [|done|by rewrite (jt_neg_descent m n slv)|done].
    change (k0 reals) with (Some 0%R). rewrite (proj2 (xlt_true 0 _) Hg). cbn -[gain]. destruct (Req_EM_T _ 0); [lra|]. f_equal. field. lra.
  Qed.
  Lemma radius_one (d : R) v : (len n v <= d)%R → new_radius reals E (Some 1%R) (Some d) (Some v) = Some (Rmax d (25 / 10 * len n v)).
  Proof.
    intros Hv. unfold new_radius. cbv zeta. change (k09 reals) with (Some (9 / 10)%R). rewrite (proj2 (xlt_true _ _)) by lra.
    change (kmul reals (k25 reals) (vnorm E (Some v))) with (Some (25 / 10 * len n v)%R). destruct (klt reals (Some d) _) eqn:Ek.
    - apply xlt_true in Ek. rewrite Rmax_right; [done|lra].
    - apply xlt_false in Ek. by rewrite Rmax_left.
  Qed.
  Definition limited s : Prop := over (maxiter reals E P) (sit s) = true ∨ over (max_fevals reals E P) (sfe s) = true.
  Definition small_at x : Prop := (maxabs n (grad x) < t1)%R.
  (** one pass through the outer loop *)
  Lemma round s x : point s x → (0 < dot n (grad x) (grad x))%R → positive (sdelta s) → sdone s = false →
    ∃ s' v d, step reals E P (step reals E P (AtOuter reals E s)) = AtOuter reals E s' ∧ goes x d (sdelta s) v ∧ sdl s' = Some v ∧
      ((sdone s' = true ∧ point s' x ∧ (len n v <= t2 * len n x)%R ∧ slog s' = slog s ++ [EStep reals E (Some v) (Some d)]) ∨
       let y := λ i, (x i + v i)%R in
       point s' y ∧ slog s' = slog s ++ [EStep reals E (Some v) (Some d); EEval reals E (Some y) (Some (res y)); ETrial reals E (Some 1%R) true; ECall reals E (Some y)] ∧
       sdelta s' = Some (Some (Rmax d (25 / 10 * len n v))) ∧
       (sdone s' = true → small_at y ∨ (Rmax d (25 / 10 * len n v) <= t2 * len n y)%R ∨ limited s') ∧
       (sdone s' = false → ¬ small_at y)).
  Proof.
    intros Hp Hg Hd Hn. destruct Hp as [E1 E2 E3 E4 E5 E6]. cbn [step]. rewrite Hn. set (s0 := start_iteration reals E s).
    assert (Hp0 : point s0 x) by (by constructor). assert (Hsd : ssd s0 = Some (sdv m n J (res x))).
    { cbn. unfold s0, start_iteration. cbn [s_sd]. rewrite E4, E6. by apply (cauchy_exact m n slv). }
    destruct (upd_goes s0 x Hp0 Hg Hsd eq_refl Hd) as (gn & v & d & Eu & Hgo). change (sdelta s0) with (sdelta s) in Hgo.
    cbn [step]. unfold inner. rewrite Eu. cbv zeta.
    match goal with |- context [set_log reals E (set_step reals E s0 gn ?a ?c) ?e] => set (s1 := set_log reals E (set_step reals E s0 gn a c) e) end.
    assert (P1 : sp s1 = Some x) by exact E1. rewrite He2.
    match goal with |- context [if kle reals ?a ?c then inl (stop reals E s1, true) else _] => assert (Ek : kle reals a c = if Rle_dec (len n v) (t2 * len n x) then true else false) by (by rewrite P1) end.
    rewrite Ek. clear Ek. destruct (Rle_dec (len n v) (t2 * len n x)) as [Hle|Hgt].
    { eexists _, v, d. split; [reflexivity|]. split; [done|]. unfold after_inner.
      assert (Hsame : ∀ s2, s2 = stop reals E s1 ∨ s2 = stop reals E (stop reals E s1) → sdl s2 = Some v ∧ sdone s2 = true ∧ point s2 x ∧ slog s2 = slog s ++ [EStep reals E (Some v) (Some d)]).
      { intros s2 [->| ->]; (split_and!; [done..| |done]); by constructor. }
      assert (Hc : (if over (maxiter reals E P) (sit (stop reals E s1)) then stop reals E (stop reals E s1) else if over (max_fevals reals E P) (sfe (stop reals E s1)) then stop reals E (stop reals E s1) else stop reals E s1) = stop reals E s1 ∨
        (if over (maxiter reals E P) (sit (stop reals E s1)) then stop reals E (stop reals E s1) else if over (max_fevals reals E P) (sfe (stop reals E s1)) then stop reals E (stop reals E s1) else stop reals E s1) = stop reals E (stop reals E s1)).
      { destruct (over _ _); [by right|]. destruct (over _ _); [by right|by left]. }
      destruct (Hsame _ Hc) as (H1 & H2 & H3 & H4). split; [done|]. left. by split_and!. }
    set (y := λ i, (x i + v i)%R). match goal with |- context [vadd E (sp s1) ?a] => assert (Ey : vadd E (sp s1) a = Some y) by (by rewrite P1) end. rewrite Ey.
    match goal with |- context [resid reals E P ?k ?a] => assert (Er : resid reals E P k a = Some (Some (res y))) by apply (proj1 HP) end. rewrite Er.
    match goal with |- context [trial reals E s1 ?a] => assert (Et : trial reals E s1 a = Some 1%R) by (apply (ratio_one s0 x v (res y) gn (Some (Some d)) Hp0 (go_gain _ _ _ _ Hgo) eq_refl)) end. rewrite Et.
    change (klt reals (k0 reals) (Some 1%R)) with (if Rlt_dec 0 1 then true else false). destruct (Rlt_dec 0 1) as [_|]; [|lra]. cbv iota.
    rewrite (radius_one d v (go_in _ _ _ _ Hgo)).
    set (s2 := set_log reals E (set_log reals E (count reals E (set_fv reals E s1 (Some y))) (EEval reals E (Some y) (Some (res y)))) (ETrial reals E (Some 1%R) true)).
    unfold accept. cbv zeta. change (k0 reals) with (Some 0%R). rewrite He3. cbn [andb]. set (s3 := set_log reals E (set_p reals E s2 (Some y)) (ECall reals E (fv s2))).
    match goal with |- context [jac reals E P ?k ?a] => assert (Ej : jac reals E P k a = Some J) by apply (proj2 HP) end. rewrite Ej.
    match goal with |- context [small_gradient reals E P ?a] => set (s4 := a) end. set (d' := Rmax d (25 / 10 * len n v)).
    assert (P4 : point s4 y). { constructor; try done. cbn [s_g s4 set_r]. unfold s4, set_r. cbn [s_g]. by rewrite (jt_neg_descent m n slv). }
    set (s5 := small_gradient reals E P s4). assert (P5 : point s5 y) by (unfold s5, small_gradient; destruct (klt reals (vinf E (sg s4)) (e1 reals E P)); [by apply stop_point|done]).
    assert (D5 : sdone s5 = if Rlt_dec (maxabs n (grad y)) t1 then true else false).
    { unfold s5, small_gradient. rewrite (pt_g _ _ P4), He1. change (klt reals (vinf E (Some (grad y))) (Some t1)) with (if Rlt_dec (maxabs n (grad y)) t1 then true else false). by destruct (Rlt_dec _ _). }
    assert (O5 : slog s5 = slog s4 ∧ sdl s5 = Some v ∧ sit s5 = sit s4 ∧ sfe s5 = sfe s4) by (unfold s5, small_gradient; by destruct (klt reals (vinf E (sg s4)) (e1 reals E P))).
    match goal with |- context [set_delta reals E s5 ?a] => set (s6 := set_delta reals E s5 a) end. assert (X6 : sp s6 = Some y) by exact (pt_p _ _ P5).
    match goal with |- context [kle reals ?a ?c] => assert (Ek : kle reals a c = if Rle_dec d' (t2 * len n y) then true else false) by (by rewrite X6) end. rewrite Ek. clear Ek.
    match goal with |- context [if ?a then stop reals E s6 else s6] => set (s7 := if a then stop reals E s6 else s6) end.
    assert (P6 : point s6 y) by (destruct P5; by constructor). assert (P7 : point s7 y) by (unfold s7; destruct (Rle_dec _ _); [by apply stop_point|done]).
    assert (O7 : slog s7 = slog s4 ∧ sdl s7 = Some v ∧ sit s7 = sit s4 ∧ sfe s7 = sfe s4 ∧ sdelta s7 = Some (Some d')) by (unfold s7; destruct (Rle_dec _ _); by destruct O5 as (? & ? & ? & ?)).
    assert (D7 : (sdone s7 = true → small_at y ∨ (d' <= t2 * len n y)%R) ∧ (sdone s7 = false → ¬ small_at y)).
    { unfold s7. destruct (Rle_dec d' _) as [Hr|Hr]; cbn [s_done stop]; [split; [by right|done]|]. change (sdone s6) with (sdone s5). rewrite D5. unfold small_at. destruct (Rlt_dec _ _); split; try done. by left. }
    rewrite orb_true_r. cbn [orb]. exists (after_inner reals E P s7), v, d. split; [done|]. split; [done|].
    destruct O7 as (O1 & O2 & O3 & O4 & O6). unfold after_inner.
    assert (L7 : slog s7 = slog s ++ [EStep reals E (Some v) (Some d); EEval reals E (Some y) (Some (res y)); ETrial reals E (Some 1%R) true; ECall reals E (Some y)]).
    { rewrite O1. cbn [s4 set_r s_log]. unfold s4, set_r, s3, s2, s1, s0, set_log, start_iteration. cbn. by rewrite <- !(app_assoc (slog s)). }
    destruct (over (maxiter reals E P) (sit s7)) eqn:X1; [|destruct (over (max_fevals reals E P) (sfe s7)) eqn:X2].
    - split; [done|]. right. cbv zeta. split_and!; [by apply stop_point|done..| |done]. intros _. right. right. left. done.
    - split; [done|]. right. cbv zeta. split_and!; [by apply stop_point|done..| |done]. intros _. right. right. right. done.
    - split; [done|]. right. cbv zeta. split_and!; [done..| |apply D7]. intros H. destruct (proj1 D7 H); [by left|right; by left].
  Qed.
  Lemma not_small x : ¬ small_at x → (0 < dot n (grad x) (grad x))%R.
  Proof. intros H. apply (gradient_ne m n slv t1); [done|]. change (vinf E (Some (grad x))) with (Some (maxabs n (grad x))). apply xlt_false. unfold small_at in H. lra. Qed.
  Lemma stationary_small x : (∀ j, j < n → grad x j = 0%R) → small_at x.
  Proof.
    intros H. destruct (Rlt_dec (maxabs n (grad x)) t1) as [|Hn]; [done|]. exfalso. pose proof (not_small x Hn) as Q. rewrite dot_zeros in Q by done. lra.
  Qed.
  (** trials in the log *)
  Definition all_one (l : list ev) : Prop := ∀ rho ok, ETrial reals E rho ok ∈ l → rho = Some 1%R ∧ ok = true.
  Lemma all_one_app l l' : all_one l → all_one l' → all_one (l ++ l').
  Proof. intros H1 H2 rho ok [H|H]%elem_of_app; eauto. Qed.
  Lemma start_outer x : ∃ s, start reals E P (Some x) = AtOuter reals E s ∧ point s x ∧ sdelta s = delta0 reals E P ∧ all_one (slog s) ∧ length (evals (slog s)) = 1 ∧
    (sdone s = true → small_at x) ∧ (sdone s = false → ¬ small_at x).
  Proof.
    unfold start. match goal with |- context [jac reals E P ?k ?a] => assert (Ej : jac reals E P k a = Some J) by apply (proj2 HP) end. rewrite Ej.
    match goal with |- context [resid reals E P ?k ?a] => assert (Er : resid reals E P k a = Some (Some (res x))) by apply (proj1 HP) end. rewrite Er.
    match goal with |- context [small_gradient reals E P ?a] => set (s4 := a) end. exists (small_gradient reals E P s4). split; [done|].
    assert (P4 : point s4 x). { constructor; try done. unfold s4. cbn [s_g]. by rewrite (jt_neg_descent m n slv). }
    assert (L4 : all_one (slog s4)). { intros rho ok H. unfold s4 in H. cbn in H. repeat (apply elem_of_cons in H as [H|H]; [done|]). by apply elem_of_nil in H. }
    unfold small_gradient. rewrite (pt_g _ _ P4), He1. change (klt reals (vinf E (Some (grad x))) (Some t1)) with (if Rlt_dec (maxabs n (grad x)) t1 then true else false).
    destruct (Rlt_dec _ _); split_and!; try done. by apply stop_point.
  Qed.
  Lemma returns s : sdone s = true → step reals E P (AtOuter reals E s) = Returned reals E s.
  Proof. intros H. cbn [step]. by rewrite H. Qed.

  (** without a radius *)
  Theorem one_step x : delta0 reals E P = None → ∃ k s y, run reals E P (Some x) k = Returned reals E s ∧ fv s = Some y ∧ all_one (slog s) ∧
    ((y = x ∧ (small_at x ∨ ∃ v, normal_eq m n J (res x) v ∧ (len n v <= t2 * len n x)%R)) ∨ (least_squares m n J b y ∧ length (evals (slog s)) = 2)).
  Proof.
    intros Hd. destruct (start_outer x) as (s & Es & Hp & Ed & Ha & Hl & H1 & H2). destruct (sdone s) eqn:Dn.
    { exists 1, s, x. unfold run. cbn [Nat.iter nat_rect]. rewrite Es. split_and!; [by apply returns|apply Hp|done|]. left. split; [done|]. left. by apply H1. }
    destruct (round s x Hp (not_small x (H2 eq_refl))) as (s' & v & d & Er & Hgo & Hdl & Hc); [left; by rewrite Ed|done|].
    assert (Hv : normal_eq m n J (res x) v). { destruct (go_kind _ _ _ _ Hgo) as [|[H _]]; [done|]. rewrite Ed, Hd in H. done. }
    destruct Hc as [(D' & P' & Hle & L')|(P' & L' & _ & _ & D')].
    - exists 3, s', x. unfold run. cbn [Nat.iter nat_rect]. rewrite Es, Er. split_and!; [by apply returns|apply P'| |].
      + rewrite L'. apply all_one_app; [done|]. intros rho ok H. apply elem_of_list_singleton in H. done.
      + left. split; [done|]. right. by exists v.
    - set (y := λ i, (x i + v i)%R) in *. pose proof (newton_stationary m n J b x v Hv) as St. assert (D'' : sdone s' = true).
      { destruct (sdone s') eqn:D0; [done|]. exfalso. apply (D' eq_refl). by apply stationary_small. }
      exists 3, s', y. unfold run. cbn [Nat.iter nat_rect]. rewrite Es, Er. split_and!; [by apply returns|apply P'| |].
      + rewrite L'. apply all_one_app; [done|]. intros rho ok H. repeat (apply elem_of_cons in H as [H|H]; [first [done|by injection H as -> ->]|]). by apply elem_of_nil in H.
      + right. split; [by apply stationary|]. rewrite L'. unfold evals. rewrite omap_app, app_length. fold (evals (slog s)). rewrite Hl. done.
  Qed.

  (** with a radius *)
  Definition stopped s y : Prop := small_at y ∨ (∃ v, sdl s = Some v ∧ (0 < len n v <= t2 * len n y)%R) ∨ limited s.
  Lemma change_bound x v : (0 < gain m n J (res x) v)%R → (dot m (λ i, dot n (J i) v) (λ i, dot n (J i) v) <= 4 * squares m n J b x)%R ∧ (squares m n J b (λ i, x i + v i) <= squares m n J b x)%R.
  Proof.
    intros Hg. unfold gain in Hg. rewrite linear_linear in Hg. set (y := λ i, (x i + v i)%R) in *. fold (squares m n J b x) (squares m n J b y) in Hg. split; [|lra].
    assert (Q : dot m (λ i, dot n (J i) v) (λ i, dot n (J i) v) = dot m (λ i, res y i - res x i)%R (λ i, res y i - res x i)%R).
    { apply dot_ext; intros i _; unfold linear, y; rewrite dot_add_r; ring. }
    rewrite Q. pose proof (dot_nonneg m (λ i, res y i + res x i)%R) as N. rewrite dot_sub_l, !dot_sub_r. rewrite dot_add_l, !dot_add_r in N. unfold squares in *. lra.
  Qed.
  Lemma rounds C Q : (0 <= C)%R → (∀ v, ortho m n J v → (dot n v v <= C * dot m (λ i, dot n (J i) v) (λ i, dot n (J i) v))%R) → solves_shortest m n slv J →
    ∀ k s x d, point s x → sdelta s = Some (Some d) → (0 < d)%R → all_one (slog s) → (sdone s = false → ¬ small_at x) → sdone s = false → (squares m n J b x <= Q)%R →
      (4 * C * Q < d * (25 / 10) ^ k * (d * (25 / 10) ^ k))%R →
      ∃ j s' y, Nat.iter j (step reals E P) (AtOuter reals E s) = Returned reals E s' ∧ fv s' = Some y ∧ all_one (slog s') ∧ stopped s' y.
  Proof.
    intros HC Hco HSh k. induction k as [|k IH]; intros s x d Hp Ed Hd Ha H2 Dn Hq Hb;
      (destruct (round s x Hp (not_small x (H2 Dn))) as (s' & v & d' & Er & Hgo & Hdl & Hc); [right; by exists d|done|]);
      (assert (d' = d) as -> by (destruct (go_old _ _ _ _ Hgo) as [H|H]; rewrite Ed in H; [done|by injection H as ->]));
      destruct (change_bound x v (go_gain _ _ _ _ Hgo)) as [B1 B2];
      assert (B3 : (dot n v v <= 4 * C * Q)%R) by (pose proof (Hco v (go_ortho _ _ _ _ Hgo HSh)) as G; apply (Rle_trans _ _ _ G); apply (Rle_trans _ (C * (4 * Q))); [apply Rmult_le_compat_l; lra|lra]);
      pose proof (go_in _ _ _ _ Hgo) as Hin; pose proof (gain_moves m n J (res x) v (go_gain _ _ _ _ Hgo)) as Lv.
    1,2: assert (Fin : sdone s' = true → ∃ j s' y, Nat.iter j (step reals E P) (AtOuter reals E s) = Returned reals E s' ∧ fv s' = Some y ∧ all_one (slog s') ∧ stopped s' y);
      [intros D'; exists 3, s'; destruct Hc as [(_ & P' & Hle & L')|(P' & L' & _ & D1 & _)];
        [exists x; cbn [Nat.iter nat_rect]; rewrite Er; split_and!; [by apply returns|apply P'|rewrite L'; apply all_one_app; [done|]; intros rho ok H; by apply elem_of_list_singleton in H|right; left; by exists v]
        |exists (λ i, (x i + v i)%R); cbn [Nat.iter nat_rect]; rewrite Er; split_and!; [by apply returns|apply P'|rewrite L'; apply all_one_app; [done|]; intros rho ok H; repeat (apply elem_of_cons in H as [H|H]; [first [done|by injection H as -> ->]|]); by apply elem_of_nil in H|
          destruct (D1 D') as [H|[H|H]]; [by left|right; left; exists v; split; [done|pose proof (Rmax_l d (25 / 10 * len n v)); lra]|right; by right]]]|].
    - apply Fin. destruct Hc as [(D' & _)|(_ & _ & _ & _ & D2)]; [done|]. destruct (sdone s') eqn:D'; [done|]. exfalso. apply (D2 eq_refl). apply stationary_small.
      destruct (go_kind _ _ _ _ Hgo) as [Hk|[_ Hk]]; [by apply newton_stationary|]. exfalso. rewrite <- len_sq, Hk in B3. cbn in Hb. lra.
    - destruct (sdone s') eqn:D'; [by apply Fin|]. destruct Hc as [(? & _)|(P' & L' & Ed' & _ & D2)]; [congruence|].
      destruct (go_kind _ _ _ _ Hgo) as [Hk|[_ Hk]]; [exfalso; apply (D2 eq_refl), stationary_small; by apply newton_stationary|].
      rewrite Hk, Rmax_right in Ed' by lra. destruct (IH s' (λ i, (x i + v i)%R) (25 / 10 * d)%R P' Ed') as (j & s'' & y & Ej & Hr); try done; [lra| |by intros _; apply D2|lra| |].
      + rewrite L'. apply all_one_app; [done|]. intros rho ok H. repeat (apply elem_of_cons in H as [H|H]; [first [done|by injection H as -> ->]|]). by apply elem_of_nil in H.
      + replace (25 / 10 * d * (25 / 10) ^ k)%R with (d * (25 / 10) ^ S k)%R by (cbn; field). done.
      + exists (j + 2), s'', y. split; [|done]. rewrite <- Ej, <- Er. apply (iter_add reals E P j 2).
  Qed.
  Theorem radius_ends x d : delta0 reals E P = Some (Some d) → (0 < d)%R → solves_shortest m n slv J →
    ∃ k s y, run reals E P (Some x) k = Returned reals E s ∧ fv s = Some y ∧ all_one (slog s) ∧ stopped s y.
  Proof.
    intros Hd0 Hd HSh. destruct (start_outer x) as (s & Es & Hp & Ed & Ha & Hl & H1 & H2). destruct (sdone s) eqn:Dn.
    { exists 1, s, x. unfold run. cbn [Nat.iter nat_rect]. rewrite Es. split_and!; [by apply returns|apply Hp|done|]. left. by apply H1. }
    destruct (coercive m n slv J HSh) as (C & HC & Hco). set (Q := squares m n J b x).
    destruct (Pow_x_infinity (25 / 10) ltac:(rewrite Rabs_pos_eq; lra) ((4 * C * Q + 1) / d + 1 / d)%R) as (N & HN). specialize (HN N (le_n N)).
    rewrite Rabs_pos_eq in HN by (apply pow_le; lra).
    assert (HQ : (0 <= Q)%R) by apply dot_nonneg. assert (Hcq : (0 <= 4 * C * Q)%R) by (apply Rmult_le_pos; lra).
    destruct (rounds C Q HC Hco HSh N s x d Hp) as (j & s' & y & Ej & Hr); try done; [by rewrite Ed|intros _; by apply H2|by right| |].
    - assert (G : (4 * C * Q + 1 + 1 <= d * (25 / 10) ^ N)%R). { apply Rge_le in HN. apply (Rmult_le_compat_l d) in HN; [|lra]. replace (d * ((4 * C * Q + 1) / d + 1 / d))%R with (4 * C * Q + 1 + 1)%R in HN by (field; lra). done. }
      nra.
    - exists j, s', y. unfold run. rewrite Es. done.
  Qed.
End lsq.
