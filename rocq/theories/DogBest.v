(** With exact arithmetic and a solver that solves the normal equations, the optimizer
    keeps the best point. *)
From Coq Require Import Reals Lra Lia FunctionalExtensionality.
From stdpp Require Import prelude.
From Verif Require Import ArrModel ArrThms DogModel DogSpec DogThms DogExact DogGeo DogGeoThms DogLive.

Section best.
  Context (m n : nat) (slv : mat → vec → option vec).
  Notation E := (exact m n slv).
  Context (P : problem reals E).
  Notation st := (st reals E).
  Notation sp := (s_p reals E). Notation fv := (s_fv reals E). Notation sr := (s_r reals E). Notation slog := (s_log reals E).
  Notation sdone := (s_done reals E). Notation sfe := (s_fevals reals E). Notation sdelta := (s_delta reals E).
  Notation sJ := (s_J reals E). Notation sA := (s_A reals E). Notation sg := (s_g reals E). Notation ssd := (s_sd reals E). Notation sgn := (s_gn reals E).
  Notation upd s := (update_step reals E (ssd s) (sgn s) (sdelta s) (sA s) (sg s)).
  Implicit Types (s : st) (l : list (event reals E)).
  Context (Hslv : ∀ J r y, slv (gram E J) (descent m J r) = Some y → normal_eq m n J r y).
  Context (Hres : ∀ k (x : vec), resid reals E P k (Some x) ≠ Some None).
  Context (eps : R) (Heps : (0 < eps)%R) (He1 : e1 reals E P = Some eps).
  Definition positive (d : option (option R)) : Prop := d = None ∨ ∃ x, d = Some (Some x) ∧ (0 < x)%R.
  Context (Hd0 : positive (delta0 reals E P)).

  Record live s (x r : vec) : Prop := {
    lv_p : sp s = Some x; lv_r : sr s = Some r; lv_A : sA s = gram E (sJ s); lv_g : sg s = Some (descent m (sJ s) r);
    lv_ne : (0 < dot n (descent m (sJ s) r) (descent m (sJ s) r))%R; lv_d : positive (sdelta s)
  }.
  Record live_in s (x r : vec) : Prop := {
    li : live s x r; li_sd : ssd s = Some (sdv m n (sJ s) r);
    li_gn : sgn s = None ∨ ∃ y, sgn s = Some (Some y) ∧ normal_eq m n (sJ s) r y
  }.
  Lemma jt_neg_descent J r : jt_neg E J (Some r) = Some (descent m J r).
  Proof. cbn. f_equal. apply functional_extensionality. intros j. apply descent_code. Qed.
  Lemma gradient_ne (g : vec) : klt reals (vinf E (Some g)) (Some eps) = false → (0 < dot n g g)%R.
  Proof.
    intros H. change (vinf E (Some g)) with (Some (maxabs n g)) in H. apply xlt_false in H. destruct (dot_nonneg n g) as [Hg|Hg]; [done|]. exfalso.
    assert (Z : maxabs n g = 0%R); [|lra]. unfold maxabs. assert (Zi : ∀ i, i ∈ seq 0 n → g i = 0%R) by (intros i Hi%elem_of_seq; apply (dot_zero n); [done|lia]).
    revert Zi. generalize (seq 0 n). intros l. induction l as [|i l IH]; intros Zi; [done|]. cbn [fmap list_fmap foldr]. rewrite (Zi i) by (by left).
    rewrite Rabs_R0. change (foldr Rmax 0%R (list_fmap _ _ _ l)) with (foldr Rmax 0%R ((λ i, Rabs (g i)) <$> l)). rewrite IH; [apply Rmax_left; lra|]. intros j Hj. apply Zi. by right.
  Qed.
  Lemma gain_moves J r v : (0 < gain m n J r v)%R → (0 < len n v)%R.
  Proof.
    intros H. destruct (len_nonneg n v) as [?|Hz]; [done|]. exfalso. assert (Z : dot n v v = 0%R) by (rewrite <- len_sq, <- Hz; ring).
    assert (Zr : ∀ u, dot n u v = 0%R) by (intros u; rewrite dot_comm; by apply dot_zero_l).
    rewrite gain_is, Zr in H. assert (dot m (λ i, dot n (J i) v) (λ i, dot n (J i) v) = 0%R); [|lra]. apply rsum_zero. intros i _. rewrite Zr. ring.
  Qed.
  Lemma upd_live s x r gn dl d : live_in s x r → upd s = Some (gn, dl, d) →
    ∃ v d', dl = Some v ∧ d = Some d' ∧ (0 < d')%R ∧ (0 < gain m n (sJ s) r v)%R ∧ (gn = None ∨ ∃ y, gn = Some (Some y) ∧ normal_eq m n (sJ s) r y).
  Proof.
    intros [[L1 L2 L3 L4 L5 L6] I1 I2]. set (J := sJ s) in *. set (g := descent m J r) in *.
    assert (Hgn : ∀ z, from_option Some (solve E (sA s) (sg s)) (sgn s) = Some z → ∃ y, z = Some y ∧ normal_eq m n J r y).
    { intros z. destruct I2 as [->|(y & -> & Hy)]; [|intros [= <-]; by exists y]. cbn [from_option]. rewrite L3, L4. unfold solve. cbn [exact]. destruct (slv _ _) as [y|] eqn:Es; [|done].
      intros [= <-]. exists y. split; [done|]. by apply Hslv. }
    destruct L6 as [Ed|(d0 & Ed & Hd)]; rewrite Ed.
    - unfold update_step. destruct (from_option _ _ _) as [z|] eqn:Ez; [|done]. destruct (Hgn z eq_refl) as (y & -> & Hy). cbn. intros [= <- <- <-].
      pose proof (gain_gn m n J r y L5 Hy) as Hg. exists y, (len n y). split_and!; try done; [by apply (gain_moves J r)|]. right. by exists y.
    - intros Hu. assert (X : ∃ y, normal_eq m n J r y ∧ from_option Some (solve E (sA s) (sg s)) (sgn s) = Some (Some y) ∨
        (∃ v t, gn = sgn s ∧ dl = Some v ∧ d = Some d0 ∧ (0 < t <= 1)%R ∧ (∀ i, v i = t * sdv m n J r i)%R)).
      { unfold update_step in Hu. destruct (kle reals (Some d0) (vnorm E (ssd s))) eqn:E1.
        - exists (λ _, 0%R). right. rewrite I1 in E1, Hu. apply xle_true in E1. set (sd := sdv m n J r) in *. exists (λ i, d0 / len n sd * sd i)%R, (d0 / len n sd)%R.
          change (vnorm E (Some sd)) with (Some (len n sd)) in Hu. assert (Ek : kdiv reals (Some d0) (Some (len n sd)) = Some (d0 / len n sd)%R). { cbn. destruct (Req_EM_T _ _); [lra|done]. }
          rewrite Ek in Hu. cbn in Hu. injection Hu as <- <- <-. split_and!; try done; [apply Rdiv_lt_0_compat; lra|]. apply (Rmult_le_reg_r (len n sd)); [lra|]. unfold Rdiv. rewrite Rmult_assoc, Rinv_l; lra.
        - destruct (from_option _ _ _) as [z|] eqn:Ez; [|done]. destruct (Hgn z eq_refl) as (y & -> & Hy). exists y. by left. }
      destruct X as (y & [(Hy & Ez)|(v & t & -> & -> & -> & Ht & Hv)]).
      + assert (Hu' : update_step reals E (ssd s) (Some (Some y)) (Some (Some d0)) (sA s) (sg s) = Some (gn, dl, d) ∨ gn = sgn s ∧ update_step reals E (ssd s) (Some (Some y)) (Some (Some d0)) (sA s) (sg s) = Some (Some (Some y), dl, d)).
        { unfold update_step in *. destruct (kle reals (Some d0) (vnorm E (ssd s))) eqn:E1; [right; by injection Hu as <- <- <-|]. rewrite Ez in Hu. by left. }
        destruct (step_exact m n slv (sdv m n J r) y d0 (sA s) (sg s) Hd) as (v & gn' & Es & Hdog & ->). rewrite <- I1 in Es.
        exists v, d0. destruct Hu' as [Hu'|[-> Hu']]; rewrite Es in Hu'.
        * injection Hu' as <- <- <-. split_and!; try done; [by apply (gain_step m n J r y d0)|]. right. by exists y.
        * injection Hu' as <- <-. split_and!; try done. by apply (gain_step m n J r y d0).
      + exists v, d0. split_and!; try done. rewrite (gain_ext m n J r v (λ j, t * sdv m n J r j)%R) by (intros; apply Hv). by apply gain_sd.
  Qed.
  Lemma radius_positive rho (d : R) dl : (0 < d)%R → positive (Some (new_radius reals E rho (Some d) dl)).
  Proof.
    intros Hd. right. unfold new_radius. cbv zeta. destruct (klt reals (k09 reals) rho).
    - destruct (klt reals (Some d) (kmul reals (k25 reals) (vnorm E dl))) eqn:E1; [|by exists d]. destruct (kmul reals (k25 reals) (vnorm E dl)) as [b|]; [|done]. apply xlt_true in E1. exists b. split; [done|lra].
    - destruct (klt reals rho _); [|by exists d]. exists (d * (25 / 100))%R. split; [done|lra].
  Qed.
  (** the predicted improvement is positive, so the sign of the ratio is that of the improvement *)
  Lemma ratio_sign s x r v r' : live_in s x r → (0 < gain m n (sJ s) r v)%R →
    klt reals (k0 reals) (ratio_of reals E s (Some v) (Some r')) = klt reals (Some (len m r' * len m r')%R) (Some (len m r * len m r)%R).
  Proof.
    intros [[L1 L2 L3 L4 L5 L6] I1 I2] Hg. unfold ratio_of. rewrite L2.
    pose proof (predicted_gain m n slv (sJ s) r v (set_step reals E s (sgn s) (Some v) (sdelta s)) L3) as Hp. cbn [s_g set_step] in Hp. rewrite jt_neg_descent in Hp. specialize (Hp L4 eq_refl).
    unfold predicted in Hp. cbn [s_g s_A s_dl set_step] in Hp. rewrite Hp. set (a := (len m r * len m r)%R). set (b := (len m r' * len m r')%R). change (ksub reals _ _) with (Some (a - b)%R). cbv zeta.
    destruct (klt reals (k0 reals) (Some (a - b)%R)) eqn:E1.
    - assert (Hab : (0 < a - b)%R) by (by apply xlt_true). transitivity true; [|symmetry; apply xlt_true; lra]. cbn -[Rlt_dec Req_EM_T]. destruct (Req_EM_T _ 0); [lra|]. apply xlt_true. by apply Rdiv_lt_0_compat.
    - rewrite E1. symmetry. apply xlt_false. apply xlt_false in E1. lra.
  Qed.

  (** callbacks happen at the best point so far *)
  Definition called_best l : Prop := ∀ i y, l !! i = Some (ECall reals E y) → i = 0 ∨ best (take i l) y.
  Definition real_evals l : Prop := ∀ q, q ∈ evals l → ∃ a, q.2 = Some a.
  Lemma called_more l l' : called_best l → calls l' = [] → called_best (l ++ l').
  Proof.
    intros H1 H2 i y Hi. apply lookup_app_Some in Hi as [Hi|[Hle Hi]].
    - rewrite take_app_le; [by apply H1|]. apply lookup_lt_Some in Hi. lia.
    - exfalso. assert (Hin : y ∈ calls l'). { apply elem_of_list_omap. exists (ECall reals E y). split; [|done]. by eapply elem_of_list_lookup_2. } rewrite H2 in Hin. by apply elem_of_nil in Hin.
  Qed.
  Lemma called_snoc l y : called_best l → best l y → called_best (l ++ [ECall reals E y]).
  Proof.
    intros H1 H2 i z Hi. apply lookup_app_Some in Hi as [Hi|[Hle Hi]].
    - rewrite take_app_le; [by apply H1|]. apply lookup_lt_Some in Hi. lia.
    - destruct (i - length l) as [|j] eqn:Ej; [|done]. simpl in Hi. injection Hi as <-. right. rewrite take_app_alt; [done|lia].
  Qed.
  Lemma sse_real (a : vec) : sse (L := E) (Some a) = Some (len m a * len m a)%R.
  Proof. done. Qed.
  (** the state's residual is the least seen *)
  Definition least l (x : option vec) (r : vec) : Prop := (x, Some r) ∈ evals l ∧ ∀ q a, q ∈ evals l → q.2 = Some a → (len m r * len m r <= len m a * len m a)%R.
  Lemma least_best l x r : real_evals l → least l x r → best l x.
  Proof.
    intros HR [H1 H2]. exists (Some r). split; [done|]. intros q Hq. destruct (HR q Hq) as [a Ha]. destruct q as [z q2]. cbn in Ha. subst q2. cbn [snd]. rewrite (sse_real a), (sse_real r). apply xlt_false. by apply (H2 (z, Some a) a).
  Qed.
  Definition bst (c : conf reals E) : Prop :=
    called_best (events c) ∧ real_evals (events c) ∧
    match c with
    | AtOuter _ _ s => ∃ x r, least (slog s) (sp s) r ∧ (sdone s = false → live s x r)
    | AtInner _ _ s => ∃ x r, least (slog s) (sp s) r ∧ live_in s x r
    | Returned _ _ s => ∃ r, least (slog s) (sp s) r
    | Raised _ _ _ => True
    end.
  Lemma evals_none l l' : evals l' = [] → evals (L := E) (l ++ l') = evals l.
  Proof. intros H. rewrite evals_app, H. apply app_nil_r. Qed.
  Lemma real_more l (x : option vec) (a : vec) (rest : list (event reals E)) : real_evals l → evals (L := E) rest = [(x, Some a)] → real_evals (l ++ rest).
  Proof. intros H1 H2 q. rewrite evals_app, H2. intros [H|H]%elem_of_app; [by apply H1|]. apply elem_of_list_singleton in H. subst q. by exists a. Qed.
  Lemma least_keep l x r (y : option vec) (a : vec) (rest : list (event reals E)) : least l x r → evals (L := E) rest = [(y, Some a)] → (len m r * len m r <= len m a * len m a)%R → least (l ++ rest) x r.
  Proof.
    intros [H1 H2] H3 H4. unfold least. rewrite evals_app, H3. split; [apply elem_of_app; by left|]. intros q b [Hq|Hq]%elem_of_app Hb; [by apply (H2 q)|].
    apply elem_of_list_singleton in Hq. subst q. simpl in Hb. by injection Hb as <-.
  Qed.
  Lemma least_new l x r (y : option vec) (a : vec) (rest : list (event reals E)) : least l x r → evals (L := E) rest = [(y, Some a)] → (len m a * len m a < len m r * len m r)%R → least (l ++ rest) y a.
  Proof.
    intros [H1 H2] H3 H4. unfold least. rewrite evals_app, H3. split; [apply elem_of_app; right; by left|]. intros q b [Hq|Hq]%elem_of_app Hb; [specialize (H2 q b Hq Hb); lra|].
    apply elem_of_list_singleton in Hq. subst q. simpl in Hb. injection Hb as <-. lra.
  Qed.
  Lemma step_bst c : bst c → bst (step reals E P c).
  Proof.
    destruct c as [s|s|s|l]; intros (C & RE & B); [|..|by split_and!|by split_and!].
    - destruct B as (x & r & B1 & B2). unfold step. destruct (sdone s) eqn:Ed.
      + split_and!; try done. by exists r.
      + split_and!; try done. exists x, r. split; [done|]. destruct (B2 eq_refl) as [L1 L2 L3 L4 L5 L6]. split; [by split| |by left].
        unfold start_iteration. cbn [s_sd s_J]. rewrite L4. by apply cauchy_exact.
    - destruct B as (x & r & B1 & B2). cbn [events] in C, RE. unfold step.
      assert (AI : ∀ s' r', called_best (slog s') → real_evals (slog s') → least (slog s') (sp s') r' → (sdone s' = true ∨ ∃ x', live s' x' r') → bst (AtOuter reals E (after_inner reals E P s'))).
      { intros s' r' A1 A2 A3 A4. assert (A5 : ∃ x', sdone s' = false → live s' x' r').
        { destruct A4 as [A4|[x' A4]]; [exists (λ _, 0%R); congruence|by exists x']. }
        destruct A5 as [x' A5]. unfold after_inner. repeat case_match; (split_and!; [done..|]; exists x', r'; split; [done|]); done. }
      destruct (inner_pass2 reals E P s) as [_|gn dl d B3|s' gn dl d B3 D1 D2 D3 D4|s' b gn dl d r' B3 D1 D2 D3 D4 D5 D6 D7 D8 D9 D10 D11 D12 D13|gn dl d r' B3 D1 D2|s' gn dl d r' B3 D1 D2 D3 D4 D5 D6].
      + by split_and!.
      + split_and!; [by apply called_more| |done]. cbn [events]. unfold real_evals. by rewrite evals_none.
      + assert (El : evals (slog s') = evals (slog s)) by (rewrite D2; by apply evals_none).
        apply (AI s' r); [rewrite D2; by apply called_more|unfold real_evals; by rewrite El|unfold least; by rewrite El, D3|by left].
      + destruct (upd_live s x r gn dl d B2 B3) as (v & d' & -> & -> & Hd & Hg & Hy).
        pose proof (li _ _ _ B2) as B4. rewrite (lv_p _ _ _ B4) in D1, D11. cbn [vadd exact vec2 mbind option_bind] in D1.
        destruct r' as [a|]; [|by apply Hres in D1].
        rewrite (ratio_sign s x r v a B2 Hg) in D2. apply xlt_false in D2.
        assert (A1 : called_best (slog s')) by (rewrite D11; by apply called_more).
        assert (A2 : real_evals (slog s')) by (rewrite D11; by eapply real_more).
        assert (A3 : least (slog s') (sp s') r) by (rewrite D11, D3; by eapply least_keep).
        assert (A4 : live_in s' x r).
        { destruct B2 as [[L1 L2 L3 L4 L5 L6] I1 I2]. split; [split|..]; rewrite ?D3, ?D4, ?D5, ?D6, ?D7, ?D8, ?D9; try done. rewrite D10. by apply radius_positive. }
        destruct b.
        * apply (AI s' r); try done. right. exists x. apply A4.
        * split_and!; try done. by exists x, r.
      + destruct (upd_live s x r gn dl d B2 B3) as (v & d' & -> & -> & Hd & Hg & Hy).
        pose proof (li _ _ _ B2) as B4. pose proof D1 as D1'. rewrite (lv_p _ _ _ B4) in D1'. cbn [vadd exact vec2 mbind option_bind] in D1'.
        destruct r' as [a|]; [|by apply Hres in D1'].
        rewrite (ratio_sign s x r v a B2 Hg) in D2. apply xlt_true in D2.
        set (y := vadd E (sp s) (Some v)) in *. set (rho := ratio_of _ _ _ _ _). change (slog s ++ [EStep reals E (Some v) (Some d'); EEval reals E y (Some a); ETrial reals E rho true; ECall reals E y]) with (slog s ++ ([EStep reals E (Some v) (Some d'); EEval reals E y (Some a); ETrial reals E rho true] ++ [ECall reals E y])).
        rewrite app_assoc. set (k := slog s ++ _). assert (R1 : real_evals k) by (by eapply real_more). assert (A3 : least k y a) by (by eapply least_new).
        split_and!; [|cbn [events]; unfold real_evals; by rewrite evals_none|done]. cbn [events]. apply called_snoc; [by apply called_more|]. by apply (least_best k y a).
      + destruct (upd_live s x r gn dl d B2 B3) as (v & d' & -> & -> & Hd & Hg & Hy).
        pose proof (li _ _ _ B2) as B4. pose proof D1 as D1'. rewrite (lv_p _ _ _ B4) in D1'. cbn [vadd exact vec2 mbind option_bind] in D1'.
        destruct r' as [a|]; [|by apply Hres in D1'].
        rewrite (ratio_sign s x r v a B2 Hg) in D2. apply xlt_true in D2.
        set (y := vadd E (sp s) (Some v)) in *. set (rho := ratio_of _ _ _ _ _) in *. change (slog s ++ [EStep reals E (Some v) (Some d'); EEval reals E y (Some a); ETrial reals E rho true; ECall reals E y]) with (slog s ++ ([EStep reals E (Some v) (Some d'); EEval reals E y (Some a); ETrial reals E rho true] ++ [ECall reals E y])) in D5.
        rewrite app_assoc in D5. set (k := slog s ++ _) in *. assert (R1 : real_evals k) by (by eapply real_more). assert (A3 : least k y a) by (by eapply least_new).
        apply (AI s' a); rewrite ?D5, ?D3.
        * apply called_snoc; [by apply called_more|]. by apply (least_best k y a).
        * unfold real_evals. by rewrite evals_none.
        * unfold least. by rewrite evals_none.
        * destruct D6 as [D6|(G1 & G2 & G3 & G4)]; [by left|]. right. exists (λ i, x i + v i)%R. rewrite jt_neg_descent in G3. split; try done.
          -- rewrite D3. unfold y. rewrite (lv_p _ _ _ B4). done.
          -- rewrite He1, G3 in G4. by apply gradient_ne.
          -- rewrite D4. by apply radius_positive.
  Qed.
  Lemma start_bst (x : vec) : bst (start reals E P (Some x)).
  Proof.
    assert (C1 : ∀ e, called_best [ECall reals E (Some x); e] ∨ calls [e] ≠ []).
    { intros e. destruct (decide (calls [e] = [])) as [Hc|Hc]; [left|by right]. intros i y Hi. destruct i as [|[|i]]; [by left|simpl in Hi; injection Hi as ->; done|done]. }
    assert (C0 : called_best [ECall reals E (Some x)]). { intros [|i] y Hi; [by left|done]. }
    unfold start. destruct (jac _ _ _ _ _) as [J|]; [|split_and!; [done|by intros q ?%elem_of_nil|done]].
    destruct (resid reals E P 0 (Some x)) as [r0|] eqn:Er; [|split_and!; [done|by intros q ?%elem_of_nil|done]].
    destruct r0 as [r|]; [|by apply Hres in Er]. destruct (C1 (EEval reals E (Some x) (Some r))) as [C|]; [|done].
    assert (RE : real_evals [ECall reals E (Some x); EEval reals E (Some x) (Some r)]) by (intros q ->%elem_of_list_singleton; by exists r).
    assert (LE : least [ECall reals E (Some x); EEval reals E (Some x) (Some r)] (Some x) r).
    { split; [by left|]. intros q a ->%elem_of_list_singleton [= <-]. lra. }
    unfold small_gradient. destruct (klt reals (vinf E _) _) eqn:EG.
    - split_and!; [done..|]. exists x, r. split; [done|]. discriminate.
    - split_and!; [done..|]. exists x, r. split; [done|]. intros _. cbn [s_g] in EG. rewrite He1, jt_neg_descent in EG. split; try done; [cbn [s_g s_J]; apply jt_neg_descent|by apply gradient_ne].
  Qed.
  Theorem run_bst (x : vec) k : bst (run reals E P (Some x) k).
  Proof. induction k as [|k IH]; [apply start_bst|by apply (step_bst (run reals E P (Some x) k))]. Qed.
  Theorem run_best (x : vec) k : called_best (events (run reals E P (Some x) k)) ∧ ∀ y, variables (run reals E P (Some x) k) = Some y → best (events (run reals E P (Some x) k)) y.
  Proof.
    destruct (run_bst x k) as (C & RE & B). split; [done|]. intros y Hy. destruct (run_good reals E P (Some x) k ordered_reals) as [Ew|(r0 & path & _ & _ & G)]; [by rewrite Ew in Hy|].
    destruct (run reals E P (Some x) k) as [s|s|s|l]; try done; simpl in Hy; injection Hy as <-.
    - destruct G as (q & _ & G1 & G2 & _). destruct B as (? & r & B & _). rewrite G2, <- G1. by apply (least_best _ _ r).
    - destruct G as [(q & _ & G1 & G2 & _) _]. destruct B as (? & r & B & _). rewrite G2, <- G1. by apply (least_best _ _ r).
    - destruct G as (q & _ & G1 & G2 & _). destruct B as (r & B). rewrite G2, <- G1. by apply (least_best _ _ r).
  Qed.
End best.
