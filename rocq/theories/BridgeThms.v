From Coq Require Import ZArith Reals Lra Lia.
From Flocq Require Import Core IEEE754.BinarySingleNaN.
From Flocq Require Plus_error.
From stdpp Require Import prelude.
From Verif Require Import Dog64 DogModel BridgeModel BridgeSpec.

(** |x - y| is zero or positive, never NaN *)
Lemma absdiff_zero x y : numeq x y → absdiff x y = zero64.
Proof.
  intros (Fx & Fy & E). unfold absdiff, sub64. generalize (Bminus_correct 53 1024 _ _ mode_NE x y Fx Fy). rewrite E, Rminus_diag_eq by done. rewrite rnd_0, Rabs_R0.
  rewrite Rlt_bool_true by apply bpow_gt_0. intros (E0 & F & _). destruct (Bminus mode_NE x y) as [s|s| |s m e H]; try done. exfalso. simpl in E0. apply eq_0_F2R in E0. by destruct s.
Qed.
Lemma format64 (x : b64) : generic_format radix2 fexp64 (B2R x).
Proof. apply generic_format_B2R. Qed.
Lemma absdiff_pos x y : is_finite x = true → is_finite y = true → ¬ numeq x y → Bltb zero64 (absdiff x y) = true ∧ is_nan (absdiff x y) = false.
Proof.
  intros Fx Fy Hne. assert (E : B2R x ≠ B2R y) by (intros E; by apply Hne). unfold absdiff, sub64. generalize (Bminus_correct 53 1024 _ _ mode_NE x y Fx Fy). case Rlt_bool_spec; intros Hr.
  - intros (E0 & F & _). assert (N0 : rnd (B2R x - B2R y) ≠ 0%R).
    { assert (V : Valid_exp fexp64) by apply (fexp_correct 53 1024 H53).
      assert (X : Exp_not_FTZ fexp64) by exact (@monotone_exp_not_FTZ fexp64 V (FLT_exp_monotone (3 - 1024 - 53) 53)).
      apply (@Plus_error.round_plus_neq_0 radix2 fexp64 V X (round_mode mode_NE) (valid_rnd_round_mode mode_NE)); [apply format64|apply generic_format_opp, format64|]. lra. }
    split; [|rewrite is_nan_Babs; by destruct (Bminus mode_NE x y)]. apply lt_fin; [done|unfold fin64; by rewrite is_finite_Babs|]. rewrite B2R_Babs, E0. simpl B2R. by apply Rabs_pos_lt.
  - intros (E0 & _). apply overflow_sign in E0. rewrite E0. done.
Qed.
Lemma numeq_dec x y : is_finite x = true → is_finite y = true → numeq x y ∨ ¬ numeq x y.
Proof. intros Fx Fy. destruct (Req_dec (B2R x) (B2R y)); [by left|]. right. by intros (_ & _ & ?). Qed.
(** the maximum of zeros and positive numbers *)
Definition zp (z : bool) (d : b64) : Prop := if z then d = zero64 else Bltb zero64 d = true ∧ is_nan d = false.
Lemma max2_zp z1 z2 a b : zp z1 a → zp z2 b → zp (z1 && z2) (npmax2 a b).
Proof.
  unfold npmax2, zp. destruct z1, z2; simpl.
  - by intros -> ->.
  - intros -> [H1 H2]. by rewrite H2, H1.
  - intros [H1 H2] ->. rewrite H2. simpl. destruct (Bltb a zero64) eqn:E; [|done]. pose proof (lt_trans64 _ _ _ H1 E). discriminate.
  - intros [H1 H2] [H3 H4]. rewrite H2, H4. by destruct (Bltb a b).
Qed.
Lemma foldl_zp z d l : zp z d → (∀ x, x ∈ l → ∃ z, zp z x) → ∃ z', zp z' (foldl npmax2 d l) ∧ (z' = true ↔ z = true ∧ ∀ x, x ∈ l → zp true x).
Proof.
  revert z d. induction l as [|x l IH]; intros z d Hz Hl; [exists z; split; [done|]; split; [by intros; split; [done|]; intros ? ?%elem_of_nil|by intros []]|].
  destruct (Hl x) as [zx Hx]; [by left|]. destruct (IH (z && zx) (npmax2 d x)) as (z' & H1 & H2); [by apply max2_zp|intros; apply Hl; by right|]. exists z'. split; [done|]. rewrite H2.
  split.
  - intros [Ha Hb]. apply andb_prop in Ha as [-> ->]. split; [done|]. by intros y [->|Hy]%elem_of_cons; [|apply Hb].
  - intros [-> Hb]. split; [|intros; apply Hb; by right]. simpl. destruct zx; [done|]. specialize (Hb x ltac:(by left)). simpl in Hb, Hx. subst x. by destruct Hx.
Qed.
Lemma absdiff_zp x y : is_finite x = true → is_finite y = true → ∃ z, zp z (absdiff x y) ∧ (z = true ↔ numeq x y).
Proof.
  intros Fx Fy. destruct (numeq_dec x y Fx Fy) as [H|H].
  - exists true. split; [by apply absdiff_zero|done].
  - exists false. split; [by apply absdiff_pos|]. by split.
Qed.
Lemma zp_true_eq x y z : zp true (absdiff x y) → zp z (absdiff x y) → z = true.
Proof. destruct z; [done|]. simpl. intros -> []. discriminate. Qed.
Lemma npmax_spec a b : length a = length b → a ≠ [] → finite a → finite b →
  ∃ m, npmax (zip_with absdiff a b) = Some m ∧ ∃ z, zp z m ∧ (z = true ↔ Forall2 numeq a b).
Proof.
  intros Hlen Hne Fa Fb. destruct a as [|x a]; [done|]. destruct b as [|y b]; [done|]. simpl in Hlen. injection Hlen as Hlen. cbn [zip_with npmax].
  assert (Hf : ∀ d, d ∈ zip_with absdiff a b → ∃ z, zp z d).
  { intros d Hd. apply elem_of_lookup_zip_with in Hd as (i & u & v & -> & Hu & Hv). destruct (absdiff_zp u v) as (z & Hz & _); [| |by exists z].
    - apply Fa. right. by eapply elem_of_list_lookup_2.
    - apply Fb. right. by eapply elem_of_list_lookup_2. }
  destruct (absdiff_zp x y) as (z0 & Hz0 & Hz0'); [apply Fa; by left|apply Fb; by left|].
  destruct (foldl_zp z0 _ _ Hz0 Hf) as (z & Hz & Hz'). eexists. split; [done|]. exists z. split; [done|]. rewrite Hz', Hz0', Forall2_cons. apply and_iff_compat_l. split.
  - intros H. apply Forall2_same_length_lookup. split; [done|]. intros i u v Hu Hv.
    destruct (absdiff_zp u v) as (zu & Hzu & Hzu'); [apply Fa; right; by eapply elem_of_list_lookup_2|apply Fb; right; by eapply elem_of_list_lookup_2|].
    apply Hzu'. apply (zp_true_eq u v); [|done]. apply H. apply elem_of_lookup_zip_with. by exists i, u, v.
  - intros H d Hd. apply elem_of_lookup_zip_with in Hd as (i & u & v & -> & Hu & Hv). apply absdiff_zero. by eapply Forall2_lookup_lr.
Qed.
Lemma zp_pos z m : zp z m → Bltb zero64 m = negb z.
Proof. destruct z; simpl; [by intros ->|by intros []]. Qed.
Lemma zp_eq z m : zp z m → Beqb m zero64 = z.
Proof. destruct z; simpl; [by intros ->|]. intros [H1 H2]. destruct m as [s|s| |s m e H]; try done; by destruct s. Qed.

(** the variables after changevars *)
Lemma change_spec w vs : proper w → fitting w vs → ∃ w', changevars w vs = (w', false) ∧ proper w' ∧ vector_of w (v_val <$> w') vs.
Proof.
  revert vs. induction w as [|v w IH]; intros vs Hw [Hlen Hf]; [destruct vs; [exists []; split; [done|split; [by intros ? ?%elem_of_nil|split; [done|constructor]]]|done]|].
  destruct (Hw v) as (Hk & Hn & Hv); [by left|]. cbn [fmap list_fmap] in Hlen. simpl in Hlen. rewrite app_length in Hlen. cbn [changevars]. set (sz := length (v_val v)) in *.
  assert (Lt : length (take sz vs) = sz) by (apply take_length_le; lia).
  assert (Ft : finite (take sz vs)). { intros x Hx. apply Hf. rewrite <- (take_drop sz vs). apply elem_of_app. by left. }
  destruct (npmax_spec (take sz vs) (v_val v)) as (m & -> & z & Hz & Hz'); [done|intros E; rewrite E in Lt; simpl in Lt; unfold sz in Lt; by destruct (v_val v)|done|done|].
  destruct (IH (drop sz vs)) as (w' & -> & P1 & P2 & P3).
  { intros u Hu. apply Hw. by right. }
  { split; [rewrite drop_length; unfold sz in *; lia|]. intros x Hx. apply Hf. rewrite <- (take_drop sz vs). apply elem_of_app. by right. }
  rewrite (zp_pos z m Hz). exists ((if negb z then assign v (take sz vs) else v) :: w'). split; [done|]. unfold assign. rewrite Hk. split; [|split].
  - intros u [->|Hu]%elem_of_cons; [|by apply P1]. destruct z; [done|]. simpl. split_and!; try done. intros E. rewrite E in Lt. simpl in Lt. unfold sz in Lt. by destruct (v_val v).
  - rewrite !fmap_cons, P2. f_equal. destruct z; [done|]. simpl. rewrite Lt. done.
  - rewrite fmap_cons. simpl. enough (Forall2 numeq (v_val (if negb z then Var Own (take sz vs) else v) ++ concat (v_val <$> w')) (take sz vs ++ drop sz vs)) as HG by (by rewrite take_drop in HG). apply Forall2_app; [|done].
    destruct z; simpl.
    + destruct Hz' as [Hz' _]. specialize (Hz' eq_refl). apply Forall2_flip. eapply Forall2_impl; [exact Hz'|]. by intros ? ? (? & ? & ?).
    + apply Forall_Forall2_diag, list.Forall_forall. intros x Hx. specialize (Ft x Hx). by split_and!.
Qed.
Notation sizes w := ((length ∘ v_val) <$> w).
Lemma fitting_sizes w w' a : sizes w' = sizes w → fitting w a → fitting w' a.
Proof.
  intros H [H1 H2]. split; [|done]. rewrite H1. clear H1 H2. revert w' H. induction w as [|v w IH]; intros [|v' w'] H; try done. rewrite !fmap_cons in H. injection H as H1 H2.
  rewrite !fmap_cons. simpl. rewrite !app_length. f_equal; [done|]. by apply IH.
Qed.
Lemma vector_trans w xs a b : vector_of w xs a → Forall2 numeq b a → vector_of w xs b.
Proof.
  intros [H0 H1] H2. split; [done|]. revert b H2. induction H1 as [|x y l k Hxy Hl IH]; intros b H2; [inversion H2; constructor|].
  destruct b as [|z b]; [inversion H2|]. apply Forall2_cons in H2 as [H2 H3]. constructor; [|by apply IH]. destruct Hxy as (? & ? & ?), H2 as (? & ? & ?). split_and!; try done. congruence.
Qed.
Lemma put_eq h l a : put h l a l = a.
Proof. unfold put. by rewrite decide_True. Qed.
Lemma put_ne h l a l' : l' ≠ l → put h l a l' = h l'.
Proof. intros. unfold put. by rewrite decide_False. Qed.
(** only the arrays of the minimizer matter for its politeness *)
Lemma polite_heap w qs lent (h1 h2 : loc → list b64) : (∀ n, h1 (Theirs n) = h2 (Theirs n)) → polite w h1 lent qs → polite w h2 lent qs.
Proof.
  revert lent h1 h2. induction qs as [|q qs IH]; [done|]. intros lent h1 h2 HE Hp. destruct q as [l a|l|l|l|l]; cbn [polite] in *; destruct Hp as ((m & ->) & Hp1 & Hp2); (split; [by exists m|]).
  - split; [done|]. apply (IH _ (put h1 (Theirs m) a)); [|done]. intros n. unfold put. destruct (decide _); [done|apply HE].
  - rewrite <- HE. split; [done|]. by apply (IH _ h1).
  - rewrite <- HE. split; [done|]. by apply (IH _ h1).
  - rewrite <- HE. split; [done|]. by apply (IH _ h1).
  - rewrite <- HE. split; [done|]. by apply (IH _ h1).
Qed.
Lemma huge_is x : is_finite x = true → plus64 (Bmult mode_NE x zero64) huge = huge.
Proof.
  intros Fx. assert (E : ∃ b, Bmult mode_NE x zero64 = B754_zero b). { destruct x as [s|s| |s m e H]; try done; by eexists. }
  destruct E as [b ->]. unfold huge. assert (Hf : ∃ s m e H, of_int 10000000000000000 = B754_finite s m e H).
  { assert (Hs : is_finite_strict (of_int 10000000000000000) = true) by (vm_compute; reflexivity). destruct (of_int 10000000000000000) as [| | |s m e H]; try done. by exists s, m, e, H. }
  destruct Hf as (s & m & e & H & ->). done.
Qed.
Lemma huge_finite : is_finite huge = true.
Proof. vm_compute. reflexivity. Qed.
Lemma all_huge_is a : finite a → all_huge a = replicate (length a) huge.
Proof.
  intros Hf. unfold all_huge. induction a as [|x a IH]; [done|]. rewrite fmap_cons. simpl. rewrite huge_is by (apply Hf; by left). f_equal. apply IH. intros y Hy. apply Hf. by right.
Qed.
Lemma fitting_huge w a : fitting w a → fitting w (replicate (length a) huge).
Proof. intros [Hf _]. split; [by rewrite replicate_length|]. intros x [-> _]%elem_of_replicate. apply huge_finite. Qed.

Section thms.
  Context (f : list (list b64) → b64) (grad : list (list b64) → list b64).
  Notation serve := (serve f grad). Notation serves := (serves f grad).
  Definition kept (n : nat) (l : loc) : Prop := ∃ k, l = Ours k ∧ k < n.
  (** what is remembered is right *)
  Record inv (w0 : list var) (lent : list loc) (s : bridge) : Prop := {
    iv_proper : proper (vars s);
    iv_size : sizes (vars s) = sizes w0;
    iv_vs : match m_vs s with
            | None => m_J s = None
            | Some l => fitting w0 (heap s l) ∧ (l ∈ lent ∨ kept (next s) l) ∧
                match m_J s with
                | None => heap s l = replicate (length (heap s l)) huge
                | Some j => kept (next s) j ∧ ∃ xs, vector_of w0 xs (heap s l) ∧ heap s j = grad xs
                end
            end;
    iv_n : n_J s = false;
    iv_h : h_H s = false
  }.
  (** new arrays and new values of the variables *)
  Lemma inv_frame w0 lent s s' : inv w0 lent s → proper (vars s') → sizes (vars s') = sizes w0 → m_vs s' = m_vs s → m_J s' = m_J s → n_J s' = false → h_H s' = false →
    next s ≤ next s' → (∀ n, heap s' (Theirs n) = heap s (Theirs n)) → (∀ k, k < next s → heap s' (Ours k) = heap s (Ours k)) → (∀ l, l ∈ lent → ∃ n, l = Theirs n) → inv w0 lent s'.
  Proof.
    intros [H1 H2 H3 H4 H5] P1 P2 E1 E2 En Eh Hn Ht Ho Hl. split; [done|done| |done|done]. rewrite E1, E2. destruct (m_vs s) as [l|]; [|done]. destruct H3 as (X1 & X2 & X3).
    assert (E : heap s' l = heap s l). { destruct X2 as [X2|(k & -> & Hk)]; [destruct (Hl l X2) as [n ->]; apply Ht|by apply Ho]. }
    rewrite E. split; [done|]. split.
    - destruct X2 as [X2|(k & -> & Hk)]; [by left|]. right. exists k. split; [done|lia].
    - destruct (m_J s) as [j|]; [|done]. destruct X3 as ((k & -> & Hk) & X4). split; [exists k; split; [done|lia]|]. by rewrite Ho.
  Qed.
  (** what a request is answered *)
  Definition answered (w0 : list var) (s' : bridge) (q : request) (a : list b64) (r : reply) (first : Prop) : Prop :=
    match q with
    | Write _ _ => r = Quiet
    | Fun _ => r = Value (f (values s')) ∧ vector_of w0 (values s') a
    | Jac _ => (∃ j xs, r = Gradient j (grad xs) ∧ vector_of w0 xs a) ∨ (r = Raised ∧ first ∧ Forall2 numeq a (replicate (length a) huge))
    | Hess _ => r = Raised
    | Answer _ => r = Quiet ∧ vector_of w0 (values s') a
    end.
  Definition at_ (s : bridge) (q : request) : list b64 := match q with Write l _ | Fun l | Jac l | Hess l | Answer l => heap s l end.
  Lemma change_inv w0 lent s l : inv w0 lent s → fitting w0 (heap s l) →
    ∃ w, changevars (vars s) (heap s l) = (w, false) ∧ proper w ∧ vector_of w0 (v_val <$> w) (heap s l) ∧ sizes w = sizes w0.
  Proof.
    intros Hi Hf. destruct (change_spec (vars s) (heap s l)) as (w & E & P1 & P2 & P3); [apply Hi|by apply (fitting_sizes w0); [apply Hi|]|]. exists w. destruct Hi as [_ Hs _ _ _].
    split_and!; try done; [split; congruence|]. rewrite <- Hs, <- P2. rewrite <- list_fmap_compose. done.
  Qed.
  Lemma nonempty_heap w0 lent s a : w0 ≠ [] → inv w0 lent s → fitting w0 a → a ≠ [].
  Proof.
    intros Hw0 [J1 J2 _ _ _] [Hf _] ->. destruct w0 as [|v w0]; [done|]. destruct (vars s) as [|u us] eqn:Ev; [done|].
    rewrite !fmap_cons in J2. injection J2 as J2 _. simpl in Hf. rewrite app_length in Hf. destruct (J1 u ltac:(by left)) as (_ & Hu & _). simpl in J2. destruct (v_val u); [done|]. simpl in J2. lia.
  Qed.
  (** after making the array of 1e16 for another memo *)
  Lemma hessian_spec w0 lent s k : w0 ≠ [] → inv w0 lent s → (∀ l, l ∈ lent → ∃ n, l = Theirs n) → fitting w0 (heap s (Theirs k)) →
    (hessian s (Theirs k)).2 = Raised ∧ inv w0 lent (hessian s (Theirs k)).1 ∧ (∀ n, heap (hessian s (Theirs k)).1 (Theirs n) = heap s (Theirs n)) ∧ m_J (hessian s (Theirs k)).1 = m_J s.
  Proof.
    intros Hw0 Hi Hl Hf. destruct (change_inv _ _ _ _ Hi Hf) as (w & E & P1 & P2 & P3). unfold hessian. rewrite E. cbv zeta.
    set (s1 := match h_vs (set_vars s w) with Some _ => _ | None => _ end).
    assert (F1 : inv w0 lent s1 ∧ (∀ n, heap s1 (Theirs n) = heap s (Theirs n)) ∧ m_J s1 = m_J s).
    { unfold s1. simpl. destruct (h_vs s); (split; [|split; done]); eapply inv_frame; try done; simpl; try lia; try apply Hi. intros n Hn. apply put_ne. intros [= ->]. lia. }
    clearbody s1. destruct F1 as (F1 & F2 & F3). destruct (distance s1 (Theirs k) (h_vs s1)) as [m|]; [|done]. destruct (Bltb zero64 m).
    2:{ rewrite (iv_h _ _ _ F1). done. }
    assert (Hf1 : fitting w0 (heap s1 (Theirs k))) by (by rewrite F2).
    assert (G : (ns_jacfunc s1 (Theirs k)).2 = false ∧ inv w0 lent (ns_jacfunc s1 (Theirs k)).1 ∧ (∀ n, heap (ns_jacfunc s1 (Theirs k)).1 (Theirs n) = heap s1 (Theirs n)) ∧ m_J (ns_jacfunc s1 (Theirs k)).1 = m_J s1).
    { unfold ns_jacfunc. set (s2 := match n_vs s1 with Some _ => _ | None => _ end).
      assert (F4 : inv w0 lent s2 ∧ (∀ n, heap s2 (Theirs n) = heap s1 (Theirs n)) ∧ m_J s2 = m_J s1).
      { unfold s2. simpl. destruct (n_vs s1); [done|]. split; [|split; done]. eapply inv_frame; try done; simpl; try lia; try apply F1. intros n Hn. apply put_ne. intros [= ->]. lia. }
      clearbody s2. destruct F4 as (F4 & F5 & F6). destruct (distance s2 (Theirs k) (n_vs s2)) as [m'|]; [|done]. destruct (Beqb m' zero64); [split; [apply F4|done]|].
      destruct (change_inv w0 lent s2 (Theirs k) F4) as (w' & E' & P1' & P2' & P3'); [by rewrite F5|]. rewrite E'. simpl. split; [done|]. split; [|done]. eapply inv_frame; try done; simpl; try apply F4. }
    destruct (ns_jacfunc s1 (Theirs k)) as [s3 ok]. simpl in G. destruct G as (-> & G1 & G2 & G3). simpl. split_and!; try done; [intros n; by rewrite G2|by rewrite G3].
  Qed.
  Lemma serve_spec w0 lent s q qs : w0 ≠ [] → inv w0 lent s → (∀ l, l ∈ lent → ∃ n, l = Theirs n) → polite w0 (heap s) lent (q :: qs) →
    answered w0 (serve s q).1 q (at_ s q) (serve s q).2 (m_J s = None) ∧
    ∃ lent', inv w0 lent' (serve s q).1 ∧ (∀ l, l ∈ lent' → ∃ n, l = Theirs n) ∧ polite w0 (heap (serve s q).1) lent' qs ∧ (m_J s ≠ None → m_J (serve s q).1 ≠ None) ∧
      (∀ j g, (serve s q).2 = Gradient j g → m_J (serve s q).1 ≠ None).
  Proof.
    intros Hw0 Hi Hlent Hp. destruct q as [l a|l|l|l|l]; cbn [polite] in Hp.
    - destruct Hp as ((k & ->) & Hl & Hp). split; [done|]. exists lent. split; [|done]. destruct Hi as [H1 H2 H3 H4 H5]. split; [done|done| |done|done]. simpl.
      destruct (m_vs s) as [l'|]; [|done]. destruct H3 as (X1 & X2 & X3). assert (l' ≠ Theirs k) by (destruct X2 as [X2|(k' & -> & _)]; [by intros ->|done]).
      rewrite put_ne by done. split_and!; [done|done|]. destruct (m_J s) as [j|]; [|done]. destruct X3 as ((k' & -> & X3) & X4). split; [by exists k'|]. by rewrite put_ne.
    - destruct Hp as ((k & ->) & Hf & Hp). destruct (change_inv _ _ _ _ Hi Hf) as (w & E & P1 & P2 & P3). unfold serve; simpl. unfold residuals. rewrite E. split; [by split|]. exists lent. split; [|done]. eapply inv_frame; try done; apply Hi.
    - destruct Hp as ((k & ->) & Hf & Hp). unfold serve; simpl. unfold jacfunc.
      set (s1 := match m_vs s with Some _ => s | None => _ end).
      assert (I1 : inv w0 (Theirs k :: lent) s1 ∧ m_J s1 = m_J s ∧ (∃ l', m_vs s1 = Some l' ∧ fitting w0 (heap s1 l')) ∧ ∀ n, heap s1 (Theirs n) = heap s (Theirs n)).
      { pose proof Hi as [H1 H2 H3 H4 H5]. unfold s1. destruct (m_vs s) as [l'|] eqn:Em.
        - destruct H3 as (X1 & X2 & X3). split_and!; try done; [split; [done|done| |done|done]|by exists l']. rewrite Em. split_and!; try done. destruct X2 as [X2|X2]; [left; by right|by right].
        - rewrite all_huge_is by apply Hf. pose proof (fitting_huge _ _ Hf) as Fh.
          split_and!; try done; [split; [done|done| |done|done]|exists (Ours (next s)); split; [done|]; simpl; by rewrite put_eq]. simpl. rewrite put_eq. split_and!; [done|right; exists (next s); split; [done|simpl; lia]|]. rewrite H3. by rewrite replicate_length. }
      clearbody s1. destruct I1 as (I1 & I3 & (l' & I4 & I5) & I6). pose proof (I6 k) as I2. assert (Hp' : polite w0 (heap s1) (Theirs k :: lent) qs) by (by apply (polite_heap _ _ _ (heap s))).
      assert (Hl' : ∀ l, l ∈ Theirs k :: lent → ∃ n, l = Theirs n) by (intros l [->|Hl]%elem_of_cons; [by exists k|by apply Hlent]).
      unfold distance. rewrite I4. assert (Hf1 : fitting w0 (heap s1 (Theirs k))) by (by rewrite I2).
      destruct (npmax_spec (heap s1 (Theirs k)) (heap s1 l')) as (m & -> & z & Hz & Hz'); [destruct Hf1 as [X _], I5 as [Y _]; congruence|by eapply nonempty_heap|apply Hf1|apply I5|].
      rewrite (zp_eq z m Hz). destruct z.
      + destruct Hz' as [Hz' _]. specialize (Hz' eq_refl). pose proof I1 as [K1 K2 K3 _ _]. rewrite I4 in K3. destruct K3 as (K3 & K4 & K5). split.
        * simpl. rewrite I3 in *. destruct (m_J s) as [j|].
          -- left. destruct K5 as (_ & xs & X1 & X2). exists j, xs. split; [by rewrite X2|]. rewrite I2 in Hz'. by eapply vector_trans.
          -- right. split_and!; try done. rewrite I2 in Hz'. pose proof (Forall2_length _ _ _ Hz') as HL. rewrite HL, <- K5. done.
        * exists (Theirs k :: lent). split_and!; try done; simpl; [by rewrite I3|]. intros j g. by destruct (m_J s1).
      + destruct (change_inv _ _ _ _ I1 Hf1) as (w & E & P1 & P2 & P3). rewrite E. split.
        * simpl. left. exists (Ours (next s1)), (v_val <$> w). split; [done|]. by rewrite <- I2.
        * exists (Theirs k :: lent). simpl. split; [|split; [done|split; [|done]]].
          -- destruct I1 as [K1 K2 K3 K4 K5']. split; [done|done| |done|done]. simpl. rewrite put_ne by done. split; [done|split; [left; by left|]]. split; [exists (next s1); split; [done|lia]|]. exists (v_val <$> w). split; [done|]. by rewrite put_eq.
          -- apply (polite_heap _ _ _ (heap s1)); [|done]. intros n. by rewrite put_ne.
    - destruct Hp as ((k & ->) & Hf & Hp). destruct (hessian_spec w0 lent s k Hw0 Hi Hlent Hf) as (X1 & X2 & X3 & X4). change (serve s (Hess (Theirs k))) with (hessian s (Theirs k)). split; [done|]. exists lent. split_and!; try done.
      + apply (polite_heap _ _ _ (heap s)); [|done]. intros n. by rewrite X3.
      + by rewrite X4.
      + intros j g. rewrite X1. done.
    - destruct Hp as ((k & ->) & Hf & Hp). destruct (change_inv _ _ _ _ Hi Hf) as (w & E & P1 & P2 & P3). unfold serve; simpl. rewrite E. split; [by split|]. exists lent. split; [|done]. eapply inv_frame; try done; apply Hi.
  Qed.
  Lemma fresh_inv h w : proper w → inv w [] (fresh_bridge h w).
  Proof. intros H. by split. Qed.
  Lemma reach_inv h w qs1 qs2 : w ≠ [] → proper w → polite w h [] (qs1 ++ qs2) →
    ∃ lent, inv w lent (serves (fresh_bridge h w) qs1) ∧ (∀ l, l ∈ lent → ∃ n, l = Theirs n) ∧ polite w (heap (serves (fresh_bridge h w) qs1)) lent qs2.
  Proof.
    intros Hne Hw Hp. assert (G : ∀ qs s lent, inv w lent s → (∀ l, l ∈ lent → ∃ n, l = Theirs n) → polite w (heap s) lent (qs ++ qs2) → ∃ lent, inv w lent (serves s qs) ∧ (∀ l, l ∈ lent → ∃ n, l = Theirs n) ∧ polite w (heap (serves s qs)) lent qs2).
    { intros qs. induction qs as [|q' qs IH]; intros s lent Hi Hl Hq; [by exists lent|]. simpl in Hq. destruct (serve_spec w lent s q' (qs ++ qs2) Hne Hi Hl Hq) as (_ & lent' & I1 & I2 & I3 & _). by apply (IH _ lent'). }
    apply (G qs1 _ []); [by apply fresh_inv|by intros ? ?%elem_of_nil|done].
  Qed.
  (** all requests of a polite minimizer *)
  Lemma served h w qs1 q qs2 : w ≠ [] → proper w → polite w h [] (qs1 ++ q :: qs2) →
    let s := serves (fresh_bridge h w) qs1 in answered w (serve s q).1 q (at_ s q) (serve s q).2 (m_J s = None).
  Proof. intros Hne Hw Hp. destruct (reach_inv h w qs1 (q :: qs2) Hne Hw Hp) as (lent & H1 & H2 & H3). by apply (serve_spec w lent _ q qs2). Qed.
  Lemma remembers w lent s qs q qs2 : w ≠ [] → inv w lent s → (∀ l, l ∈ lent → ∃ n, l = Theirs n) → polite w (heap s) lent (qs ++ q :: qs2) → m_J s ≠ None → m_J (serves s qs) ≠ None.
  Proof.
    intros Hne. revert s lent. induction qs as [|q' qs IH]; intros s lent Hi Hl Hq Hm; [done|]. simpl in Hq. destruct (serve_spec w lent s q' (qs ++ q :: qs2) Hne Hi Hl Hq) as (_ & lent' & I1 & I2 & I3 & I4 & _). apply (IH _ lent'); try done. by apply I4.
  Qed.
  Lemma serves_app s qs1 qs2 : serves s (qs1 ++ qs2) = serves (serves s qs1) qs2.
  Proof. revert s. induction qs1 as [|q qs1 IH]; intros s; [done|]. apply IH. Qed.

  Notation at_time h w qs := (serves (fresh_bridge h w) qs).
  Theorem served_value h w qs1 l qs2 : w ≠ [] → proper w → polite w h [] (qs1 ++ Fun l :: qs2) →
    ∃ xs, vector_of w xs (heap (at_time h w qs1) l) ∧ (serve (at_time h w qs1) (Fun l)).2 = Value (f xs).
  Proof. intros Hne Hw Hp. destruct (served h w qs1 (Fun l) qs2 Hne Hw Hp) as [H1 H2]. by eexists. Qed.
  Theorem served_answer h w qs1 l qs2 : w ≠ [] → proper w → polite w h [] (qs1 ++ Answer l :: qs2) →
    vector_of w (values (serve (at_time h w qs1) (Answer l)).1) (heap (at_time h w qs1) l).
  Proof. intros Hne Hw Hp. by destruct (served h w qs1 (Answer l) qs2 Hne Hw Hp) as [H1 H2]. Qed.
  Theorem served_gradient h w qs1 l qs2 : w ≠ [] → proper w → polite w h [] (qs1 ++ Jac l :: qs2) →
    (∃ x, x ∈ heap (at_time h w qs1) l ∧ ¬ numeq x huge) ∨ (∃ qa l' qb j g, qs1 = qa ++ Jac l' :: qb ∧ (serve (at_time h w qa) (Jac l')).2 = Gradient j g) →
    ∃ j xs, vector_of w xs (heap (at_time h w qs1) l) ∧ (serve (at_time h w qs1) (Jac l)).2 = Gradient j (grad xs).
  Proof.
    intros Hne Hw Hp Hor. destruct (served h w qs1 (Jac l) qs2 Hne Hw Hp) as [(j & xs & H1 & H2)|(_ & H1 & H2)]; [by exists j, xs|]. exfalso. destruct Hor as [(x & Hx & Hn)|(qa & l' & qb & j & g & -> & Hg)].
    - apply Hn. apply elem_of_list_lookup in Hx as [i Hi]. simpl in H2. destruct (Forall2_lookup_l _ _ _ _ _ H2 Hi) as (y & Hy & Hxy). apply lookup_replicate in Hy as [-> _]. done.
    - rewrite <- app_assoc in Hp. destruct (reach_inv h w qa _ Hne Hw Hp) as (lent & I1 & I2 & I3). simpl in I3. destruct (serve_spec w lent _ (Jac l') (qb ++ Jac l :: qs2) Hne I1 I2 I3) as (_ & lent' & J1 & J2 & J3 & _ & J4).
      rewrite serves_app in H1. simpl in H1. revert H1. apply (remembers w lent' _ qb (Jac l) qs2); try done. by apply (J4 j g).
  Qed.
  Theorem served_hessian h w qs1 l qs2 : w ≠ [] → proper w → polite w h [] (qs1 ++ Hess l :: qs2) → (serve (at_time h w qs1) (Hess l)).2 = Raised.
  Proof. intros Hne Hw Hp. exact (served h w qs1 (Hess l) qs2 Hne Hw Hp). Qed.
End thms.
