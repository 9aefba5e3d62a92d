(** The optimizer stops. *)
From stdpp Require Import list numbers.
From Verif Require Import DogModel DogSpec DogThms.

Section stops.
  Context (N : num) (L : lin N) (P : problem N L).
  Notation st := (st N L).
  Notation sp := (s_p N L). Notation fv := (s_fv N L). Notation sr := (s_r N L). Notation slog := (s_log N L).
  Notation sdone := (s_done N L). Notation siter := (s_iter N L). Notation sfe := (s_fevals N L). Notation sdelta := (s_delta N L).
  Implicit Types (s : st) (l : list (event N L)).
  Notation nev l := (length (evals l)). Notation nca l := (length (calls l)).

  (** Counting *)
  Definition lim (o : option nat) (n : nat) (b : nat) : Prop := match o with Some m => n = b ∨ n < m | None => True end.
  Definition most (o : option nat) (n : nat) (b : nat) : Prop := match o with Some m => n ≤ b `max` m | None => True end.
  Definition counted (c : conf N L) : Prop :=
    match c with
    | AtOuter _ _ s => nev (slog s) = sfe s ∧ nca (slog s) ≤ S (siter s) ∧ (1 ≤ sfe s) ∧
        (sdone s = false → lim (max_fevals N L P) (sfe s) 1 ∧ lim (maxiter N L P) (siter s) 0) ∧
        most (max_fevals N L P) (sfe s) 2 ∧ most (maxiter N L P) (siter s) 1
    | AtInner _ _ s => nev (slog s) = sfe s ∧ nca (slog s) ≤ siter s ∧ (1 ≤ sfe s) ∧ sdone s = false ∧
        lim (max_fevals N L P) (sfe s) 1 ∧ most (maxiter N L P) (siter s) 1
    | Returned _ _ s => nev (slog s) = sfe s ∧ nca (slog s) ≤ S (siter s) ∧ most (max_fevals N L P) (sfe s) 2 ∧ most (maxiter N L P) (siter s) 1
    | Raised _ _ l => most (max_fevals N L P) (nev l) 2 ∧ match maxiter N L P with Some m => nca l ≤ S (1 `max` m) | None => True end
    end.
  Lemma over_lim o n b : over o n = false → lim o n b.
  Proof. unfold over, lim. destruct o as [m|]; [|done]. intros H%bool_decide_eq_false. right. lia. Qed.
  Lemma step_counted c : counted c → counted (step N L P c).
  Proof.
    destruct c as [s|s|s|l]; simpl; [..|done|done].
    - intros (H1 & H2 & H3 & H4 & H5 & H6). destruct (sdone s) eqn:E; [by split_and!|]. destruct (H4 eq_refl) as [H7 H8]. split_and!; try done.
      unfold lim, most in *. destruct (maxiter N L P); [|done]. simpl. lia.
    - intros (H1 & H2 & H3 & H4 & H5 & H6).
      assert (M2 : most (max_fevals N L P) (sfe s) 2 ∧ most (max_fevals N L P) (S (sfe s)) 2).
      { unfold lim, most in *. destruct (max_fevals N L P); [|done]. lia. }
      assert (MI : match maxiter N L P with Some m => nca (slog s) ≤ 1 `max` m ∧ S (nca (slog s)) ≤ S (1 `max` m) | None => True end).
      { unfold most in *. destruct (maxiter N L P); [|done]. lia. }
      assert (AI : ∀ s', nev (slog s') = sfe s' → nca (slog s') ≤ S (siter s') → 1 ≤ sfe s' → most (max_fevals N L P) (sfe s') 2 → most (maxiter N L P) (siter s') 1 →
        counted (AtOuter N L (after_inner N L P s'))).
      { intros s' A1 A2 A3 A4 A5. unfold after_inner. destruct (over (maxiter N L P) (siter s')) eqn:O1; [by cbn; split_and!|].
        destruct (over (max_fevals N L P) (sfe s')) eqn:O2; [by cbn; split_and!|]. cbn. split_and!; try done. intros _. split; by apply over_lim. }
      destruct (inner_pass N L P s) as [|dl delta|s' dl delta B1 B2 B3 B4 B5 B6 B7 B8|s' b dl delta x r rho B1 B2 B3 B4 B5 B6 B7 B8 B9 B10 B11 B12|dl delta x r rho B1 B2 B3|s' dl delta x r rho B1 B2 B3 B4 B5 B6 B7 B8 B9 B10].
      + cbn. rewrite H1. split; [apply M2|]. destruct (maxiter N L P); [lia|done].
      + cbn. rewrite evals_app, calls_app, !app_length. cbn. rewrite !Nat.add_0_r, H1. split; [apply M2|]. destruct (maxiter N L P); [lia|done].
      + apply AI; rewrite ?B7, ?evals_app, ?calls_app, ?app_length, ?B5, ?B6; cbn; try lia; try apply M2; done.
      + destruct b.
        * apply AI; rewrite ?B8, ?evals_app, ?calls_app, ?app_length, ?B6, ?B7; cbn; try lia; try apply M2; done.
        * cbn. rewrite B8, evals_app, calls_app, !app_length, B6, B7. cbn. destruct (sdone s'); [done|]. simpl in B11. split_and!; try lia; try done. by apply over_lim.
      + cbn. rewrite evals_app, calls_app, !app_length. cbn. rewrite H1, !Nat.add_1_r. split; [apply M2|]. destruct (maxiter N L P); [lia|done].
      + apply AI; rewrite ?B9, ?evals_app, ?calls_app, ?app_length, ?B7, ?B8; cbn; try lia; try apply M2; done.
  Qed.
  Lemma start_counted x : counted (start N L P x).
  Proof.
    unfold start. destruct (jac _ _ _ _ _) as [J|]; [|cbn; unfold most; destruct (max_fevals _ _ _), (maxiter _ _ _); lia].
    destruct (resid _ _ _ _ _) as [r|]; [|cbn; unfold most; destruct (max_fevals _ _ _), (maxiter _ _ _); lia].
    unfold small_gradient. destruct (klt _ _ _); cbn; unfold most, lim; destruct (max_fevals _ _ _), (maxiter _ _ _); split_and!; try done; try lia; intros; split; try done; by left.
  Qed.
  Theorem run_counted x n : counted (run N L P x n).
  Proof. induction n as [|n IH]; [apply start_counted|]. by apply (step_counted (run N L P x n)). Qed.
  Theorem evaluations x n m : max_fevals N L P = Some m → nev (events (run N L P x n)) ≤ 2 `max` m.
  Proof.
    intros Hm. pose proof (run_counted x n) as H. destruct (run N L P x n) as [s|s|s|l]; simpl in *; unfold lim, most in *; rewrite Hm in H; lia.
  Qed.
  Theorem iterations x n m : maxiter N L P = Some m → nca (events (run N L P x n)) ≤ S (1 `max` m) ∧
    ∀ s, run N L P x n = AtInner N L s ∨ run N L P x n = Returned N L s → siter s ≤ 1 `max` m.
  Proof.
    intros Hm. pose proof (run_counted x n) as H. split.
    - destruct (run N L P x n) as [s|s|s|l]; simpl in *; unfold lim, most in *; rewrite Hm in H; lia.
    - intros s [E|E]; rewrite E in H; simpl in H; unfold lim, most in H; rewrite Hm in H; lia.
  Qed.

  (** Ending *)
  Lemma iter_add j k (c : conf N L) : Nat.iter (j + k) (step N L P) c = Nat.iter j (step N L P) (Nat.iter k (step N L P) c).
  Proof. induction j as [|j IH]; [done|]. simpl. by rewrite IH. Qed.
  Definition ends (c : conf N L) : Prop := ∃ j, finished (Nat.iter j (step N L P) c).
  Lemma ends_step c : ends (step N L P c) → ends c.
  Proof. intros [j H]. exists (j + 1). by rewrite iter_add. Qed.
  Lemma ends_steps k c : ends (Nat.iter k (step N L P) c) → ends c.
  Proof. intros [j H]. exists (j + k). by rewrite iter_add. Qed.
  Lemma ends_done s : sdone s = true → ends (AtOuter N L s).
  Proof. intros H. exists 1. simpl. by rewrite H. Qed.
  (** what a pass through the inner loop leads to *)
  Lemma step_inner s : (∃ l, step N L P (AtInner N L s) = Raised N L l) ∨
    (∃ s', step N L P (AtInner N L s) = AtOuter N L s' ∧ (sdone s' = true ∨ sfe s' = S (sfe s))) ∨
    (∃ s', step N L P (AtInner N L s) = AtInner N L s' ∧ sfe s' = S (sfe s)).
  Proof.
    cbn [step].
    assert (AI : ∀ s', (sdone s' = true ∨ sfe s' = S (sfe s)) → sdone (after_inner N L P s') = true ∨ sfe (after_inner N L P s') = S (sfe s)).
    { intros s' H. unfold after_inner. repeat case_match; try done; by left. }
    destruct (inner_pass N L P s) as [|dl delta|s' dl delta B1 B2 B3 B4 B5 B6 B7 B8|s' b dl delta x r rho B1 B2 B3 B4 B5 B6 B7 B8 B9 B10 B11 B12|dl delta x r rho B1 B2 B3|s' dl delta x r rho B1 B2 B3 B4 B5 B6 B7 B8 B9 B10].
    - left. by eexists.
    - left. by eexists.
    - right. left. eexists. split; [done|]. apply AI. by left.
    - right. destruct b; [left|right].
      + eexists. split; [done|]. apply AI. by right.
      + eexists. by split.
    - left. by eexists.
    - right. left. eexists. split; [done|]. apply AI. by right.
  Qed.
  Theorem ends_fevals x m : max_fevals N L P = Some m → ∃ n, finished (run N L P x n).
  Proof.
    intros Hm. assert (G : ∀ k c, counted c → (∀ s, c = AtOuter N L s ∨ c = AtInner N L s → (2 `max` m) - sfe s ≤ k) → ends c).
    { intros k. induction k as [k IH] using lt_wf_ind. intros c Hc Hk.
      assert (GI : ∀ s, counted (AtInner N L s) → (2 `max` m) - sfe s ≤ k → ends (AtInner N L s)).
      { intros s Hs Hks. apply ends_step. pose proof (step_counted _ Hs) as Hs'. assert (Hlt : sfe s < 2 `max` m).
        { simpl in Hs. unfold lim in Hs. rewrite Hm in Hs. lia. }
        destruct (step_inner s) as [[l ->]|[(s' & E & Hd)|(s' & E & Hf)]].
        - by exists 0.
        - rewrite E in *. destruct Hd as [Hd|Hd]; [by apply ends_done|]. apply (IH ((2 `max` m) - sfe s')); [lia|done|]. intros s2 [[= <-]|?]; done.
        - rewrite E in *. apply (IH ((2 `max` m) - sfe s')); [lia|done|]. intros s2 [?|[= <-]]; done. }
      destruct c as [s|s|s|l]; [|apply GI; [done|apply Hk; by right]|by exists 0..].
      apply ends_step. pose proof (step_counted _ Hc) as Hc'. simpl in *. destruct (sdone s) eqn:E; [by exists 0|]. apply GI; [done|]. apply (Hk s). by left. }
    destruct (G _ (start N L P x) (start_counted x) (λ s _, Nat.le_sub_l _ _)) as [j Hj]. by exists j.
  Qed.

  Section tame.
    Context (nan fin : K N → Prop) (HS : shrinking N nan fin).
    Notation future c := (∀ j, tame P nan fin (events (Nat.iter j (step N L P) c))).
    Lemma future_step c : future c → future (step N L P c).
    Proof. intros H j. specialize (H (j + 1)). by rewrite iter_add in H. Qed.
    Lemma future_steps k c : future c → future (Nat.iter k (step N L P) c).
    Proof. intros H j. specialize (H (j + k)). by rewrite iter_add in H. Qed.
    (** the point is one the user was called with *)
    Definition called s : Prop := sp s ∈ calls (slog s).
    Lemma called_event l x : x ∈ calls l → ECall N L x ∈ l.
    Proof. intros (e & He & Hx)%elem_of_list_omap. destruct e; try done. by injection Hx as ->. Qed.
    Definition leaves (c : conf N L) (it : nat) : Prop := match c with AtInner _ _ _ => False | AtOuter _ _ s => siter s = it ∧ called s | _ => True end.
    Lemma after_leaves s' it : siter s' = it → called s' → leaves (AtOuter N L (after_inner N L P s')) it.
    Proof. intros H1 H2. cbn. unfold after_inner. by repeat case_match. Qed.
    Lemma one_pass s : future (AtInner N L s) → called s → sdone s = false →
      leaves (step N L P (AtInner N L s)) (siter s) ∨
      ∃ s' d, step N L P (AtInner N L s) = AtInner N L s' ∧ called s' ∧ siter s' = siter s ∧ sdone s' = false ∧ (sdelta s = Some d ∨ sdelta s = None) ∧ fin d ∧
        sdelta s' = Some (quartered N 1 d) ∧ ∃ t, kle N (k0 N) t = true ∧ kle N (quartered N 1 d) t = false.
    Proof.
      intros Hf Hc Hd. pose proof (Hf 1) as Ht. cbn [Nat.iter nat_rect step] in Ht |- *.
      destruct (inner_pass N L P s) as [|dl delta|s' dl delta B1 B2 B3 B4 B5 B6 B7 B8|s' b dl delta x r rho B1 B2 B3 B4 B5 B6 B7 B8 B9 B10 B11 B12|dl delta x r rho B1 B2 B3|s' dl delta x r rho B1 B2 B3 B4 B5 B6 B7 B8 B9 B10].
      - by left.
      - by left.
      - left. apply after_leaves; [done|]. unfold called. rewrite B1, B7, calls_app. apply elem_of_app. by left.
      - assert (Hc' : called s'). { unfold called. rewrite B3, B8, calls_app. apply elem_of_app. by left. }
        destruct b; [left; by apply after_leaves|]. right. simpl in Ht.
        assert (Hn : ¬ nan rho). { apply (Ht (ETrial N L rho false)). rewrite B8. apply elem_of_app. right. right. right. by left. }
        destruct (sh_ratio N nan fin HS rho Hn B2) as [R1 R2]. unfold new_radius in *. rewrite R2, R1 in *. exists s', delta.
        destruct (sdone s') eqn:Ed; [done|]. split_and!; try done.
        + apply (Ht (EStep N L dl delta)). rewrite B8. apply elem_of_app. right. by left.
        + exists (kmul N (e2 N L P) (vnorm L (sp s))). split.
          * apply (Ht (ECall N L (sp s))). apply called_event. rewrite B8, calls_app. apply elem_of_app. by left.
          * rewrite Hd in B10. simpl in B10. exact (eq_sym B10).
      - by left.
      - left. apply after_leaves; [done|]. unfold called. rewrite B4, B9, calls_app. apply elem_of_app. right. by left.
    Qed.
    Lemma quartered_S n d : quartered N (S n) d = quartered N n (quartered N 1 d).
    Proof. induction n as [|n IH]; [done|]. simpl in *. by rewrite IH. Qed.
    Lemma inner_ends n d s : (∀ k, n ≤ k → ∀ t, kle N (k0 N) t = true → kle N (quartered N k d) t = true) →
      future (AtInner N L s) → called s → sdone s = false → sdelta s = Some d → ∃ j, leaves (Nat.iter j (step N L P) (AtInner N L s)) (siter s).
    Proof.
      revert d s. induction n as [|n IH]; intros d s Hn Hf Hc Hd Hs.
      - destruct (one_pass s Hf Hc Hd) as [H|(s' & d' & E & _ & _ & _ & Hs' & _ & _ & t & T1 & T2)]; [by exists 1|].
        destruct Hs' as [Hs'|Hs']; [|congruence]. rewrite Hs in Hs'. injection Hs' as <-. rewrite Hn in T2 by (done || lia). done.
      - destruct (one_pass s Hf Hc Hd) as [H|(s' & d' & E & Hc' & Hi' & Hd' & Hs' & _ & Hq & _)]; [by exists 1|].
        destruct Hs' as [Hs'|Hs']; [|congruence]. rewrite Hs in Hs'. injection Hs' as <-.
        destruct (IH (quartered N 1 d) s') as [j Hj].
        + intros k Hk t Ht. rewrite <- quartered_S. apply Hn; [lia|done].
        + rewrite <- E. by apply future_step.
        + done.
        + done.
        + done.
        + exists (j + 1). rewrite iter_add. change (Nat.iter 1 (step N L P) (AtInner N L s)) with (step N L P (AtInner N L s)). rewrite E, <- Hi'. done.
    Qed.
    Lemma inner_ends' s : future (AtInner N L s) → called s → sdone s = false → ∃ j, leaves (Nat.iter j (step N L P) (AtInner N L s)) (siter s).
    Proof.
      intros Hf Hc Hd. destruct (one_pass s Hf Hc Hd) as [H|(s' & d & E & Hc' & Hi' & Hd' & _ & Hfin & Hq & _)]; [by exists 1|].
      destruct (sh_radius N nan fin HS d Hfin) as [n Hn]. destruct (inner_ends n (quartered N 1 d) s') as [j Hj].
      - intros k Hk t Ht. rewrite <- quartered_S. apply Hn; [lia|done].
      - rewrite <- E. by apply future_step.
      - done.
      - done.
      - done.
      - exists (j + 1). rewrite iter_add. change (Nat.iter 1 (step N L P) (AtInner N L s)) with (step N L P (AtInner N L s)). rewrite E, <- Hi'. done.
    Qed.
    Theorem ends_tame x m : maxiter N L P = Some m → (∀ n, tame P nan fin (events (run N L P x n))) → ∃ n, finished (run N L P x n).
    Proof.
      intros Hm Ht. assert (G : ∀ k s, future (AtOuter N L s) → counted (AtOuter N L s) → called s → (1 `max` m) - siter s ≤ k → ends (AtOuter N L s)).
      { intros k. induction k as [|k IH]; intros s Hf Hco Hc Hk.
        - apply ends_done. destruct (sdone s) eqn:E; [done|]. destruct Hco as (_ & _ & _ & H4 & _). destruct (H4 E) as [_ H8]. unfold lim in H8. rewrite Hm in H8. lia.
        - apply ends_step. pose proof (future_step _ Hf) as Hf'. pose proof (step_counted _ Hco) as Hco'. simpl in Hf', Hco' |- *.
          destruct (sdone s) eqn:E; [by exists 0|]. destruct (inner_ends' (start_iteration N L s)) as [j Hj]; [done|done|done|].
          apply (ends_steps j). pose proof (future_steps j _ Hf') as Hfj. assert (Hcj : counted (Nat.iter j (step N L P) (AtInner N L (start_iteration N L s)))).
          { clear Hj Hfj. induction j as [|j IHj]; [done|]. by apply (step_counted (Nat.iter j (step N L P) (AtInner N L (start_iteration N L s)))). }
          destruct (Nat.iter j _ _) as [s'|s'|s'|l]; [|done|by exists 0|by exists 0]. destruct Hj as (Hi & Hca).
          apply IH; try done. simpl in Hi. rewrite Hi. lia. }
      pose proof (start_counted x) as Hc0. assert (F0 : future (start N L P x)) by exact Ht. destruct (start N L P x) as [s|s|s|l] eqn:E.
      - assert (C : called s); [|destruct (G _ s F0 Hc0 C (Nat.le_refl _)) as [j Hj]; exists j; unfold run; by rewrite E].
        unfold start in E. destruct (jac _ _ _ _ _); [|done]. destruct (resid _ _ _ _ _); [|done]. injection E as <-. unfold called, small_gradient.
        destruct (klt _ _ _); cbn; by left.
      - unfold start in E. destruct (jac _ _ _ _ _); [|done]. by destruct (resid _ _ _ _ _).
      - exists 0. unfold run. simpl. by rewrite E.
      - exists 0. unfold run. simpl. by rewrite E.
    Qed.
  End tame.
End stops.
