(** The control flow of the optimizer. *)
From Coq Require Import Sorting.Sorted.
From stdpp Require Import list numbers.
From Verif Require Import DogModel DogSpec.

Section thms.
  Context (N : num) (L : lin N) (P : problem N L).
  Notation st := (st N L).
  Notation sp := (s_p N L). Notation fv := (s_fv N L). Notation sr := (s_r N L). Notation slog := (s_log N L).
  Notation sdone := (s_done N L). Notation siter := (s_iter N L). Notation sfe := (s_fevals N L). Notation sdelta := (s_delta N L).
  Implicit Types (s : st) (l : list (event N L)) (path : list (V L * W L)).

  (** What one pass through the inner loop does. *)
  Inductive pass s : (st * bool) + list (event N L) → Prop :=
    | pass_raise_step : pass s (inr (slog s))
    | pass_raise_eval dl delta : pass s (inr (slog s ++ [EStep N L dl delta]))
    | pass_small s' dl delta :
        sp s' = sp s → fv s' = fv s → sr s' = sr s → sdone s' = true → siter s' = siter s → sfe s' = sfe s →
        slog s' = slog s ++ [EStep N L dl delta] → sdelta s' = Some delta → pass s (inl (s', true))
    | pass_reject s' b dl delta x r rho :
        x = vadd L (sp s) dl → klt N (k0 N) rho = false →
        sp s' = sp s → fv s' = sp s → sr s' = sr s → siter s' = siter s → sfe s' = S (sfe s) →
        slog s' = slog s ++ [EStep N L dl delta; EEval N L x r; ETrial N L rho false] →
        sdelta s' = Some (new_radius N L rho delta dl) →
        sdone s' = sdone s || kle N (new_radius N L rho delta dl) (kmul N (e2 N L P) (vnorm L (sp s))) →
        b = sdone s' || over (max_fevals N L P) (S (sfe s)) →
        (sdelta s = Some delta ∨ sdelta s = None) → pass s (inl (s', b))
    | pass_raise_jac dl delta x r rho :
        x = vadd L (sp s) dl → klt N (k0 N) rho = true → klt N (k0 N) (ksub N (ksq N (wnorm L (sr s))) (ksq N (wnorm L r))) = true →
        pass s (inr (slog s ++ [EStep N L dl delta; EEval N L x r; ETrial N L rho true; ECall N L x]))
    | pass_accept s' dl delta x r rho :
        x = vadd L (sp s) dl → klt N (k0 N) rho = true → klt N (k0 N) (ksub N (ksq N (wnorm L (sr s))) (ksq N (wnorm L r))) = true →
        sp s' = x → fv s' = x → (sr s' = r ∨ sdone s' = true) → siter s' = siter s → sfe s' = S (sfe s) →
        slog s' = slog s ++ [EStep N L dl delta; EEval N L x r; ETrial N L rho true; ECall N L x] → is_Some (sdelta s') →
        pass s (inl (s', true)).
  Lemma update_delta sd gn delta A g gn' dl d : update_step N L sd gn delta A g = Some (gn', dl, d) → delta = Some d ∨ delta = None.
  Proof.
    unfold update_step. destruct delta as [d0|]; [|by right]. destruct (kle N d0 _); [intros [= _ _ ->]; by left|].
    destruct (from_option _ _ _) as [gn1|]; [|done]. simpl. destruct (kle N _ d0); [intros [= _ _ ->]; by left|]. destruct (beta _ _ _ _ _); [|done]. simpl. intros [= _ _ ->]. by left.
  Qed.
  Lemma trial_pos s r : klt N (k0 N) (trial N L s r) = true → klt N (k0 N) (ksub N (ksq N (wnorm L (sr s))) (ksq N (wnorm L r))) = true.
  Proof. unfold trial. cbv zeta. destruct (klt N (k0 N) (ksub N _ _)) eqn:E; [done|congruence]. Qed.
  Lemma inner_pass s : pass s (inner N L P s).
  Proof.
    unfold inner. destruct (update_step _ _ _ _ _ _ _) as [[[gn dl] delta]|] eqn:EU; [|apply pass_raise_step]. apply update_delta in EU. cbv zeta.
    set (s1 := set_log N L (set_step N L s gn dl (Some delta)) (EStep N L dl delta)).
    destruct (kle N (vnorm L dl) _); [by eapply pass_small|].
    change (s_p N L s1) with (sp s). change (s_fevals N L s1) with (sfe s).
    destruct (resid N L P (sfe s) (vadd L (sp s) dl)) as [r|]; [|apply (pass_raise_eval s dl delta)].
    set (x := vadd L (sp s) dl). set (rho := trial N L s1 r). destruct (klt N (k0 N) rho) eqn:Eok.
    - pose proof (trial_pos s1 r Eok) as Hpos. change (sr s1) with (sr s) in Hpos.
      unfold accept. cbv zeta. destruct (klt N (k0 N) (e3 N L P) && _).
      + set (s2 := stop N L _). destruct (kle N (new_radius N L rho delta dl) _); [replace (_ || true || _) with true by (by simpl)|replace (_ || true || _) with true by (by simpl)].
        * eapply (pass_accept s _ dl delta x r rho); try done; [by right|]. cbn. by rewrite <- !app_assoc.
        * eapply (pass_accept s _ dl delta x r rho); try done; [by right|]. cbn. by rewrite <- !app_assoc.
      + destruct (jac N L P _ _) as [J|].
        * unfold small_gradient. replace (_ || true || _) with true by (by rewrite orb_true_r).
          set (s2 := set_delta N L _ _).
          assert (X : sp s2 = x ∧ fv s2 = x ∧ sr s2 = r ∧ siter s2 = siter s ∧ sfe s2 = S (sfe s) ∧
            slog s2 = slog s ++ [EStep N L dl delta; EEval N L x r; ETrial N L rho true; ECall N L x] ∧ is_Some (sdelta s2)).
          { unfold s2. destruct (klt N (vinf L _) _); cbn; rewrite <- !app_assoc; split_and!; try done; by eexists. }
          clearbody s2. destruct X as (X1 & X2 & X3 & X4 & X5 & X6 & X7). destruct (kle N (new_radius N L rho delta dl) _).
          -- eapply (pass_accept s _ dl delta x r rho); try done. by left.
          -- eapply (pass_accept s _ dl delta x r rho); try done. by left.
        * cbn. rewrite <- !app_assoc. by apply (pass_raise_jac s dl delta x r rho).
    - destruct (kle N (new_radius N L rho delta dl) _) eqn:Ek.
      + eapply (pass_reject s _ _ dl delta x r rho); try done.
        * cbn. by rewrite <- !app_assoc.
        * cbn in *. rewrite Ek. by rewrite orb_true_r.
      + eapply (pass_reject s _ _ dl delta x r rho); try done.
        * cbn. by rewrite <- !app_assoc.
        * cbn in *. rewrite Ek. by rewrite orb_false_r.
        * cbn. by rewrite orb_false_r.
  Qed.

  (* ---------------------------------------------------------------- *)
  Lemma evals_app l1 l2 : evals (l1 ++ l2) = evals l1 ++ evals l2.
  Proof. apply omap_app. Qed.
  Lemma calls_app l1 l2 : calls (l1 ++ l2) = calls l1 ++ calls l2.
  Proof. apply omap_app. Qed.
  (** The sequence of points held, and the state *)
  Record tracks l path : Prop := {
    tr_desc : descends l path;
    tr_calls : calls l = path.*1
  }.
  Definition holds s path : Prop := ∃ q, list.last path = Some q ∧ sp s = q.1 ∧ fv s = q.1 ∧ (sdone s = false → sr s = q.2) ∧ tracks (slog s) path.
  Definition good (c : conf N L) (path : list (V L * W L)) : Prop :=
    match c with
    | AtOuter _ _ s => holds s path
    | AtInner _ _ s => holds s path ∧ sdone s = false
    | Returned _ _ s => holds s path
    | Raised _ _ l => path ≠ [] ∧ tracks l path
    end.
  Lemma tracks_more l l' path : tracks l path → calls l' = [] → tracks (l ++ l') path.
  Proof.
    intros [[H1 H2] H3] Hc. split; [split; [|done]|by rewrite calls_app, Hc, app_nil_r]. intros q Hq. rewrite evals_app. apply elem_of_app. left. by apply H1.
  Qed.
  Lemma sorted_snoc {A} (R : A → A → Prop) k a : StronglySorted R k → (∀ b, b ∈ k → R b a) → StronglySorted R (k ++ [a]).
  Proof.
    induction 1 as [|b k Hk IH Hb]; intros Ha; simpl; [by repeat constructor|]. constructor.
    - apply IH. intros c Hc. apply Ha. by right.
    - apply Forall_app. split; [done|]. constructor; [|done]. apply Ha. by left.
  Qed.
  Lemma tracks_accept l path q x r dl delta rho : ordered N → tracks l path → list.last path = Some q → klt N (sse r) (sse q.2) = true →
    tracks (l ++ [EStep N L dl delta; EEval N L x r; ETrial N L rho true; ECall N L x]) (path ++ [(x, r)]).
  Proof.
    intros [Htr _] [[H1 H2] H3] Hl Hlt. split; [split|].
    - intros z Hz. rewrite evals_app. apply elem_of_app in Hz as [Hz|Hz%elem_of_list_singleton]; apply elem_of_app; [left; by apply H1|right; subst z; cbn; by left].
    - apply sorted_snoc; [done|]. intros b Hb. simpl. apply last_Some in Hl as [k ->]. apply elem_of_app in Hb as [Hb|Hb%elem_of_list_singleton]; [|by subst b].
      clear H1 H3. induction k as [|c k IH]; [by apply elem_of_nil in Hb|]. inversion H2 as [|? ? Hs Hf]; subst. apply elem_of_cons in Hb as [->|Hb]; [|by apply IH].
      apply (Htr _ (sse q.2)); [done|]. rewrite Forall_forall in Hf. apply Hf. apply elem_of_list_In, elem_of_app. right. by left.
    - rewrite calls_app, H3, fmap_app. done.
  Qed.
  Lemma step_good c path : ordered N → good c path → ∃ path', good (step N L P c) path' ∧ path `prefix_of` path'.
  Proof.
    intros HN Hg. destruct c as [s|s|s|l]; simpl.
    - exists path. split; [|done]. simpl in Hg. destruct (sdone s) eqn:E; [done|]. split; [|done]. destruct Hg as (q & Hq & Hp & Hf & Hr & Ht). exists q. by split_and!.
    - destruct Hg as [(q & Hq & Hp & Hf & Hr & Ht) Hd]. assert (Hne : path ≠ []) by (by intros ->). specialize (Hr Hd).
      assert (AI : ∀ s' p, holds s' p → holds (after_inner N L P s') p).
      { intros s' p (q' & A1 & A2 & A3 & A4 & A5). unfold after_inner. repeat case_match; exists q'; by split_and!. }
      destruct (inner_pass s) as [|dl delta|s' dl delta B1 B2 B3 B4 B5 B6 B7 B8|s' b dl delta x r rho B1 B2 B3 B4 B5 B6 B7 B8 B9 B10 B11 B12|dl delta x r rho B1 B2 B3|s' dl delta x r rho B1 B2 B3 B4 B5 B6 B7 B8 B9 B10].
      + exists path. by split.
      + exists path. split; [|done]. split; [done|]. by apply tracks_more.
      + exists path. split; [|done]. apply AI. exists q. split_and!; [done|congruence|congruence|congruence|]. rewrite B7. by apply tracks_more.
      + exists path. split; [|done]. assert (Hh : holds s' path).
        { exists q. split_and!; [done|congruence|congruence|congruence|]. rewrite B8. by apply tracks_more. }
        destruct b; [by apply AI|]. split; [done|]. destruct (sdone s'); [done|]. done.
      + exists (path ++ [(x, r)]). split; [|by apply prefix_app_r]. split; [by destruct path|]. apply (tracks_accept (slog s) path q); [done..|]. apply HN. by rewrite <- Hr.
      + exists (path ++ [(x, r)]). split; [|by apply prefix_app_r]. apply AI. exists (x, r). split_and!.
        * by rewrite last_snoc.
        * done.
        * done.
        * intros E. destruct B6 as [?|B6]; [done|congruence].
        * rewrite B9. apply (tracks_accept (slog s) path q); [done..|]. apply HN. by rewrite <- Hr.
    - exists path. by split.
    - exists path. by split.
  Qed.
  Lemma start_good x : (start N L P x = Raised N L [ECall N L x]) ∨ ∃ r, resid N L P 0 x = Some r ∧ good (start N L P x) [(x, r)].
  Proof.
    unfold start. destruct (jac _ _ _ _ _) as [J|]; [|by left]. destruct (resid _ _ _ _ _) as [r|]; [|by left]. right. exists r. split; [done|].
    unfold small_gradient. destruct (klt _ _ _); (exists (x, r); split_and!; [done..|]; split; [split|done]; [intros q Hq%elem_of_list_singleton; subst q; cbn; by left|by repeat constructor]).
  Qed.
  Lemma run_S x n : run N L P x (S n) = step N L P (run N L P x n).
  Proof. done. Qed.
  Theorem run_good x n : ordered N → run N L P x n = Raised N L [ECall N L x] ∨ ∃ r path, resid N L P 0 x = Some r ∧ [(x, r)] `prefix_of` path ∧ good (run N L P x n) path.
  Proof.
    intros HN. induction n as [|n IH].
    - destruct (start_good x) as [H|(r & H & Hg)]; [by left|]. right. exists r, [(x, r)]. by split_and!.
    - rewrite run_S. destruct IH as [->|(r & path & Hr & Hp & Hg)]; [by left|]. right.
      destruct (step_good _ _ HN Hg) as (path' & Hg' & Hpp). exists r, path'. split_and!; [done| |done]. by trans path.
  Qed.
  Theorem run_descends x n : ordered N → run N L P x n = Raised N L [ECall N L x] ∨
    ∃ r path, resid N L P 0 x = Some r ∧ [(x, r)] `prefix_of` path ∧ descends (events (run N L P x n)) path ∧
      calls (events (run N L P x n)) = path.*1 ∧ ∀ y, variables (run N L P x n) = Some y → ∃ r', list.last path = Some (y, r').
  Proof.
    intros HN. destruct (run_good x n HN) as [H|(r & path & H1 & H2 & G)]; [by left|]. right. exists r, path. split_and!; [done|done|..].
    - destruct (run N L P x n) as [s|s|s|l]; [destruct G as (q & _ & _ & _ & _ & [G _])|destruct G as [(q & _ & _ & _ & _ & [G _]) _]|destruct G as (q & _ & _ & _ & _ & [G _])|destruct G as [_ [G _]]]; done.
    - destruct (run N L P x n) as [s|s|s|l]; [destruct G as (q & _ & _ & _ & _ & [_ G])|destruct G as [(q & _ & _ & _ & _ & [_ G]) _]|destruct G as (q & _ & _ & _ & _ & [_ G])|destruct G as [_ [_ G]]]; done.
    - intros y Hy. destruct (run N L P x n) as [s|s|s|l]; [destruct G as (q & G1 & _ & G2 & _)|destruct G as [(q & G1 & _ & G2 & _) _]|destruct G as (q & G1 & _ & G2 & _)|done]; exists q.2; simpl in Hy; injection Hy as <-; by rewrite G2, <- surjective_pairing.
  Qed.
End thms.
