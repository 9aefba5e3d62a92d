(** Runs of the optimizer in exact arithmetic. *)
From Coq Require Import Reals Lra Lia FunctionalExtensionality.
From stdpp Require Import prelude.
From Verif Require Import ArrModel ArrThms DogModel DogSpec DogThms DogExact DogGeo DogGeoThms.

Section detail.
  Context (N : num) (L : lin N) (P : problem N L).
  Notation st := (st N L).
  Notation sp := (s_p N L). Notation fv := (s_fv N L). Notation sr := (s_r N L). Notation slog := (s_log N L).
  Notation sdone := (s_done N L). Notation sfe := (s_fevals N L). Notation sdelta := (s_delta N L).
  Notation sJ := (s_J N L). Notation sA := (s_A N L). Notation sg := (s_g N L). Notation ssd := (s_sd N L). Notation sgn := (s_gn N L).
  Implicit Types (s : st).
  Definition ratio_of s (dl : V L) (r : W L) : K N :=
    let d := ksub N (ksq N (wnorm L (sr s))) (ksq N (wnorm L r)) in
    if klt N (k0 N) d then kdiv N d (ksub N (kmul N (k2 N) (vdot L (sg s) dl)) (vdot L dl (hdot L (sA s) dl))) else d.
  Notation upd s := (update_step N L (ssd s) (sgn s) (sdelta s) (sA s) (sg s)).
  (** One pass through the inner loop, in more detail. *)
  Inductive pass2 s : (st * bool) + list (event N L) → Prop :=
    | p2_raise0 : upd s = None → pass2 s (inr (slog s))
    | p2_raise1 gn dl d : upd s = Some (gn, dl, d) → pass2 s (inr (slog s ++ [EStep N L dl d]))
    | p2_small s' gn dl d : upd s = Some (gn, dl, d) → sdone s' = true → slog s' = slog s ++ [EStep N L dl d] → sp s' = sp s → sdelta s' = Some d → pass2 s (inl (s', true))
    | p2_reject s' b gn dl d r : upd s = Some (gn, dl, d) → resid N L P (sfe s) (vadd L (sp s) dl) = Some r →
        klt N (k0 N) (ratio_of s dl r) = false → sp s' = sp s → sr s' = sr s → sJ s' = sJ s → sA s' = sA s → sg s' = sg s → ssd s' = ssd s →
        sgn s' = gn → sdelta s' = Some (new_radius N L (ratio_of s dl r) d dl) →
        slog s' = slog s ++ [EStep N L dl d; EEval N L (vadd L (sp s) dl) r; ETrial N L (ratio_of s dl r) false] →
        (b = false → sdone s' = false) → (sdone s' = false → sdone s = false) → pass2 s (inl (s', b))
    | p2_raise2 gn dl d r : upd s = Some (gn, dl, d) → resid N L P (sfe s) (vadd L (sp s) dl) = Some r → klt N (k0 N) (ratio_of s dl r) = true →
        pass2 s (inr (slog s ++ [EStep N L dl d; EEval N L (vadd L (sp s) dl) r; ETrial N L (ratio_of s dl r) true; ECall N L (vadd L (sp s) dl)]))
    | p2_accept s' gn dl d r : upd s = Some (gn, dl, d) → resid N L P (sfe s) (vadd L (sp s) dl) = Some r → klt N (k0 N) (ratio_of s dl r) = true →
        sp s' = vadd L (sp s) dl → sdelta s' = Some (new_radius N L (ratio_of s dl r) d dl) →
        slog s' = slog s ++ [EStep N L dl d; EEval N L (vadd L (sp s) dl) r; ETrial N L (ratio_of s dl r) true; ECall N L (vadd L (sp s) dl)] →
        (sdone s' = true ∨ sr s' = r ∧ sA s' = gram L (sJ s') ∧ sg s' = jt_neg L (sJ s') r ∧ klt N (vinf L (sg s')) (e1 N L P) = false) →
        pass2 s (inl (s', true)).
  Lemma inner_pass2 s : pass2 s (inner N L P s).
  Proof.
    unfold inner. destruct (upd s) as [[[gn dl] d]|] eqn:EU; [|by apply p2_raise0]. cbv zeta.
    set (s1 := set_log N L (set_step N L s gn dl (Some d)) (EStep N L dl d)).
    destruct (kle N (vnorm L dl) _); [by apply (p2_small s _ gn dl d)|].
    change (s_p N L s1) with (sp s). change (s_fevals N L s1) with (sfe s).
    destruct (resid N L P (sfe s) (vadd L (sp s) dl)) as [r|] eqn:ER; [|by apply (p2_raise1 s gn dl d)].
    change (trial N L s1 r) with (ratio_of s dl r). destruct (klt N (k0 N) (ratio_of s dl r)) eqn:Eok.
    - unfold accept. cbv zeta. destruct (klt N (k0 N) (e3 N L P) && _).
      + set (s2 := stop N L _). destruct (kle N (new_radius N L _ d dl) _); (replace (_ || true || _) with true by (by simpl)); (eapply (p2_accept s _ gn dl d r); try done; [cbn; by rewrite <- !app_assoc|by left]).
      + destruct (jac N L P _ _) as [J|].
        * unfold small_gradient. replace (_ || true || _) with true by (by rewrite orb_true_r).
          destruct (klt N (vinf L _) _) eqn:EG; destruct (kle N (new_radius N L _ d dl) _); (eapply (p2_accept s _ gn dl d r); try done; [cbn; by rewrite <- !app_assoc|]); [by left..|right; by split_and!].
        * cbn. rewrite <- !app_assoc. by apply (p2_raise2 s gn dl d r).
    - destruct (kle N (new_radius N L _ d dl) _).
      + eapply (p2_reject s _ _ gn dl d r); try done. cbn. by rewrite <- !app_assoc.
      + eapply (p2_reject s _ _ gn dl d r); try done; [cbn; by rewrite <- !app_assoc|]. cbn. by destruct (sdone s).
  Qed.
  Definition steps_of (l : list (event N L)) : list (V L * K N) := omap (λ e, match e with EStep _ _ v d => Some (v, d) | _ => None end) l.
  Lemma elem_steps l v d : EStep N L v d ∈ l ↔ (v, d) ∈ steps_of l.
  Proof.
    unfold steps_of. rewrite elem_of_list_omap. split; [intros H; by exists (EStep N L v d)|]. intros (e & He & E). destruct e; try done. by injection E as -> ->.
  Qed.
End detail.

Lemma ordered_reals : ordered reals.
Proof.
  split.
  - intros [x|] [y|] [z|]; try done. rewrite !xlt_true. lra.
  - intros [x|] [y|]; try done. change (ksub reals (Some x) (Some y)) with (Some (x - y)%R). change (k0 reals) with (Some 0%R). rewrite !xlt_true. lra.
Qed.

Section exact.
  Context (m n : nat) (slv : mat → vec → option vec).
  Notation E := (exact m n slv).
  Context (P : problem reals E).
  Notation st := (st reals E).
  Notation sp := (s_p reals E). Notation fv := (s_fv reals E). Notation sr := (s_r reals E). Notation slog := (s_log reals E).
  Notation sdone := (s_done reals E). Notation sfe := (s_fevals reals E). Notation sdelta := (s_delta reals E).
  Notation sJ := (s_J reals E). Notation sA := (s_A reals E). Notation sg := (s_g reals E). Notation ssd := (s_sd reals E). Notation sgn := (s_gn reals E).
  Notation upd s := (update_step reals E (ssd s) (sgn s) (sdelta s) (sA s) (sg s)).
  Implicit Types (s : st).

  (** Every step stays in the region. *)
  Definition nonneg (d : option (option R)) : Prop := ∀ x, d = Some (Some x) → (0 <= x)%R.
  Definition within (l : list (event reals E)) : Prop := ∀ v d, EStep reals E (Some v) d ∈ l → ∃ x, d = Some x ∧ (len n v <= x)%R.
  Lemma beta_undefined d sd gn b : beta reals E d sd gn = Some b → (d = None ∨ sd = None ∨ gn = None) → b = None.
  Proof.
    destruct d as [d|], sd as [sd|], gn as [gn|]; unfold beta; cbn; intros E1 [?|[?|?]]; try done; destruct_and?; by injection E1 as <-.
  Qed.
  Lemma upd_within s gn dl d : nonneg (sdelta s) → upd s = Some (gn, dl, d) → nonneg (Some d) ∧ ∀ v, dl = Some v → ∃ x, d = Some x ∧ (len n v <= x)%R.
  Proof.
    intros Hn. unfold update_step. destruct (sdelta s) as [d0|] eqn:Ed.
    - destruct (kle reals d0 (vnorm E (ssd s))) eqn:E1.
      + intros [= <- <- <-]. split; [done|]. destruct (ssd s) as [sd|]; [|intros v; by destruct d0]. destruct d0 as [d0|]; [|done].
        apply xle_true in E1. specialize (Hn d0 eq_refl). pose proof (len_nonneg n sd). intros v. cbn -[Req_EM_T]. destruct (Req_EM_T (len n sd) 0); [done|]. cbn. intros [= <-]. exists d0. split; [done|].
        apply Req_le, len_is; [done|]. rewrite dot_scal_l, dot_scal_r, <- len_sq. field. lra.
      + destruct (from_option _ _ _) as [[gn'|]|]; cbn [mbind option_bind]; [..|done].
        * destruct (kle reals (vnorm E (Some gn')) d0) eqn:E2.
          -- intros [= <- <- <-]. split; [done|]. intros v [= <-]. destruct d0 as [d0|]; [|done]. apply xle_true in E2. by exists d0.
          -- destruct d0 as [d0|].
             2: { destruct (beta _ _ _ _ _) as [b|] eqn:EB; [|done]. apply beta_undefined in EB; [|by left]. subst b. cbn. intros [= <- <- <-]. split; [done|]. intros v. by destruct (ssd s). }
             destruct (ssd s) as [sd|]; [|destruct (beta _ _ _ _ _) as [b|]; [|done]; cbn; intros [= <- <- <-]; by split].
             apply xle_false in E1, E2. destruct (beta_exact m n slv sd gn' d0) as (t & -> & H1 & H2); [done|]. cbn. intros [= <- <- <-]. split; [done|]. intros v [= <-]. exists d0. split; [done|]. lra.
        * destruct (kle reals (vnorm E None) d0) eqn:E2; [done|]. destruct (beta _ _ _ _ _) as [b|]; [|done]. cbn. intros [= <- <- <-]. split; [done|]. intros v. destruct (ssd s), b; done.
    - destruct (from_option _ _ _) as [[gn'|]|]; cbn; [..|done]; intros [= <- <- <-]; split; try done.
      + intros x [= <-]. apply len_nonneg.
      + intros v [= <-]. exists (len n gn'). split; [done|lra].
  Qed.
  Lemma radius_nonneg rho d dl : nonneg (Some d) → nonneg (Some (new_radius reals E rho d dl)).
  Proof.
    intros H. unfold new_radius. cbv zeta. destruct (klt reals (k09 reals) rho).
    - destruct (klt reals d _) eqn:E1; [|done]. intros x [= E2]. destruct d as [d|]; [|done]. change (kmul reals (k25 reals) (vnorm E dl) = Some x) in E2. rewrite E2 in E1. apply xlt_true in E1. specialize (H d eq_refl). lra.
    - destruct (klt reals rho _); [|done]. intros x E2. destruct d as [d|]; [|done]. cbn in E2. injection E2 as <-. specialize (H d eq_refl). lra.
  Qed.
  Definition okay (c : conf reals E) : Prop := within (events c) ∧ match c with AtOuter _ _ s | AtInner _ _ s => nonneg (sdelta s) | _ => True end.
  Lemma within_more l l' : within l → (∀ v d, EStep reals E (Some v) d ∈ l' → ∃ x, d = Some x ∧ (len n v <= x)%R) → within (l ++ l').
  Proof. intros H1 H2 v d [H|H]%elem_of_app; [by apply H1|by apply H2]. Qed.
  Lemma step_okay c : okay c → okay (step reals E P c).
  Proof.
    destruct c as [s|s|s|l]; intros [H1 H2]; [by unfold step; destruct (sdone s)| |by split..]. cbn [events] in H1. unfold step.
    assert (AI : ∀ s', within (slog s') → nonneg (sdelta s') → okay (AtOuter reals E (after_inner reals E P s'))).
    { intros s' A1 A2. unfold after_inner. by repeat case_match. }
    assert (W : ∀ dl d l', (∀ v, dl = Some v → ∃ x, d = Some x ∧ (len n v <= x)%R) → steps_of reals E l' = [] → within (slog s ++ EStep reals E dl d :: l')).
    { intros dl d l' A1 A2. apply within_more; [done|]. intros v d' [[= <- <-]|Hin]%elem_of_cons; [by apply A1|]. apply elem_steps in Hin. rewrite A2 in Hin. by apply elem_of_nil in Hin. }
    destruct (inner_pass2 reals E P s) as [_|gn dl d B1|s' gn dl d B1 B2 B3 B4 B5|s' b gn dl d r B1 B2 B3 B4 B5 B6 B7 B8 B9 B10 B11 B12 B13 B14|gn dl d r B1 B2 B3|s' gn dl d r B1 B2 B3 B4 B5 B6 B7].
    - done.
    - destruct (upd_within s gn dl d H2 B1) as [C1 C2]. split; [|done]. by apply W.
    - destruct (upd_within s gn dl d H2 B1) as [C1 C2]. apply AI; [rewrite B3; by apply W|by rewrite B5].
    - destruct (upd_within s gn dl d H2 B1) as [C1 C2]. assert (within (slog s')) by (rewrite B12; by apply W). assert (nonneg (sdelta s')) by (rewrite B11; by apply radius_nonneg).
      destruct b; [by apply AI|by split].
    - destruct (upd_within s gn dl d H2 B1) as [C1 C2]. split; [|done]. by apply W.
    - destruct (upd_within s gn dl d H2 B1) as [C1 C2]. apply AI; [rewrite B6; by apply W|rewrite B5; by apply radius_nonneg].
  Qed.
  Theorem run_within x k : nonneg (delta0 reals E P) → within (events (run reals E P x k)).
  Proof.
    intros Hd. cut (okay (run reals E P x k)); [by intros []|]. induction k as [|k IH]; [|by apply (step_okay (run reals E P x k))].
    unfold run, start. cbn [Nat.iter nat_rect].
    assert (W : ∀ l, steps_of reals E l = [] → within l). { intros l A2 v d Hin%elem_steps. rewrite A2 in Hin. by apply elem_of_nil in Hin. }
    destruct (jac _ _ _ _ _); [|split; [by apply W|done]]. destruct (resid _ _ _ _ _); [|split; [by apply W|done]].
    unfold small_gradient. destruct (klt _ _ _); split; try done; by apply W.
  Qed.
End exact.
