(** Proofs about RevModel.v. *)
From stdpp Require Import gmap strings list relations.
From Verif Require Import EngineModel EngineSpec EngineClear EngineEval EngineSet EngineInv EngineOps
  EngineRead EngineHist EngineThms GraphModel GraphSpec GraphThms RevModel RevSpec.

Section thms.
Context (L : lib).
Notation graph := (gmap oid (core L)).
Notation heap := (gmap oid (node L)).
Notation cores := (cores L).
Notation state := (state L).
Notation st_h := (st_h L).
Notation points := (points L).
Implicit Types (g : graph) (c : core L) (h : heap) (st : state).
Notation good := (EngineRead.good L all).
Notation kept := (EngineRead.kept L).

(* ------------------------------------------------------------------ *)
(** Cache-free versions. *)
Fixpoint peach (strict : bool) (f : oid → option (option (Jac L))) (w : oid) c
    (ks : list name) (acc : list (Jac L)) : option (list (Jac L)) :=
  match ks with
  | [] => Some acc
  | k :: ks' =>
    match c_attr L c !! k with
    | Some (ARef p) =>
      if decide (p = w) then peach strict f w c ks' acc
      else match f p with
           | Some d => peach strict f w c ks' (acc ++ opt_list d)
           | None => None
           end
    | Some (AVal _) => peach strict f w c ks' acc
    | None => if strict then None else peach strict f w c ks' acc
    end
  end.
Definition pcompute_lop (n : nat) g (o w : oid) (lhs : Jac L) : option (option (Jac L)) :=
  match psliced L n g o w with
  | Some d => Some (jmul L lhs <$> d)
  | None => None
  end.
Definition lop_arm (n : nat) g (rec : oid → Jac L → option (option (Jac L))) (o : oid) (lhs : Jac L) (p : oid) :=
  match pcompute_lop n g o p lhs with
  | Some (Some l') => rec p l'
  | Some None => Some None
  | None => None
  end.
Fixpoint plop (n : nat) g (o w : oid) (lhs : Jac L) : option (option (Jac L)) :=
  match n with
  | O => None
  | S n' =>
    match g !! o with
    | None => None
    | Some c =>
      match pcompute_lop n' g o w lhs with
      | Some d =>
        match peach true (lop_arm n' g (λ p l, plop n' g p w l) o lhs) w c (c_dt L c) (opt_list d) with
        | Some l => Some (reduce_jac L l)
        | None => None
        end
      | None => None
      end
    end
  end.
Definition lmult_arm (n : nat) g (rec : oid → Jac L → option (option (Jac L))) (o w : oid) (lhs : Jac L) (p : oid) :=
  match is_dr_wrt L n g p w with
  | Some true => lop_arm n g rec o lhs p
  | Some false => Some None
  | None => None
  end.
Fixpoint plmult (n : nat) g (o w : oid) (lhs : Jac L) : option (option (Jac L)) :=
  match n with
  | O => None
  | S n' =>
    match g !! o with
    | None => None
    | Some c =>
      match pcompute_lop n' g o w lhs with
      | Some d =>
        match peach true (lmult_arm n' g (λ p l, plmult n' g p w l) o w lhs) w c (c_dt L c) (opt_list d) with
        | Some l => Some (reduce_jac L l)
        | None => None
        end
      | None => None
      end
    end
  end.
Definition rev_arm (n : nat) g (o w : oid) (p : oid) :=
  match psliced L n g o p with
  | Some (Some l') => plmult n g p w l'
  | Some None => Some None
  | None => None
  end.
Definition prev (n : nat) g (o w : oid) : option (option (Jac L)) :=
  match g !! o with
  | None => None
  | Some c =>
    match psliced L n g o w with
    | Some d =>
      match peach false (rev_arm n g o w) w c (c_dt L c) (opt_list d) with
      | Some l => Some (reduce_jac L l)
      | None => None
      end
    | None => None
    end
  end.

(* ------------------------------------------------------------------ *)
(** More stack does not change an answer. *)
Lemma peach_mono b f1 f2 w c ks : (∀ p v, f1 p = Some v → f2 p = Some v) → ∀ acc r,
  peach b f1 w c ks acc = Some r → peach b f2 w c ks acc = Some r.
Proof.
  intros Hf. induction ks as [|k ks IH]; intros acc r; simpl; [done|].
  destruct (c_attr L c !! k) as [[t|p]|]; [apply IH| |destruct b; [done|apply IH]].
  destruct (decide (p = w)); [apply IH|]. destruct (f1 p) as [d|] eqn:E; [|done].
  rewrite (Hf _ _ E). apply IH.
Qed.
Lemma pcompute_lop_monoP g o w lhs : mono (λ n, pcompute_lop n g o w lhs).
Proof.
  intros m1 m2 v Hle. unfold pcompute_lop. destruct (psliced L m1 g o w) as [d|] eqn:E; [|done].
  by rewrite (psliced_mono L m1 m2 _ _ _ d).
Qed.
Lemma lop_arm_mono m1 m2 g rec1 rec2 o lhs p v : m1 ≤ m2 →
  (∀ q l u, rec1 q l = Some u → rec2 q l = Some u) →
  lop_arm m1 g rec1 o lhs p = Some v → lop_arm m2 g rec2 o lhs p = Some v.
Proof.
  intros Hle Hr. unfold lop_arm. destruct (pcompute_lop m1 g o p lhs) as [d|] eqn:E; [|done].
  rewrite (pcompute_lop_monoP g o p lhs m1 m2 d Hle E). destruct d; [|done]. apply Hr.
Qed.
Lemma plop_monoP g w : ∀ o lhs, mono (λ n, plop n g o w lhs).
Proof.
  intros o lhs m1. revert o lhs. induction m1 as [|m1 IH]; intros o lhs m2 v Hle; [done|].
  destruct m2 as [|m2]; [lia|]. simpl. destruct (g !! o) as [c|]; [|done].
  destruct (pcompute_lop m1 g o w lhs) as [d|] eqn:E; [|done].
  rewrite (pcompute_lop_monoP g o w lhs m1 m2 d) by (done || lia).
  destruct (peach true (lop_arm m1 g _ o lhs) _ _ _ _) as [l|] eqn:El; [|done].
  intros [= <-].
  assert (El2 : peach true (lop_arm m2 g (λ p l, plop m2 g p w l) o lhs) w c (c_dt L c) (opt_list d) = Some l).
  { eapply peach_mono; [|exact El]. intros p u. apply lop_arm_mono; [lia|].
    intros q l' u' Hq. apply (IH q l'); [lia|done]. }
  by rewrite El2.
Qed.
Lemma is_dr_wrt_monoP g w : ∀ o, mono (λ n, is_dr_wrt L n g o w).
Proof.
  intros o m1. revert o. induction m1 as [|m1 IH]; intros o m2 v Hle; [done|].
  destruct m2 as [|m2]; [lia|]. simpl. destruct (g !! o) as [c|]; [|done].
  destruct (is_base _ _); [done|]. destruct (decide _); [done|].
  intros (bs & Hbs & ->)%fmap_Some. apply fmap_Some. exists bs. split; [|done].
  apply mapM_Some_2. apply mapM_Some_1 in Hbs. eapply Forall2_impl; [exact Hbs|]. simpl.
  intros x y. apply (IH x). lia.
Qed.
Lemma lmult_arm_mono m1 m2 g rec1 rec2 o w lhs p v : m1 ≤ m2 →
  (∀ q l u, rec1 q l = Some u → rec2 q l = Some u) →
  lmult_arm m1 g rec1 o w lhs p = Some v → lmult_arm m2 g rec2 o w lhs p = Some v.
Proof.
  intros Hle Hr. unfold lmult_arm. destruct (is_dr_wrt L m1 g p w) as [b|] eqn:E; [|done].
  rewrite (is_dr_wrt_monoP g w p m1 m2 b Hle E). destruct b; [|done]. by apply lop_arm_mono.
Qed.
Lemma plmult_monoP g w : ∀ o lhs, mono (λ n, plmult n g o w lhs).
Proof.
  intros o lhs m1. revert o lhs. induction m1 as [|m1 IH]; intros o lhs m2 v Hle; [done|].
  destruct m2 as [|m2]; [lia|]. simpl. destruct (g !! o) as [c|]; [|done].
  destruct (pcompute_lop m1 g o w lhs) as [d|] eqn:E; [|done].
  rewrite (pcompute_lop_monoP g o w lhs m1 m2 d) by (done || lia).
  destruct (peach true (lmult_arm m1 g _ o w lhs) _ _ _ _) as [l|] eqn:El; [|done].
  intros [= <-].
  assert (El2 : peach true (lmult_arm m2 g (λ p l, plmult m2 g p w l) o w lhs) w c (c_dt L c) (opt_list d) = Some l).
  { eapply peach_mono; [|exact El]. intros p u. apply lmult_arm_mono; [lia|].
    intros q l' u' Hq. apply (IH q l'); [lia|done]. }
  by rewrite El2.
Qed.

(* ------------------------------------------------------------------ *)
(** The engine agrees with the cache-free versions. *)
Lemma peach_monoP b (f : nat → oid → option (option (Jac L))) w c ks acc :
  (∀ p, mono (λ n, f n p)) → mono (λ n, peach b (f n) w c ks acc).
Proof. intros Hf m1 m2 v Hle. apply peach_mono. intros p u. by apply Hf. Qed.

Lemma each_good V g m b (f : oid → state → state * option (option (Jac L)))
    (pf : nat → oid → option (option (Jac L))) w c ks :
  (∀ p, mono (λ x, pf x p)) →
  (∀ p st, rinv L all (st_h st) → cores (st_h st) = g → good V m st (f p st) (λ x, pf x p)) →
  ∀ acc st, rinv L all (st_h st) → cores (st_h st) = g →
  good V m st (each L b f w c ks acc st) (λ x, peach b (pf x) w c ks acc).
Proof.
  intros Hm Hf. induction ks as [|k ks IH]; intros acc st Hi Hg; simpl; [by apply good_ret|].
  destruct (c_attr L c !! k) as [[t|p]|].
  - by apply IH.
  - destruct (decide (p = w)); [by apply IH|].
    apply (good_bind L all V m st _ (λ x, pf x p) (λ st1 d, each L b f w c ks (acc ++ opt_list d) st1)
      (λ x d, peach b (pf x) w c ks (acc ++ opt_list d))).
    + apply Hm.
    + intros d. by apply peach_monoP.
    + by apply Hf.
    + intros st1 d Hi1 Hk1. apply IH; [done|]. by rewrite (kept_cores L _ _ Hk1).
  - destruct b; [by apply good_fail|by apply IH].
Qed.

Lemma compute_lop_good g m o w lhs st : rinv L all (st_h st) → cores (st_h st) = g →
  good True m st (compute_lop L m o w lhs st) (λ x, pcompute_lop x g o w lhs).
Proof.
  intros Hi Hg. unfold compute_lop, pcompute_lop.
  apply (good_bind L all True m st _ (λ x, psliced L x g o w) (λ st' d, (st', Some (jmul L lhs <$> d)))
    (λ _ d, Some (jmul L lhs <$> d))).
  - apply psliced_monoP.
  - intros d. apply mono_const.
  - by apply sliced_good.
  - intros st' d Hi' _. by apply good_ret.
Qed.

(** A step that uses less stack. *)
Lemma good_up {A} V m st (out : state * option A) (P Q : nat → option A) :
  (∀ x, Q (S x) = P x) → Q 0 = None → good V m st out P → good V (S m) st out Q.
Proof.
  intros E E0 (Hi & Hk & HV). split_and!; [done..|]. intros Hv. destruct (HV Hv) as [H1 H2]. split.
  - intros v Hv'. destruct (H1 v Hv') as [x Hx]. exists (S x). by rewrite E.
  - intros v. rewrite E. apply H2.
Qed.

Lemma lop_arm_good g m o lhs p (f : oid → Jac L → state → state * option (option (Jac L)))
    (pf : nat → oid → Jac L → option (option (Jac L))) st :
  (∀ q l, mono (λ x, pf x q l)) →
  (∀ q l st, rinv L all (st_h st) → cores (st_h st) = g → good True m st (f q l st) (λ x, pf x q l)) →
  rinv L all (st_h st) → cores (st_h st) = g →
  good True m st
    (match compute_lop L m o p lhs st with
     | (st', Some (Some l')) => f p l' st'
     | (st', Some None) => (st', Some None)
     | (st', None) => (st', None)
     end) (λ x, lop_arm x g (pf x) o lhs p).
Proof.
  intros Hm Hf Hi Hg.
  set (k := λ (st' : state) (d : option (Jac L)), match d with Some l' => f p l' st' | None => (st', Some None) end).
  set (q := λ (x : nat) (d : option (Jac L)), match d with Some l' => pf x p l' | None => Some None end).
  match goal with |- good _ _ _ ?out _ =>
    replace out with (match compute_lop L m o p lhs st with (st', Some d) => k st' d | (st', None) => (st', None) end)
      by (destruct (compute_lop L m o p lhs st) as [? [[?|]|]]; done) end.
  apply (good_ext L all True m st _ (λ x, match pcompute_lop x g o p lhs with Some d => q x d | None => None end)).
  { intros x. unfold lop_arm, q. by destruct (pcompute_lop x g o p lhs) as [[|]|]. }
  apply good_bind.
  - apply pcompute_lop_monoP.
  - intros [l'|]; simpl; [apply Hm|apply mono_const].
  - by apply compute_lop_good.
  - intros st' [l'|] Hi' Hk'; simpl; [|by apply good_ret]. apply Hf; [done|]. by rewrite (kept_cores L _ _ Hk').
Qed.
Lemma lop_arm_monoP g o lhs p (pf : nat → oid → Jac L → option (option (Jac L))) :
  (∀ q l, mono (λ x, pf x q l)) → mono (λ x, lop_arm x g (pf x) o lhs p).
Proof. intros Hm m1 m2 v Hle. apply lop_arm_mono; [done|]. intros q l u. by apply Hm. Qed.

(** Both recursions have this shape. *)
Lemma rec_good g m o w lhs st n (f : oid → state → state * option (option (Jac L)))
    (pf : nat → oid → option (option (Jac L))) :
  (∀ p, mono (λ x, pf x p)) →
  (∀ p st, rinv L all (st_h st) → cores (st_h st) = g → good True m st (f p st) (λ x, pf x p)) →
  rinv L all (st_h st) → cores (st_h st) = g → st_h st !! o = Some n →
  good True m st
    (match compute_lop L m o w lhs (fire L o st) with
     | (st1, Some d) =>
       match each L true f w (n_core L n) (c_dt L (n_core L n)) (opt_list d) st1 with
       | (st2, Some l) => (st2, Some (reduce_jac L l))
       | (st2, None) => (st2, None)
       end
     | (st1, None) => (st1, None)
     end)
    (λ x, match pcompute_lop x g o w lhs with
          | Some d => match peach true (pf x) w (n_core L n) (c_dt L (n_core L n)) (opt_list d) with
                      | Some l => Some (reduce_jac L l)
                      | None => None
                      end
          | None => None
          end).
Proof.
  intros Hm Hf Hi Hg Ho. eapply good_from; [apply (fire_kept L o)|].
  pose proof (kept_fire_cores L o st g Hg) as Hg1. apply fire_rinv with (o := o) in Hi.
  generalize dependent (fire L o st). clear st Ho Hg. intros st Hi Hg.
  apply (good_bind L all True m st _ (λ x, pcompute_lop x g o w lhs)
    (λ st1 d, match each L true f w (n_core L n) (c_dt L (n_core L n)) (opt_list d) st1 with
       | (st2, Some l) => (st2, Some (reduce_jac L l)) | (st2, None) => (st2, None) end)
    (λ x d, match peach true (pf x) w (n_core L n) (c_dt L (n_core L n)) (opt_list d) with
       | Some l => Some (reduce_jac L l) | None => None end)).
  - apply pcompute_lop_monoP.
  - intros d. apply (mono_bind _ (λ _ l, Some (reduce_jac L l))); [by apply peach_monoP|intros l; apply mono_const].
  - by apply compute_lop_good.
  - intros st' d Hi' Hk'. assert (Hg' : cores (st_h st') = g) by (by rewrite (kept_cores L _ _ Hk')).
    apply (good_bind L all True m st' _ (λ x, peach true (pf x) w (n_core L n) (c_dt L (n_core L n)) (opt_list d))
      (λ st2 l, (st2, Some (reduce_jac L l))) (λ _ l, Some (reduce_jac L l))).
    + by apply peach_monoP.
    + intros l. apply mono_const.
    + by apply (each_good True g).
    + intros st2 l Hi2 _. by apply good_ret.
Qed.

Lemma lop_good g w m : ∀ o lhs st, rinv L all (st_h st) → cores (st_h st) = g →
  good True m st (lop L m o w lhs st) (λ x, plop x g o w lhs).
Proof.
  induction m as [|m IH]; intros o lhs st Hi Hg.
  { simpl. split_and!; [done|apply kept_refl|]. done. }
  simpl. destruct (st_h st !! o) as [n|] eqn:Ho.
  2:{ split_and!; [done|apply kept_refl|]. intros _. simpl. split; [done|].
      rewrite <- Hg, cores_lookup, Ho. done. }
  assert (Hgo : g !! o = Some (n_core L n)) by (rewrite <- Hg; by apply cores_Some).
  pose proof (rec_good g m o w lhs st n
    (λ p st, match compute_lop L m o p lhs st with
            | (st', Some (Some l')) => lop L m p w l' st'
            | (st', Some None) => (st', Some None)
            | (st', None) => (st', None)
            end) (λ x p, lop_arm x g (λ q l, plop x g q w l) o lhs p)) as H.
  eapply (good_up True m st _ _ (λ x, plop x g o w lhs)); [|done|apply H]; try done.
  - intros x. simpl. by rewrite Hgo.
  - intros p. apply (lop_arm_monoP g o lhs p (λ x q l, plop x g q w l)). intros q l. apply plop_monoP.
  - intros p st' Hi' Hg'.
    apply (lop_arm_good g m o lhs p (λ q l st, lop L m q w l st) (λ x q l, plop x g q w l));
      [intros q l; apply plop_monoP|intros q l st2 Hi2 Hg2; by apply IH|done|done].
Qed.

Lemma lmult_arm_good g m o w lhs p (f : oid → Jac L → state → state * option (option (Jac L)))
    (pf : nat → oid → Jac L → option (option (Jac L))) st :
  (∀ q l, mono (λ x, pf x q l)) →
  (∀ q l st, rinv L all (st_h st) → cores (st_h st) = g → good True m st (f q l st) (λ x, pf x q l)) →
  rinv L all (st_h st) → cores (st_h st) = g →
  good True m st
    (match is_dr_wrt L m (cores (st_h st)) p w with
     | Some true =>
       match compute_lop L m o p lhs st with
       | (st', Some (Some l')) => f p l' st'
       | (st', Some None) => (st', Some None)
       | (st', None) => (st', None)
       end
     | Some false => (st, Some None)
     | None => (st, None)
     end) (λ x, lmult_arm x g (pf x) o w lhs p).
Proof.
  intros Hm Hf Hi Hg. rewrite Hg. unfold lmult_arm.
  destruct (is_dr_wrt L m g p w) as [b|] eqn:Eb.
  2:{ split_and!; [done|apply kept_refl|]. intros _. simpl. split; [done|]. by rewrite Eb. }
  assert (Hd : ∀ x b', is_dr_wrt L x g p w = Some b' → b' = b).
  { intros x b' H. assert (H1 : is_dr_wrt L (x `max` m) g p w = Some b') by (apply (is_dr_wrt_monoP g w p x); [lia|done]).
    assert (H2 : is_dr_wrt L (x `max` m) g p w = Some b) by (apply (is_dr_wrt_monoP g w p m); [lia|done]). congruence. }
  destruct b.
  - destruct (lop_arm_good g m o lhs p f pf st Hm Hf Hi Hg) as (H1 & H2 & H3). split_and!; [done..|].
    intros _. destruct (H3 I) as [S1 C1]. split.
    + intros v Hv. destruct (S1 v Hv) as [x Hx]. exists (x `max` m).
      rewrite (is_dr_wrt_monoP g w p m (x `max` m) true) by (done || lia).
      eapply (lop_arm_monoP g o lhs p pf Hm x); [lia|done].
    + intros v. rewrite Eb. apply C1.
  - split_and!; [done|apply kept_refl|]. intros _. simpl. split.
    + intros v [= <-]. exists m. by rewrite Eb.
    + intros v. by rewrite Eb.
Qed.

Lemma lmult_good g w m : ∀ o lhs st, rinv L all (st_h st) → cores (st_h st) = g →
  good True m st (lmult_wrt L m o w lhs st) (λ x, plmult x g o w lhs).
Proof.
  induction m as [|m IH]; intros o lhs st Hi Hg.
  { simpl. split_and!; [done|apply kept_refl|]. done. }
  simpl. destruct (st_h st !! o) as [n|] eqn:Ho.
  2:{ split_and!; [done|apply kept_refl|]. intros _. simpl. split; [done|].
      rewrite <- Hg, cores_lookup, Ho. done. }
  assert (Hgo : g !! o = Some (n_core L n)) by (rewrite <- Hg; by apply cores_Some).
  pose proof (rec_good g m o w lhs st n
    (λ p st, match is_dr_wrt L m (cores (st_h st)) p w with
      | Some true => match compute_lop L m o p lhs st with
            | (st', Some (Some l')) => lmult_wrt L m p w l' st'
            | (st', Some None) => (st', Some None)
            | (st', None) => (st', None)
            end
      | Some false => (st, Some None)
      | None => (st, None)
      end) (λ x p, lmult_arm x g (λ q l, plmult x g q w l) o w lhs p)) as H.
  eapply (good_up True m st _ _ (λ x, plmult x g o w lhs)); [|done|apply H]; try done.
  - intros x. simpl. by rewrite Hgo.
  - intros p m1 m2 v Hle. apply lmult_arm_mono; [done|]. intros q l u. by apply plmult_monoP.
  - intros p st' Hi' Hg'.
    apply (lmult_arm_good g m o w lhs p (λ q l st, lmult_wrt L m q w l st) (λ x q l, plmult x g q w l));
      [intros q l; apply plmult_monoP|intros q l st2 Hi2 Hg2; by apply IH|done|done].
Qed.

(* ------------------------------------------------------------------ *)
(** No dependence, no derivative. *)
Lemma runp_returns {R} ask (P : R → Prop) (p : prog (Arr L) R) r : returns L P p → runp L ask p = Some r → P r.
Proof.
  induction p as [r'| |q f IH]; simpl; intros Hp Hr; [by injection Hr as <-|done|].
  destruct (ask q) as [v|]; [|done]. by apply (IH v).
Qed.
Lemma matches_nil c w : (∀ k, k ∈ c_dt L c → c_attr L c !! k ≠ Some (ARef w)) → matches L c w = [].
Proof.
  intros H. unfold matches. destruct (filter _ (c_dt L c)) as [|k ks] eqn:E; [done|].
  assert (Hk : k ∈ filter (λ k, is_ref L w (c_attr L c !! k)) (c_dt L c)) by (rewrite E; by left).
  apply elem_of_list_filter in Hk as [Hr Hk]. exfalso. apply (H k Hk). unfold is_ref in Hr.
  destruct (c_attr L c !! k) as [[t|p]|]; try done. apply Is_true_eq_true, bool_decide_eq_true in Hr as ->. done.
Qed.
Lemma pdirect_phantom n g o w j : local_derivatives L → pdirect L n g o w = Some (Some j) →
  points g o w ∨ (o = w ∧ ∃ c, g !! o = Some c ∧ is_base L (c_cls L c) = true).
Proof.
  intros HL H. unfold pdirect in H. destruct (g !! o) as [c|] eqn:Hc; [|done].
  destruct (matches L c w) as [|k ks] eqn:Em.
  - destruct (decide (o = w)) as [Eow|Hne].
    + destruct (is_base L (c_cls L c)) eqn:Hb; [right; eauto|].
      apply (runp_returns _ (eq None)) in H; [done|]. by apply HL.
    + apply (runp_returns _ (eq None)) in H; [done|]. apply HL. by rewrite bool_decide_eq_true.
  - left. assert (Hk : k ∈ matches L c w) by (rewrite Em; by left).
    unfold matches in Hk. apply elem_of_list_filter in Hk as [Hr Hk]. exists c, k. split_and!; try done.
    unfold is_ref in Hr. destruct (c_attr L c !! k) as [[t|p]|]; try done.
    apply Is_true_eq_true, bool_decide_eq_true in Hr as ->. done.
Qed.
Lemma pdr_loop_some rd n g o w c ks : ∀ acc l, pdr_loop L rd n g o w c ks acc = Some l →
  l = acc ∨ ∃ k p j, k ∈ ks ∧ c_attr L c !! k = Some (ARef p) ∧ p ≠ w ∧ rd p = Some (Some j).
Proof.
  induction ks as [|k ks IH]; intros acc l; simpl; [intros [= <-]; by left|].
  destruct (c_attr L c !! k) as [[t|p]|] eqn:Ek.
  - intros H. destruct (IH _ _ H) as [?|(k' & p' & j & ? & ?)]; [by left|right].
    exists k', p', j. split; [by right|done].
  - destruct (decide (p = w)).
    + intros H. destruct (IH _ _ H) as [?|(k' & p' & j & ? & ?)]; [by left|right].
      exists k', p', j. split; [by right|done].
    + destruct (rd p) as [[j2|]|] eqn:Ep; [|intros H|done].
      * intros _. right. exists k, p, j2. split_and!; try done. by left.
      * destruct (IH _ _ H) as [?|(k' & p' & j & ? & ?)]; [by left|right].
        exists k', p', j. split; [by right|done].
  - intros H. destruct (IH _ _ H) as [?|(k' & p' & j & ? & ?)]; [by left|right].
    exists k', p', j. split; [by right|done].
Qed.
Lemma drval_depends n g o w j : local_derivatives L → not_view L g w → drval L n g o w = Some (Some j) →
  tc (points g) o w ∨ (o = w ∧ ∃ c, g !! o = Some c ∧ is_base L (c_cls L c) = true).
Proof.
  intros HL Hw. revert o j. induction n as [|n IH]; intros o j H; [done|]. simpl in H.
  destruct (g !! o) as [c|] eqn:Hc; [|done].
  destruct (psliced L n g o w) as [d|] eqn:Ed; [|done].
  destruct (pdr_loop L _ n g o w c (c_dt L c) (opt_list d)) as [l|] eqn:El; [|done].
  apply pdr_loop_some in El as [->|(k & p & j2 & Hk & Hp & Hne & Hj2)].
  - destruct d as [d|]; [|done]. rewrite psliced_not_view in Ed by done.
    destruct (pdirect L n g o w) as [[j'|]|] eqn:Ej; [|by destruct n|done].
    destruct (pdirect_phantom _ _ _ _ _ HL Ej) as [?|[-> (c' & Hc' & Hb)]]; [left; by apply tc_once|].
    right. rewrite Hc in Hc'. injection Hc' as <-. eauto.
  - left. assert (Hop : points g o p) by (by exists c, k).
    destruct (IH p j2 Hj2) as [Ht|[E _]]; [|done]. by eapply tc_l.
Qed.
Lemma dr_is_dr_wrt n m g o w j b : well_formed L g → local_derivatives L → not_view L g w →
  drval L n g o w = Some (Some j) → is_dr_wrt L m g o w = Some b → b = true.
Proof.
  intros Hwf HL Hw Hd Hb. apply (is_dr_wrt_sound L m g o w b Hwf Hb).
  destruct (drval_depends _ _ _ _ _ HL Hw Hd) as [?|[-> (c & Hc & Hbase)]]; [by right|left; eauto].
Qed.

(* ------------------------------------------------------------------ *)
(** The two directions agree. *)
Section laws.
Context (HJ : jac_laws L).

Lemma foldl_dist a l : ∀ b, jmul L a (foldl (jadd L) b l) = foldl (jadd L) (jmul L a b) (jmul L a <$> l).
Proof.
  induction l as [|c l IH]; intros b; [done|]. simpl. rewrite IH. by rewrite (jl_dist L HJ).
Qed.
Lemma reduce_dist a l : reduce_jac L (jmul L a <$> l) = jmul L a <$> reduce_jac L l.
Proof. destruct l as [|b l]; [done|]. simpl. by rewrite foldl_dist. Qed.

Lemma psliced_det n m g o w d d' : psliced L n g o w = Some d → psliced L m g o w = Some d' → d = d'.
Proof.
  intros H H'. apply (psliced_mono L n (n `max` m)) in H; [|lia]. apply (psliced_mono L m (n `max` m)) in H'; [|lia].
  congruence.
Qed.

(** [fw p j]: forward mode finds j for the operand p; [lhs]: the factor on the left,
    none in dr_wrt itself. *)
Definition lmul (lhs : option (Jac L)) (j : Jac L) : Jac L :=
  match lhs with Some a => jmul L a j | None => j end.
Lemma loop_agree b m g o w c (f rd : oid → option (option (Jac L))) lhs ks :
  (∀ p d x j2, p ≠ w → f p = Some x → psliced L m g o p = Some d → rd p = Some j2 →
     (∃ k, k ∈ ks ∧ c_attr L c !! k = Some (ARef p)) →
     x = match d, j2 with Some s, Some j => Some (lmul lhs (jmul L s j)) | _, _ => None end) →
  (∀ p x, p ≠ w → f p = Some x → rd p = Some None → x = None) →
  ∀ acc l l', peach b f w c ks (lmul lhs <$> acc) = Some l → pdr_loop L rd m g o w c ks acc = Some l' →
  l = lmul lhs <$> l'.
Proof.
  induction ks as [|k ks IH]; intros Hf Hn acc l l'; simpl; [by intros [= <-] [= <-]|].
  assert (Hf' : ∀ p d x j2, p ≠ w → f p = Some x → psliced L m g o p = Some d → rd p = Some j2 →
     (∃ k, k ∈ ks ∧ c_attr L c !! k = Some (ARef p)) →
     x = match d, j2 with Some s, Some j => Some (lmul lhs (jmul L s j)) | _, _ => None end).
  { intros p d x j2 H1 H2 H3 H4 (k' & ? & ?). apply (Hf p d x j2); try done. exists k'. split; [by right|done]. }
  specialize (IH Hf' Hn).
  destruct (c_attr L c !! k) as [[t|p]|] eqn:Ek.
  - apply IH.
  - destruct (decide (p = w)) as [|Hne]; [apply IH|].
    destruct (f p) as [x|] eqn:Efp; [|done]. destruct (rd p) as [[j2|]|] eqn:Erd; [| |done].
    + destruct (psliced L m g o p) as [d|] eqn:Ed; [|done].
      rewrite (Hf p d x (Some j2) Hne Efp Ed Erd) by (exists k; split; [by left|done]).
      destruct d as [s|].
      * intros H1 H2. apply (IH (acc ++ [jmul L s j2])); [|done]. rewrite fmap_app. done.
      * simpl. rewrite app_nil_r. apply IH.
    + rewrite (Hn p x Hne Efp Erd). simpl. rewrite app_nil_r. apply IH.
  - destruct b; [done|]. apply IH.
Qed.

Lemma plop_drval g w n : ∀ m o lhs x j, plop n g o w lhs = Some x → drval L m g o w = Some j →
  x = jmul L lhs <$> j.
Proof.
  induction n as [|n IH]; intros m o lhs x j Hx Hj; [done|]. destruct m as [|m]; [done|].
  simpl in Hx, Hj. destruct (g !! o) as [c|]; [|done]. unfold pcompute_lop in Hx.
  destruct (psliced L n g o w) as [d|] eqn:Ed; [|done].
  destruct (psliced L m g o w) as [d'|] eqn:Ed'; [|done].
  rewrite <- (psliced_det _ _ _ _ _ _ _ Ed Ed') in *. clear d' Ed'.
  destruct (peach true _ w c (c_dt L c) _) as [l|] eqn:El; [|done].
  destruct (pdr_loop L _ m g o w c (c_dt L c) _) as [l'|] eqn:El'; [|done].
  injection Hx as <-. injection Hj as <-.
  rewrite <- reduce_dist. f_equal.
  apply (loop_agree true m g o w c (lop_arm n g (λ p l, plop n g p w l) o lhs) (λ p, drval L m g p w)
    (Some lhs) (c_dt L c)) with (acc := opt_list d); [| |by destruct d|done].
  - intros p s y j2 _ Hy Hs Hj2 _. unfold lop_arm, pcompute_lop in Hy.
    destruct (psliced L n g o p) as [s'|] eqn:Es; [|done]. rewrite (psliced_det _ _ _ _ _ _ _ Es Hs) in Hy.
    destruct s as [s|]; simpl in Hy; [|by injection Hy as <-].
    rewrite (IH m p _ y j2 Hy Hj2). destruct j2; simpl; [|done]. by rewrite (jl_assoc L HJ).
  - intros p y _ Hy Hj2. unfold lop_arm, pcompute_lop in Hy.
    destruct (psliced L n g o p) as [[s|]|]; simpl in Hy; [|by injection Hy as <-|done].
    by rewrite (IH m p _ y None Hy Hj2).
Qed.

Lemma plmult_drval g w n : well_formed L g → local_derivatives L → not_view L g w →
  ∀ m o lhs x j, plmult n g o w lhs = Some x → drval L m g o w = Some j →
  x = jmul L lhs <$> j.
Proof.
  intros Hwf HL Hw. induction n as [|n IH]; intros m o lhs x j Hx Hj; [done|]. destruct m as [|m]; [done|].
  simpl in Hx, Hj. destruct (g !! o) as [c|]; [|done]. unfold pcompute_lop in Hx.
  destruct (psliced L n g o w) as [d|] eqn:Ed; [|done].
  destruct (psliced L m g o w) as [d'|] eqn:Ed'; [|done].
  rewrite <- (psliced_det _ _ _ _ _ _ _ Ed Ed') in *. clear d' Ed'.
  destruct (peach true _ w c (c_dt L c) _) as [l|] eqn:El; [|done].
  destruct (pdr_loop L _ m g o w c (c_dt L c) _) as [l'|] eqn:El'; [|done].
  injection Hx as <-. injection Hj as <-.
  rewrite <- reduce_dist. f_equal.
  apply (loop_agree true m g o w c (lmult_arm n g (λ p l, plmult n g p w l) o w lhs) (λ p, drval L m g p w)
    (Some lhs) (c_dt L c)) with (acc := opt_list d); [| |by destruct d|done].
  - intros p s y j2 _ Hy Hs Hj2 _. unfold lmult_arm in Hy.
    destruct (is_dr_wrt L n g p w) as [b|] eqn:Eb; [|done]. destruct b.
    + unfold lop_arm, pcompute_lop in Hy.
      destruct (psliced L n g o p) as [s'|] eqn:Es; [|done]. rewrite (psliced_det _ _ _ _ _ _ _ Es Hs) in Hy.
      destruct s as [s|]; simpl in Hy; [|by injection Hy as <-].
      rewrite (IH m p _ y j2 Hy Hj2). destruct j2; simpl; [|done]. by rewrite (jl_assoc L HJ).
    + destruct j2 as [j2|]; [|injection Hy as <-; by destruct s].
      by specialize (dr_is_dr_wrt m n g p w j2 false Hwf HL Hw Hj2 Eb).
  - intros p y _ Hy Hj2. unfold lmult_arm in Hy.
    destruct (is_dr_wrt L n g p w) as [[|]|]; [|by injection Hy as <-|done]. unfold lop_arm, pcompute_lop in Hy.
    destruct (psliced L n g o p) as [[s|]|]; simpl in Hy; [|by injection Hy as <-|done].
    by rewrite (IH m p _ y None Hy Hj2).
Qed.

Lemma prev_drval g w n : well_formed L g → local_derivatives L → not_view L g w →
  ∀ m o x j, prev n g o w = Some x → drval L m g o w = Some j → x = j.
Proof.
  intros Hwf HL Hw m o x j Hx Hj. destruct m as [|m]; [done|]. unfold prev in Hx.
  simpl in Hj. destruct (g !! o) as [c|]; [|done].
  destruct (psliced L n g o w) as [d|] eqn:Ed; [|done].
  destruct (psliced L m g o w) as [d'|] eqn:Ed'; [|done].
  rewrite <- (psliced_det _ _ _ _ _ _ _ Ed Ed') in *. clear d' Ed'.
  destruct (peach false _ w c (c_dt L c) _) as [l|] eqn:El; [|done].
  destruct (pdr_loop L _ m g o w c (c_dt L c) _) as [l'|] eqn:El'; [|done].
  injection Hx as <-. injection Hj as <-. f_equal.
  assert (E : l = lmul None <$> l').
  { apply (loop_agree false m g o w c (rev_arm n g o w) (λ p, drval L m g p w)
      None (c_dt L c)) with (acc := opt_list d); [| |by destruct d|done].
    - intros p s y j2 _ Hy Hs Hj2 _. unfold rev_arm in Hy.
      destruct (psliced L n g o p) as [s'|] eqn:Es; [|done]. rewrite (psliced_det _ _ _ _ _ _ _ Es Hs) in Hy.
      destruct s as [s|]; [|by injection Hy as <-].
      rewrite (plmult_drval g w n Hwf HL Hw m p _ y j2 Hy Hj2). by destruct j2.
    - intros p y _ Hy Hj2. unfold rev_arm in Hy.
      destruct (psliced L n g o p) as [[s|]|]; [|by injection Hy as <-|done].
      by rewrite (plmult_drval g w n Hwf HL Hw m p _ y None Hy Hj2). }
  rewrite E. rewrite <- (list_fmap_id l') at 2. done.
Qed.
End laws.

(* ------------------------------------------------------------------ *)
(** Success. *)
Lemma peach_total b (f : nat → oid → option (option (Jac L))) w c ks :
  (∀ p, mono (λ n, f n p)) → (∀ k, k ∈ ks → is_Some (c_attr L c !! k)) →
  (∀ k p, k ∈ ks → c_attr L c !! k = Some (ARef p) → ∃ n d, f n p = Some d) →
  ∀ acc, ∃ n l, peach b (f n) w c ks acc = Some l.
Proof.
  intros Hm. induction ks as [|k ks IH]; intros Ha Hf acc; [by exists 0, acc|].
  assert (IH' : ∀ acc, ∃ n l, peach b (f n) w c ks acc = Some l).
  { apply IH; [intros k' Hk'; apply Ha; by right|intros k' p Hk'; apply Hf; by right]. }
  simpl. destruct (Ha k) as [a Ea]; [by left|]. rewrite Ea. destruct a as [t|p]; [apply IH'|].
  destruct (decide (p = w)); [apply IH'|].
  destruct (Hf k p) as (n1 & d & E1); [by left|done|]. destruct (IH' (acc ++ opt_list d)) as (n2 & l & E2).
  exists (n1 `max` n2), l. rewrite (Hm p n1 (n1 `max` n2) d) by (done || lia).
  eapply (peach_monoP b f w c ks _ Hm n2); [lia|done].
Qed.
Lemma pdr_loop_total (rd : nat → oid → option (option (Jac L))) g o w c ks :
  (∀ p, mono (λ n, rd n p)) →
  (∀ k p, k ∈ ks → c_attr L c !! k = Some (ARef p) →
     (∃ n j, rd n p = Some j) ∧ (∃ n d, psliced L n g o p = Some d)) →
  ∀ acc, ∃ n l, pdr_loop L (rd n) n g o w c ks acc = Some l.
Proof.
  intros Hm. induction ks as [|k ks IH]; intros Hf acc; [by exists 0, acc|].
  assert (IH' : ∀ acc, ∃ n l, pdr_loop L (rd n) n g o w c ks acc = Some l).
  { apply IH; intros k' p Hk'; apply Hf; by right. }
  simpl. destruct (c_attr L c !! k) as [[t|p]|] eqn:Ea; [apply IH'| |apply IH'].
  destruct (decide (p = w)); [apply IH'|].
  destruct (Hf k p) as [(n1 & j & E1) (n2 & d & E2)]; [by left|done|].
  destruct (IH' (match j, d with Some j2, Some d => acc ++ [jmul L d j2] | _, _ => acc end)) as (n3 & l & E3).
  set (N := n1 `max` n2 `max` n3). exists N, l.
  rewrite (Hm p n1 N j), (psliced_mono L n2 N _ _ _ d) by (done || lia).
  assert (E4 : pdr_loop L (rd N) N g o w c ks (match j, d with Some j2, Some d => acc ++ [jmul L d j2] | _, _ => acc end) = Some l).
  { apply (pdr_loop_monoP L rd g o w c ks Hm _ n3 N l); [lia|exact E3]. }
  destruct j as [j2|]; [|done]. by destruct d.
Qed.

Section total.
Context (g : graph) (w : oid) (Hwf : well_formed L g) (Hac : acyclic (points g)) (Hs : smooth L g) (Hw : w ∈ dom g).
Lemma total_ind (Q : oid → Prop) : (∀ o c, g !! o = Some c → (∀ p, points g o p → Q p) → Q o) → ∀ o, o ∈ dom g → Q o.
Proof.
  intros H o Ho. apply (depth_ind (dom g) (points g) (λ _ o, Q o)) with (n := size (dom g)); try done.
  - intros x y _. by apply points_closed.
  - intros _ x Hx. apply elem_of_dom in Hx as [c Hc]. by apply (H x c).
Qed.
Lemma drval_total : ∀ o, o ∈ dom g → ∃ n j, drval L n g o w = Some j.
Proof.
  apply total_ind. intros o c Hc IH. destruct Hs as [Hat Hsl].
  destruct (Hsl o w) as (n1 & d & E1); [by apply elem_of_dom; eauto|done|].
  destruct (pdr_loop_total (λ x p, drval L x g p w) g o w c (c_dt L c)) with (acc := opt_list d) as (n2 & l & E2).
  { intros p. apply drval_monoP. }
  { intros k p Hk Hp. assert (Hop : points g o p) by (by exists c, k). split; [by apply IH|].
    apply Hsl; [apply elem_of_dom; eauto|by eapply points_closed]. }
  exists (S (n1 `max` n2)), (reduce_jac L l). simpl. rewrite Hc.
  rewrite (psliced_mono L n1 (n1 `max` n2) _ _ _ d) by (done || lia).
  assert (E : pdr_loop L (λ p, drval L (n1 `max` n2) g p w) (n1 `max` n2) g o w c (c_dt L c) (opt_list d) = Some l).
  { apply (pdr_loop_monoP L (λ x p, drval L x g p w) g o w c _ (λ p, drval_monoP L g p w) _ n2); [lia|exact E2]. }
  by rewrite E.
Qed.
Lemma plop_total : ∀ o, o ∈ dom g → ∀ lhs, ∃ n x, plop n g o w lhs = Some x.
Proof.
  apply (total_ind (λ o, ∀ lhs, ∃ n x, plop n g o w lhs = Some x)). intros o c Hc IH lhs. destruct Hs as [Hat Hsl].
  destruct (Hsl o w) as (n1 & d & E1); [by apply elem_of_dom; eauto|done|].
  assert (E1' : pcompute_lop n1 g o w lhs = Some (jmul L lhs <$> d)) by (unfold pcompute_lop; by rewrite E1).
  assert (Hma : ∀ p, mono (λ x, lop_arm x g (λ q l, plop x g q w l) o lhs p)).
  { intros p. apply (lop_arm_monoP g o lhs p (λ x q l, plop x g q w l)). intros q l. apply plop_monoP. }
  destruct (peach_total true (λ x p, lop_arm x g (λ q l, plop x g q w l) o lhs p) w c (c_dt L c))
    with (acc := opt_list (jmul L lhs <$> d)) as (n2 & l & E2); [done| | |].
  { intros k. by apply (Hat o c). }
  { intros k p Hk Hp. assert (Hop : points g o p) by (by exists c, k).
    destruct (Hsl o p) as (n3 & s & E3); [apply elem_of_dom; eauto|by eapply points_closed|].
    assert (E3' : pcompute_lop n3 g o p lhs = Some (jmul L lhs <$> s)) by (unfold pcompute_lop; by rewrite E3).
    destruct s as [s|]; [|exists n3, None; unfold lop_arm; by rewrite E3'].
    destruct (IH p Hop (jmul L lhs s)) as (n4 & x & E4). exists (n3 `max` n4), x. unfold lop_arm.
    rewrite (pcompute_lop_monoP g o p lhs n3 (n3 `max` n4) (jmul L lhs <$> Some s)) by (done || lia).
    simpl. eapply (plop_monoP g w p _ n4); [lia|done]. }
  exists (S (n1 `max` n2)), (reduce_jac L l). simpl. rewrite Hc.
  rewrite (pcompute_lop_monoP g o w lhs n1 (n1 `max` n2) (jmul L lhs <$> d)) by (done || lia).
  assert (E : peach true (lop_arm (n1 `max` n2) g (λ p l0, plop (n1 `max` n2) g p w l0) o lhs) w c (c_dt L c)
    (opt_list (jmul L lhs <$> d)) = Some l).
  { eapply (peach_monoP true (λ x p, lop_arm x g (λ q l, plop x g q w l) o lhs p)); [done| |exact E2]. lia. }
  by rewrite E.
Qed.
End total.

(* ------------------------------------------------------------------ *)
(** After a history. *)
Notation final l := (exec L l (init L)).
Lemma hist_lop l : lib_ok L → valid L l → jac_laws L → ∀ o w lhs,
  (∀ m x j, (lop L m o w lhs (final l)).2 = Some x → dr_denotes L (gexec L l ∅) o w j → x = jmul L lhs <$> j) ∧
  (smooth L (gexec L l ∅) → acyclic (points (gexec L l ∅)) → o ∈ dom (gexec L l ∅) → w ∈ dom (gexec L l ∅) →
     ∃ m j, dr_denotes L (gexec L l ∅) o w j ∧ (lop L m o w lhs (final l)).2 = Some (jmul L lhs <$> j)).
Proof.
  intros Hlib Hv HJ o w lhs. destruct (exec_ok L l Hlib Hv) as [[Hi _ _] Hc].
  assert (Hgood : ∀ m, good True m (final l) (lop L m o w lhs (final l)) (λ x, plop x (gexec L l ∅) o w lhs)).
  { intros m. apply lop_good; [by apply inv_rinv|done]. }
  assert (H1 : ∀ m x j, (lop L m o w lhs (final l)).2 = Some x → dr_denotes L (gexec L l ∅) o w j → x = jmul L lhs <$> j).
  { intros m x j Hx [n Hn]. destruct (Hgood m) as (_ & _ & HV). destruct (HV I) as [S1 _].
    destruct (S1 x Hx) as [n' Hn']. by apply (plop_drval HJ (gexec L l ∅) w n' n o lhs x j). }
  split; [done|]. intros Hs Hac Ho Hw. pose proof (valid_well_formed L l Hlib Hv) as Hwf.
  destruct (plop_total _ w Hwf Hac Hs Hw o Ho lhs) as (m & x & Hx).
  destruct (drval_total _ w Hwf Hac Hs Hw o Ho) as (n & j & Hj).
  exists m, j. split; [by exists n|]. destruct (Hgood m) as (_ & _ & HV). destruct (HV I) as [_ C1].
  specialize (C1 x Hx). rewrite C1. f_equal. apply (H1 m); [done|]. by exists n.
Qed.

(** Reverse mode of dr_wrt. *)
Lemma read_dr_rev_good g m o w st j : jac_laws L → well_formed L g → local_derivatives L → not_view L g w →
  rinv L all (st_h st) → cores (st_h st) = g → dr_denotes L g o w j →
  rinv L all (st_h (read_dr_rev L m o w st).1) ∧ kept (st_h st) (st_h (read_dr_rev L m o w st).1) ∧
  ∀ x, (read_dr_rev L m o w st).2 = Some x → x = j.
Proof.
  intros HJ Hwf HL Hw Hi Hg Hj. unfold read_dr_rev. destruct (st_h st !! o) as [n|] eqn:Ho.
  2:{ split_and!; [done|apply kept_refl|done]. }
  assert (Hgo : g !! o = Some (n_core L n)) by (rewrite <- Hg; by apply cores_Some).
  set (st1 := fire L o st).
  assert (Hi1 : rinv L all (st_h st1)) by (by apply fire_rinv).
  assert (Hk1 : kept (st_h st) (st_h st1)) by apply fire_kept.
  assert (Hg1 : cores (st_h st1) = g) by (by rewrite (kept_cores L _ _ Hk1)).
  destruct (n_dr L n !! w) as [jo|] eqn:Er.
  { split_and!; [done..|]. intros x [= <-]. destruct Hi as [_ Hc]. pose proof Hw as Hw'. rewrite <- Hg in Hw'.
    pose proof (rc_dr _ _ _ Hc o n w jo Ho) as Hd. rewrite Hg in Hd.
    apply (dr_denotes_det L g o w); [|done]. by apply Hd. }
  set (F := λ p st, match sliced L m o p st with
            | (st', Some (Some l')) => lmult_wrt L m p w l' st'
            | (st', Some None) => (st', Some None)
            | (st', None) => (st', None)
            end).
  assert (Hm : ∀ p, mono (λ x, rev_arm x g o w p)).
  { intros p m1 m2 v Hle. unfold rev_arm. destruct (psliced L m1 g o p) as [d|] eqn:E; [|done].
    rewrite (psliced_mono L m1 m2 _ _ _ d) by done. destruct d; [|done]. by apply plmult_monoP. }
  assert (HF : ∀ p st, rinv L all (st_h st) → cores (st_h st) = g → good True m st (F p st) (λ x, rev_arm x g o w p)).
  { intros p st' Hi' Hg'. unfold F.
    set (k := λ (st' : state) (d : option (Jac L)), match d with Some l' => lmult_wrt L m p w l' st' | None => (st', Some None) end).
    set (q := λ (x : nat) (d : option (Jac L)), match d with Some l' => plmult x g p w l' | None => Some None end).
    match goal with |- good _ _ _ ?out _ =>
      replace out with (match sliced L m o p st' with (st', Some d) => k st' d | (st', None) => (st', None) end)
        by (destruct (sliced L m o p st') as [? [[?|]|]]; done) end.
    apply (good_ext L all True m st' _ (λ x, match psliced L x g o p with Some d => q x d | None => None end)).
    { intros x. unfold rev_arm, q. by destruct (psliced L x g o p) as [[|]|]. }
    apply good_bind.
    - apply psliced_monoP.
    - intros [l'|]; simpl; [apply plmult_monoP|apply mono_const].
    - by apply sliced_good.
    - intros st2 [l'|] Hi2 Hk2; simpl; [|by apply good_ret]. apply lmult_good; [done|]. by rewrite (kept_cores L _ _ Hk2). }
  assert (Hr : good True m st1
    (match sliced L m o w st1 with
     | (st2, Some d) => each L false F w (n_core L n) (c_dt L (n_core L n)) (opt_list d) st2
     | (st2, None) => (st2, None) end)
    (λ x, match psliced L x g o w with
          | Some d => peach false (rev_arm x g o w) w (n_core L n) (c_dt L (n_core L n)) (opt_list d)
          | None => None end)).
  { apply (good_bind L all True m st1 _ (λ x, psliced L x g o w)
      (λ st2 d, each L false F w (n_core L n) (c_dt L (n_core L n)) (opt_list d) st2)
      (λ x d, peach false (rev_arm x g o w) w (n_core L n) (c_dt L (n_core L n)) (opt_list d))).
    - apply psliced_monoP.
    - intros d. by apply (peach_monoP false (λ x p, rev_arm x g o w p)).
    - by apply sliced_good.
    - intros st2 d Hi2 Hk2. apply (each_good True g m false F (λ x p, rev_arm x g o w p)); try done.
      by rewrite (kept_cores L _ _ Hk2). }
  destruct Hr as (Hi3 & Hk3 & HV3). destruct (HV3 I) as [S1 _]. clear HV3.
  assert (Hk3' : kept (st_h st) (st_h (match sliced L m o w st1 with
     | (st2, Some d) => each L false F w (n_core L n) (c_dt L (n_core L n)) (opt_list d) st2
     | (st2, None) => (st2, None) end).1)) by (by eapply kept_trans).
  clear Hk3. fold F. destruct (sliced L m o w st1) as [st2 [d|]]; [|done].
  destruct (each L false F w (n_core L n) (c_dt L (n_core L n)) (opt_list d) st2) as [st3 [l|]]; [|done].
  simpl in Hi3, Hk3', S1. destruct (S1 l eq_refl) as [x Hx]. destruct Hj as [nj Hnj].
  assert (Ej : reduce_jac L l = j).
  { apply (prev_drval HJ g w x Hwf HL Hw nj o); [|done]. unfold prev. rewrite Hgo.
    destruct (psliced L x g o w); [|done]. by rewrite Hx. }
  rewrite Ej. destruct (decide (size (n_par L n) = 1)); simpl.
  { split_and!; [done..|]. by intros y [= <-]. }
  assert (Hg3 : cores (st_h st3) = g) by (by rewrite (kept_cores L _ _ Hk3')).
  assert (Hkn : ∀ n', st_h st3 !! o = Some n' → kept_node L n' (map_dr L (<[w := j]>) n')).
  { intros n' Hn'. split; try done. intros w' Hw'. simpl.
    destruct (decide (w' = w)) as [->|]; [rewrite lookup_insert; eauto|by rewrite lookup_insert_ne]. }
  split_and!.
  - apply rinv_alter; [done| |done]. intros n' Hn'. split_and!; simpl; auto. intros w' j' Hj'.
    apply lookup_insert_Some in Hj' as [[<- <-]|[? ?]]; [|by left]. right. split.
    + rewrite <- Hg3 in Hw. destruct Hw as (cw & Hcw & _). apply cores_Some_inv in Hcw as (? & ? & _). eauto.
    + rewrite Hg3. intros _ _. by exists nj.
  - eapply kept_trans; [exact Hk3'|]. by apply kept_alter.
  - by intros y [= <-].
Qed.
Lemma hist_rev l : lib_ok L → valid L l → jac_laws L → local_derivatives L → ∀ m o w j,
  not_view L (gexec L l ∅) w → dr_denotes L (gexec L l ∅) o w j →
  (∀ x, (read_dr_rev L m o w (final l)).2 = Some x → x = j) ∧
  (∀ o' q v, reads L (read_dr_rev L m o w (final l)).1 o' q v ↔ denotes L (gexec L l ∅) o' q v) ∧
  (∀ o' w' v, not_view L (gexec L l ∅) w' →
     reads_dr L (read_dr_rev L m o w (final l)).1 o' w' v ↔ dr_denotes L (gexec L l ∅) o' w' v).
Proof.
  intros Hlib Hv HJ HL m o w j Hw Hj. pose proof (valid_well_formed L l Hlib Hv) as Hwf.
  destruct (exec_ok L l Hlib Hv) as [[Hi _ _] Hc].
  destruct (read_dr_rev_good (gexec L l ∅) m o w (final l) j HJ Hwf HL Hw (inv_rinv L all _ Hi) Hc Hj) as (Hi' & Hk & Hx).
  split; [done|]. rewrite <- Hc, <- (kept_cores L _ _ Hk). split.
  - intros o' q v. by apply (rinv_reads L all).
  - intros o' w' v Hw'. by apply (rinv_reads_dr L all).
Qed.
Lemma hist_no_phantom l : lib_ok L → valid L l → local_derivatives L → ∀ o w j,
  not_view L (gexec L l ∅) w → reads_dr L (final l) o w (Some j) →
  (tc (points (gexec L l ∅)) o w ∨ o = w) ∧ ∀ n b, is_dr_wrt L n (gexec L l ∅) o w = Some b → b = true.
Proof.
  intros Hlib Hv HL o w j Hw Hj. pose proof (valid_well_formed L l Hlib Hv) as Hwf.
  apply (hist_reads_dr L l) in Hj as [n Hn]; try done. split.
  - destruct (drval_depends _ _ _ _ _ HL Hw Hn) as [?|[? _]]; auto.
  - intros m b. by apply (dr_is_dr_wrt n m _ o w j b).
Qed.
Lemma hist_no_dependence l : lib_ok L → valid L l → local_derivatives L → ∀ o w j,
  not_view L (gexec L l ∅) w → o ≠ w → ¬ tc (points (gexec L l ∅)) o w → reads_dr L (final l) o w j → j = None.
Proof.
  intros Hlib Hv HL o w [j|] Hw Hne Ht Hj; [|done].
  destruct (hist_no_phantom l Hlib Hv HL o w j Hw Hj) as [[?|?] _]; done.
Qed.
End thms.
