(** Proofs about groups. *)
From Coq Require Import Reals Lra.
From stdpp Require Import gmap list list_numbers relations.
From Verif Require Import ArrModel ArrThms RepModel RepSpec RepThms RepSum RepGraph GroupModel GroupSpec.

Section group.
Context (g : rgraph) (size : nat → nat) (J : nat → nat → mat) (T : nat → nat → mat).
Context (l : list nat) (r w : nat).
Hypothesis Hg : sound_graph g.
Hypothesis Hf : ∀ o, proper g size J no_lin o ∨ handle g size J o.
Hypothesis HT : ∀ v, v ∈ w :: l → chain_rule g size v J (T v).
Hypothesis Hr : r ∉ w :: l.
Hypothesis Ha : ∀ v, v ∈ w :: l → ¬ alias g size v J r.
Notation m := (size w).

Lemma jac_right n v : v ∈ w :: l → ∀ res, group_jac n g r v = Some res → result_is res (size r) (size v) (T v r).
Proof.
  intros Hv res Hn. eapply (forward_right g size v J (T v) Hg (HT v Hv) r Hf); [congruence|by apply Ha|by exists n].
Qed.
Lemma jac_lin n v x : v ∈ w :: l → group_jac n g r v = Some (Some x) → no_lin x = true.
Proof.
  intros Hv Hn. by destruct (rdr_sound g size v J (T v) Hg (HT v Hv) n Hf r (Some x) ltac:(congruence) Hn) as [H _].
Qed.
Lemma add_group_none f j ps : foldl (add_group w f j) None ps = None.
Proof. by induction ps. Qed.

Definition chain (ps : list nat) : mat := λ i j,
  rsum ((λ p, if decide (p = w) then 0%R else mmult (size p) (T p r) (T w p) i j) <$> ps).

Lemma group_loop n ps : (∀ p, p ∈ ps → p ∈ l) → ∀ ls As ls', all_store (size r) m ls As →
  foldl (add_group w (λ p, rdr n g p w) (group_jac n g r)) (Some ls) ps = Some ls' →
  ∃ Bs, all_store (size r) m ls' (As ++ Bs) ∧ meq (size r) m (msum Bs) (chain ps).
Proof.
  induction ps as [|p ps IH]; intros Hin ls As ls' Hls.
  - intros [= <-]. exists []. rewrite app_nil_r. split; [done|]. by intros i j _ _.
  - assert (Hin' : ∀ q, q ∈ ps → q ∈ l) by (intros; apply Hin; by right). specialize (IH Hin').
    change (foldl (add_group w ?f ?j) ?a (p :: ps)) with (foldl (add_group w f j) (add_group w f j a p) ps).
    assert (Hskip : meq (size r) m (λ i j, if decide (p = w) then 0%R else mmult (size p) (T p r) (T w p) i j) mzero →
      foldl (add_group w (λ p, rdr n g p w) (group_jac n g r)) (Some ls) ps = Some ls' →
      ∃ Bs, all_store (size r) m ls' (As ++ Bs) ∧ meq (size r) m (msum Bs) (chain (p :: ps))).
    { intros Hz H. destruct (IH ls As ls' Hls H) as (Bs & H1 & H2). exists Bs. split; [done|].
      intros i j Hi Hj. rewrite H2 by done. unfold chain. rewrite fmap_cons, rsum_cons.
      specialize (Hz i j Hi Hj). cbv beta in Hz. rewrite Hz. unfold mzero. ring. }
    cbn [add_group mbind option_bind]. destruct (decide (p = w)) as [Hpw|Hpw]; [by apply Hskip|].
    destruct (rdr n g p w) as [dr2|] eqn:Ep; cbn [mbind option_bind]; [|by rewrite add_group_none].
    pose proof (rdr_sound g size w J (T w) Hg (HT w ltac:(left)) n Hf p dr2 Hpw Ep) as Hgood.
    destruct dr2 as [d2|]; [|apply Hskip; by apply (mmult_zero_r (size r))].
    assert (p ∈ w :: l) as Hpl by (right; apply Hin; left).
    destruct (group_jac n g r p) as [jp|] eqn:Ej; cbn [mbind option_bind]; [|by rewrite add_group_none].
    pose proof (jac_right n p Hpl jp Ej) as Hjp.
    destruct jp as [jp|]; [|apply Hskip; by apply (mmult_zero_l (size r))].
    destruct (superdot_stores jp d2 (size r) (size p) m (T p r) (T w p)) as (x & Ex & Hx & Hlx & _);
      [by apply is_mat_stores|by eapply good_means|].
    rewrite Ex. cbn [mbind option_bind]. intros H.
    destruct (IH (ls ++ [x]) (As ++ [mmult (size p) (T p r) (T w p)]) ls') as (Bs & H1 & H2); [|done|].
    { apply Forall2_app; [done|]. constructor; [|constructor]. split; [done|]. apply Hlx; [by eapply jac_lin|]. by destruct Hgood. }
    exists (mmult (size p) (T p r) (T w p) :: Bs). split; [by rewrite <- app_assoc in H1|].
    intros i j Hi Hj. transitivity (mmult (size p) (T p r) (T w p) i j + msum Bs i j)%R; [done|]. rewrite H2 by done.
    unfold chain. rewrite fmap_cons, rsum_cons, decide_False by done. done.
Qed.

Lemma result_meq res n k A B : meq n k A B → result_is res n k A → result_is res n k B.
Proof.
  intros HE. destruct res as [x|]; simpl; [by apply is_mat_meq|]. intros H.
  eapply meq_trans; [apply meq_sym, HE|done].
Qed.

(** What dr_wrt of a group returns. *)
Lemma group_formula n res : group_dr n g l r w = Some res →
  result_is res (size r) m (with_chain size l w (T w r) (λ p, T p r) (T w)).
Proof.
  unfold group_dr. destruct (group_jac n g r w) as [direct|] eqn:Ed; [|done]. cbn [mbind option_bind].
  destruct (foldl _ _ _) as [ls|] eqn:El; [|done]. cbn [mbind option_bind]. intros Hc.
  assert (∃ As, all_store (size r) m (option_list direct) As ∧ meq (size r) m (msum As) (T w r)) as (As & HA & HAm).
  { pose proof (jac_right n w ltac:(left) direct Ed) as Hd. destruct direct as [d|].
    - exists [T w r]. split.
      + constructor; [|constructor]. split; [by apply is_mat_stores|]. by apply (jac_lin n w d ltac:(left)).
      + intros i j _ _. unfold msum. simpl. ring.
    - exists []. split; [constructor|]. by apply meq_sym in Hd. }
  destruct (group_loop n l ltac:(done) _ As ls HA El) as (Bs & HB & HBm).
  assert (HE : meq (size r) m (msum (As ++ Bs)) (with_chain size l w (T w r) (λ p, T p r) (T w))).
  { intros i j Hi Hj. rewrite msum_app, HAm, HBm by done. done. }
  pose proof (conclude_sound _ _ _ _ _ HB Hc) as Hres. destruct res as [x|].
  - destruct Hres as [Hm _]. by eapply is_mat_meq.
  - destruct Hres as [_ E]. rewrite E in HE. by apply meq_sym.
Qed.

(** It does return something, but possibly for single elements. *)
Lemma group_loop_total n ps : (∀ p, p ∈ ps → p ∈ l) → (∀ p, p ∈ ps → p ≠ w → is_Some (rdr n g p w)) →
  (∀ p, p ∈ ps → is_Some (rdr n g r p)) → ∀ ls,
  is_Some (foldl (add_group w (λ p, rdr n g p w) (group_jac n g r)) (Some ls) ps).
Proof.
  induction ps as [|p ps IH]; intros Hin H1 H2 ls; [by eexists|].
  change (foldl (add_group w ?f ?j) ?a (p :: ps)) with (foldl (add_group w f j) (add_group w f j a p) ps).
  assert (Hrec : ∀ ls, is_Some (foldl (add_group w (λ p, rdr n g p w) (group_jac n g r)) (Some ls) ps)).
  { apply IH; intros q Hq; [apply Hin|apply H1|apply H2]; by right. }
  cbn [add_group mbind option_bind]. destruct (decide (p = w)) as [Hpw|Hpw]; [done|].
  destruct (H1 p ltac:(left) Hpw) as [dr2 Ep]. rewrite Ep. cbn [mbind option_bind].
  destruct dr2 as [d2|]; [|done]. assert (p ∈ w :: l) as Hpl by (right; apply Hin; left).
  unfold group_jac at 2. destruct (H2 p ltac:(left)) as [jp Ej]. rewrite Ej. cbn [mbind option_bind].
  destruct jp as [jp|]; [|done].
  destruct (superdot_stores jp d2 (size r) (size p) m (T p r) (T w p)) as (x & Ex & Hx & Hlx & _).
  { apply is_mat_stores. exact (jac_right n p Hpl (Some jp) Ej). }
  { eapply good_means. exact (rdr_sound g size w J (T w) Hg (HT w ltac:(left)) n Hf p (Some d2) Hpw Ep). }
  rewrite Ex. apply Hrec.
Qed.
Lemma group_returns : (∀ p, p ∈ r :: l → is_Some (g !! p)) →
  (∀ o nd v, g !! o = Some nd → v ∈ w :: l → size o * size v ≠ 1 ∨ length (ops nd) ≤ 1) →
  size r * m ≠ 1 → ∃ n res, group_dr n g l r w = Some res.
Proof.
  intros Hin Hc Hs. pose proof Hg as [_ [rank Hrank]].
  set (n := S (foldr (λ p, Nat.max (rank p)) 0 (r :: l))).
  assert (Hle : ∀ p ps, p ∈ ps → rank p < S (foldr (λ p, Nat.max (rank p)) 0 ps)).
  { induction ps as [|q ps IH]; intros Hp; [by apply elem_of_nil in Hp|]. simpl.
    apply elem_of_cons in Hp as [->|Hp]; [lia|]. specialize (IH Hp). lia. }
  assert (Htot : ∀ v p, v ∈ w :: l → p ∈ r :: l → p ≠ v → is_Some (rdr n g p v)).
  { intros v p Hv Hp Hne. apply (rdr_total g size v J (T v) Hg (HT v Hv) rank n Hf Hrank); [|by apply Hin|done|by apply Hle].
    intros o nd Ho. by apply Hc. }
  destruct (Htot w r ltac:(left) ltac:(left)) as [direct Ed]; [intros ->; apply Hr; by left|].
  destruct (group_loop_total n l ltac:(done)) with (ls := option_list direct) as [ls El].
  { intros p Hp Hpw. apply Htot; [left|by right|done]. }
  { intros p Hp. apply Htot; [by right|left|]. intros ->. apply Hr. by right. }
  exists n. unfold group_dr. change (group_jac n g r w) with (rdr n g r w). rewrite Ed. cbn [mbind option_bind]. rewrite El. cbn [mbind option_bind].
  assert (∃ As, all_store (size r) m (option_list direct) As) as (As & HA).
  { pose proof (jac_right n w ltac:(left) direct Ed) as Hd. destruct direct as [d|].
    - exists [T w r]. constructor; [|constructor]. split; [by apply is_mat_stores|]. by apply (jac_lin n w d ltac:(left)).
    - exists []. constructor. }
  destruct (group_loop n l ltac:(done) _ As ls HA El) as (Bs & HB & _).
  destruct (conclude_total _ _ _ _ HB) as [res Hres]; [by left|]. by exists res.
Qed.

(* ------------------------------------------------------------------ *)
(** Paths. *)
Lemma unreached v q : chain_rule g size v J (T v) → is_Some (g !! q) → ¬ rtc (feeds g) q v →
  meq (size q) (size v) (T v q) mzero.
Proof.
  intros Hv. pose proof Hg as [Hnd [rank Hrank]]. remember (rank q) as k eqn:Ek. revert q Ek.
  induction (lt_wf k) as [k _ IH]. intros q -> [nd Hq] Hno i j Hi Hj.
  assert (q ≠ v) as Hne by (intros ->; by apply Hno). destruct Hv as [_ Hv]. rewrite (Hv q nd) by done.
  apply rsum_zero. intros p Hp. destruct (Hnd q nd Hq) as [_ Hin].
  apply (mmult_zero_r (size q) (size p) (size v)); [|done|done]. eapply IH; [by eapply Hrank|done|by apply Hin|].
  intros Hr'. apply Hno. eapply rtc_l; [|done]. by exists nd.
Qed.

(** Every path to [w] runs through the arguments, and no argument reaches another. *)
Lemma cut q : NoDup l → w ∉ l → (∀ p, p ∈ l → is_Some (g !! p)) → (∀ p p', p ∈ l → p' ∈ l → p ≠ p' → ¬ rtc (feeds g) p p') →
  is_Some (g !! q) → ¬ around g l w q →
  meq (size q) m (T w q) (λ i j, rsum ((λ p, mmult (size p) (T p q) (T w p) i j) <$> l)).
Proof.
  intros Hd Hw Hl Hind. pose proof Hg as [Hnd [rank Hrank]]. remember (rank q) as k eqn:Ek. revert q Ek.
  induction (lt_wf k) as [k _ IH]. intros q -> [nd Hq] Hno i j Hi Hj.
  destruct (decide (q ∈ l)) as [Hql|Hql].
  - assert (Hone : ∀ p, p ∈ l → mmult (size p) (T p q) (T w p) i j = if decide (p = q) then T w q i j else 0%R).
    { intros p Hp. destruct (decide (p = q)) as [->|Hpq].
      - destruct (HT q ltac:(by right)) as [Hid _].
        rewrite (mmult_scal_l (size q) m 1 (T q q) (T w q) Hid) by done. ring.
      - apply (mmult_zero_l (size q) (size p) m); [|done|done]. apply unreached; [apply HT; by right|by eexists|]. by apply Hind. }
    rewrite (rsum_ext _ (λ p, if decide (p = q) then T w q i j else 0%R)) by done.
    clear -Hql Hd. induction l as [|p ps IH]; [by apply elem_of_nil in Hql|]. rewrite fmap_cons, rsum_cons.
    apply NoDup_cons in Hd as [Hp Hd]. destruct (decide (p = q)) as [->|Hpq].
    + rewrite rsum_zero; [ring|]. intros p Hp'. rewrite decide_False by congruence. done.
    + apply elem_of_cons in Hql as [->|Hql]; [done|]. rewrite <- (IH Hd Hql). ring.
  - assert (q ≠ w) as Hqw by (intros ->; apply Hno; by constructor).
    destruct (HT w ltac:(left)) as [_ Hcw]. rewrite (Hcw q nd) by done. destruct (Hnd q nd Hq) as [_ Hin].
    assert (Hops : ∀ p, p ∈ ops nd → mmult (size p) (J q p) (T w p) i j =
      rsum ((λ a, mmult (size p) (J q p) (mmult (size a) (T a p) (T w a)) i j) <$> l)).
    { intros p Hp. unfold mmult at 1.
      rewrite (rsum_ext _ (λ x, rsum ((λ a, J q p i x * mmult (size a) (T a p) (T w a) x j)%R <$> l))).
      - rewrite rsum_swap. apply rsum_ext. intros a _. done.
      - intros x Hx%elem_of_seq. rewrite rsum_scal. f_equal.
        eapply (IH (rank p)); [by eapply Hrank|done|by apply Hin| |lia|done].
        intros Hp'. apply Hno. eapply around_step; [done| |done]. by exists nd. }
    rewrite (rsum_ext _ (λ p, rsum ((λ a, mmult (size p) (J q p) (mmult (size a) (T a p) (T w a)) i j) <$> l))) by done.
    rewrite rsum_swap. apply rsum_ext. intros a Hal. destruct (HT a ltac:(by right)) as [_ Hca].
    assert (q ≠ a) as Hqa by congruence.
    change (mmult (size a) (T a q) (T w a) i j) with (rsum ((λ x, T a q i x * T w a x j)%R <$> seq 0 (size a))).
    rewrite (rsum_ext (λ x, T a q i x * T w a x j)%R (λ x, rsum ((λ p, mmult (size p) (J q p) (T a p) i x * T w a x j)%R <$> ops nd))).
    + rewrite rsum_swap. apply rsum_ext. intros p Hp. symmetry. exact (mmult_assoc (size q) (size p) (size a) m _ _ _ i j Hi Hj).
    + intros x Hx%elem_of_seq. rewrite (Hca q nd) by (done || lia). rewrite Rmult_comm, <- rsum_scal.
      apply rsum_ext. intros p _. ring.
Qed.

(* ------------------------------------------------------------------ *)
Lemma group_right n res : (∀ p, p ∈ l → is_Some (g !! p)) → (∀ p, p ∈ l → p ≠ w → ¬ rtc (feeds g) p w) →
  group_dr n g l r w = Some res → result_is res (size r) m (T w r).
Proof.
  intros Hl Hno Hres. eapply result_meq; [|by eapply group_formula]. intros i j Hi Hj. unfold with_chain.
  rewrite rsum_zero; [ring|]. intros p Hp. destruct (decide (p = w)) as [|Hpw]; [done|].
  apply (mmult_zero_r (size r) (size p) m); [|done|done]. apply unreached; [apply HT; left|by apply Hl|by apply Hno].
Qed.
Lemma group_twice n res : NoDup l → w ∉ l → (∀ p, p ∈ r :: l → is_Some (g !! p)) →
  (∀ p p', p ∈ l → p' ∈ l → p ≠ p' → ¬ rtc (feeds g) p p') → ¬ around g l w r →
  group_dr n g l r w = Some res → result_is res (size r) m (mtwice (T w r)).
Proof.
  intros Hd Hw Hl Hind Hno Hres. eapply result_meq; [|by eapply group_formula]. intros i j Hi Hj. unfold with_chain, mtwice.
  rewrite (rsum_ext _ (λ p, mmult (size p) (T p r) (T w p) i j)).
  2:{ intros p Hp. rewrite decide_False by congruence. done. }
  assert (Hcut : T w r i j = rsum ((λ p, mmult (size p) (T p r) (T w p) i j) <$> l)).
  { apply (cut r); [done|done|by intros; apply Hl; right|done|apply Hl; left|done|done|done]. }
  rewrite <- Hcut. ring.
Qed.
End group.

Lemma lin_unique n k A B : (∀ v, length v = k → mvec n k A v = mvec n k B v) → meq n k A B.
Proof.
  intros H i j Hi Hj. set (v := (λ x, mscal 1 x j) <$> seq 0 k).
  assert (Hv : ∀ A, nth i (mvec n k A v) 0%R = A i j).
  { intros C. rewrite mvec_nth by done. rewrite (rsum_ext _ (λ x, C i x * mscal 1 x j)%R).
    - rewrite delta_r by done. ring.
    - intros x Hx%elem_of_seq. unfold v. by rewrite nth_fmap_seq by lia. }
  rewrite <- (Hv A), <- (Hv B), H; [done|]. unfold v. by rewrite fmap_length, seq_length.
Qed.
Lemma result_unique res n k A B : result_is res n k A → result_is res n k B → meq n k A B.
Proof.
  destruct res as [x|]; simpl.
  - destruct x as [c|a|n' k' f|n' k' f]; simpl; [done| | |].
    + intros [_ H1] [_ H2] i j Hi Hj. by rewrite <- H1, <- H2.
    + intros (_ & _ & H1) (_ & _ & H2) i j Hi Hj. by rewrite <- H1, <- H2.
    + intros (_ & _ & H1) (_ & _ & H2). apply lin_unique. intros v Hv. specialize (H1 v Hv). specialize (H2 v Hv). congruence.
  - intros H1 H2. eapply meq_trans; [done|by apply meq_sym].
Qed.
Lemma twice_wrong res n k A : (∃ i j, i < n ∧ j < k ∧ A i j ≠ 0%R) → result_is res n k (mtwice A) → ¬ result_is res n k A.
Proof.
  intros (i & j & Hi & Hj & Hn) H1 H2. pose proof (result_unique _ _ _ _ _ H1 H2 i j Hi Hj) as E. unfold mtwice in E. lra.
Qed.

(** A lambda object hands on its result. *)
Lemma lambda_handle (g : rgraph) size J o l r : g !! o = Some (lambda_node l r) → r ∈ l → size o = size r →
  meq (size o) (size r) (J o r) (mscal 1) → (∀ p, p ∈ l → p ≠ r → meq (size o) (size p) (J o p) mzero) → handle g size J o.
Proof.
  intros Ho Hr Hs HJ Hz. exists (lambda_node l r), r, (Num 1), 1%R. split_and!; try done.
  - simpl. by rewrite decide_True.
  - intros q Hq. simpl. by rewrite decide_False.
Qed.
Lemma lambda_right (g : rgraph) size w J T : sound_graph g → chain_rule g size w J T →
  (∀ o, proper g size J no_lin o ∨ handle g size J o ∨ lambda_obj lambda_node g size J o) →
  ∀ o, o ≠ w → ¬ alias g size w J o → ∀ res, returns g o w res → result_is res (size o) (size w) (T o).
Proof.
  intros Hg HT Hf o Hne Ha res Hres. eapply (forward_right g size w J T Hg HT); [|done|done|done].
  intros x. destruct (Hf x) as [H|[H|(l & r & H1 & H2 & H3 & H4 & H5)]]; [by left|by right|].
  right. by eapply lambda_handle.
Qed.
