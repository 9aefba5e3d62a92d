(** Stored Jacobians along an object graph, against the chain rule. *)
From Coq Require Import Reals Lra.
From stdpp Require Import gmap list list_numbers.
From Verif Require Import ArrModel ArrThms RepModel RepSpec RepThms RepSum.

Lemma mmult_assoc n k l m A B C : meq n m (mmult l (mmult k A B) C) (mmult k A (mmult l B C)).
Proof.
  intros i j Hi Hj. unfold mmult.
  rewrite (rsum_ext _ (λ q, rsum ((λ p, A i p * B p q * C q j)%R <$> seq 0 k))).
  2:{ intros q _. rewrite Rmult_comm, <- rsum_scal. apply rsum_ext. intros p _. ring. }
  rewrite rsum_swap. apply rsum_ext. intros p _. rewrite <- rsum_scal. apply rsum_ext. intros q _. ring.
Qed.
Lemma mmult_zero_r n k m A B : meq k m B mzero → meq n m (mmult k A B) mzero.
Proof. intros H i j Hi Hj. apply rsum_zero. intros l Hl. apply elem_of_seq in Hl. rewrite H by lia. unfold mzero. ring. Qed.
Lemma mmult_zero_l n k m A B : meq n k A mzero → meq n m (mmult k A B) mzero.
Proof. intros H i j Hi Hj. apply rsum_zero. intros l Hl. apply elem_of_seq in Hl. rewrite H by lia. unfold mzero. ring. Qed.
Lemma mmult_id_r n m A B : meq m m B (mscal 1) → meq n m (mmult m A B) A.
Proof. intros H i j Hi Hj. rewrite (mmult_scal_r n m 1) by done. ring. Qed.

Lemma msum_app As Bs i j : msum (As ++ Bs) i j = (msum As i j + msum Bs i j)%R.
Proof. unfold msum. by rewrite fmap_app, rsum_app. Qed.

Section graph.
Context (g : rgraph) (size : nat → nat) (w : nat) (J : nat → nat → mat) (T : nat → mat).
Hypothesis Hg : sound_graph g.
Hypothesis HT : chain_rule g size w J T.
Notation m := (size w).

(** The contribution of operand p to o, w aside. *)
Definition others (o : nat) (ps : list nat) (i j : nat) : R :=
  rsum ((λ p, if decide (p = w) then 0%R else mmult (size p) (J o p) (T p) i j) <$> ps).

Lemma others_cons o p ps i j :
  others o (p :: ps) i j = ((if decide (p = w) then 0 else mmult (size p) (J o p) (T p) i j) + others o ps i j)%R.
Proof. done. Qed.

Lemma split_w o nd i j : g !! o = Some nd → o ≠ w → i < size o → j < m →
  T o i j = ((if decide (w ∈ ops nd) then J o w i j else 0) + others o (ops nd) i j)%R.
Proof.
  intros Ho Hne Hi Hj. destruct HT as [HTw HTo]. rewrite (HTo o nd) by done.
  destruct Hg as [Hnd _]. destruct (Hnd o nd Ho) as [Hdup _].
  assert (Hw : mmult m (J o w) (T w) i j = J o w i j) by (by apply (mmult_id_r (size o))).
  assert (Hnot : ∀ ps, w ∉ ps → rsum ((λ p, mmult (size p) (J o p) (T p) i j) <$> ps) = others o ps i j).
  { intros ps Hps. apply rsum_ext. intros p Hp. rewrite decide_False by congruence. done. }
  unfold others. destruct (decide (w ∈ ops nd)) as [Hin|Hin].
  - apply elem_of_list_split in Hin as (l1 & l2 & E). rewrite E in Hdup |- *.
    apply NoDup_app in Hdup as (_ & Hd1 & Hd2). apply NoDup_cons in Hd2 as [Hw2 _].
    assert (w ∉ l1) as Hw1 by (intros H; apply (Hd1 w H); by left).
    rewrite !fmap_app, !fmap_cons, !rsum_app, !rsum_cons. rewrite Hw. rewrite (decide_True (P := w = w)) by done.
    rewrite (Hnot l1 Hw1), (Hnot l2 Hw2). unfold others. ring.
  - rewrite (Hnot _ Hin). unfold others. ring.
Qed.

(** What dr_wrt has to return. *)
Definition good (o : nat) (res : option rep) : Prop :=
  match res with
  | None => meq (size o) m (T o) mzero
  | Some r => no_lin r = true ∧
      (is_mat r (size o) m (T o) ∨
       alias g size w J o ∧ size o = m ∧ ∃ c, c ≠ 0%R ∧ is_num r c ∧ meq (size o) m (T o) (mscal c))
  end.
Lemma good_means o r : good o (Some r) → means r (size o) m (T o).
Proof.
  intros [_ [H|(_ & Hs & c & _ & Hn & Hc)]]; [by left; left|]. right. split; [done|]. by exists c.
Qed.

Lemma forward_none nd f ps : foldl (add_forward w nd f) None ps = None.
Proof. by induction ps. Qed.

(** The loop over the operands, for classes that return matrices. *)
Lemma forward_sound o nd f : g !! o = Some nd → proper g size J no_lin o →
  ∀ ps l As l', (∀ p, p ∈ ps → p ∈ ops nd) → (∀ p res, p ∈ ps → p ≠ w → f p = Some res → good p res) →
  all_store (size o) m l As → foldl (add_forward w nd f) (Some l) ps = Some l' →
  ∃ Bs, all_store (size o) m l' (As ++ Bs) ∧ meq (size o) m (msum Bs) (others o ps) ∧
    length Bs ≤ length (filter (λ p, p ≠ w) ps).
Proof.
  intros Ho Hp. destruct (Hp nd Ho) as [_ Hj]. induction ps as [|p ps IH]; intros l As l' Hin Hf Hl.
  - intros [= <-]. exists []. split; [by rewrite app_nil_r|]. split; [|simpl; lia]. by intros i j _ _.
  - simpl. destruct (decide (p = w)) as [->|Hpw].
    + intros H. destruct (IH l As l') as (Bs & H1 & H2 & H3); [by intros; apply Hin; right|by intros; eapply Hf; [by right|..]|done|done|].
      exists Bs. split; [done|]. split.
      * intros i j Hi Hj'. rewrite H2 by done. rewrite others_cons, decide_True by done. ring.
      * rewrite filter_cons_False by naive_solver. done.
    + assert (p ∈ ops nd) as Hpo by (apply Hin; left). specialize (Hj p Hpo).
      destruct (f p) as [dr2|] eqn:Efp; [|by rewrite forward_none]. simpl.
      pose proof (Hf p dr2 ltac:(left) Hpw Efp) as Hgood.
      rewrite filter_cons_True by done. simpl.
      assert (Hskip : meq (size o) m (mmult (size p) (J o p) (T p)) mzero →
        foldl (add_forward w nd f) (Some l) ps = Some l' → ∃ Bs, all_store (size o) m l' (As ++ Bs) ∧
          meq (size o) m (msum Bs) (others o (p :: ps)) ∧ length Bs ≤ S (length (filter (λ p, p ≠ w) ps))).
      { intros Hz H. destruct (IH l As l') as (Bs & H1 & H2 & H3); [by intros; apply Hin; right|by intros; eapply Hf; [by right|..]|done|done|].
        exists Bs. split; [done|]. split; [|lia]. intros i j Hi Hj'. rewrite H2 by done.
        rewrite others_cons, decide_False by done. rewrite Hz by done. unfold mzero. ring. }
      destruct dr2 as [d2|]; [|apply Hskip; by apply (mmult_zero_r (size o))].
      destruct (jac nd p) as [jp|] eqn:Ej; [|apply Hskip; by apply (mmult_zero_l (size o))].
      destruct Hj as [Hst Hlj].
      destruct (superdot_stores jp d2 (size o) (size p) m (J o p) (T p) Hst (good_means p d2 Hgood)) as (r & Er & Hr & Hlr & _).
      rewrite Er. simpl. intros H. destruct (IH (l ++ [r]) (As ++ [mmult (size p) (J o p) (T p)]) l') as (Bs & H1 & H2 & H3);
        [by intros; apply Hin; right|by intros; eapply Hf; [by right|..]| |done|].
      { apply Forall2_app; [done|]. constructor; [|constructor]. split; [done|]. apply Hlr; [done|]. by destruct Hgood. }
      exists (mmult (size p) (J o p) (T p) :: Bs). split; [by rewrite <- app_assoc in H1|]. split; [|simpl; lia].
      intros i j Hi Hj'. transitivity (mmult (size p) (J o p) (T p) i j + msum Bs i j)%R; [done|]. rewrite H2 by done.
      by rewrite others_cons, decide_False by done.
Qed.
Lemma forward_total o nd f : g !! o = Some nd → proper g size J no_lin o →
  ∀ ps l, (∀ p, p ∈ ps → p ∈ ops nd) → (∀ p, p ∈ ps → p ≠ w → ∃ res, f p = Some res ∧ good p res) →
  is_Some (foldl (add_forward w nd f) (Some l) ps).
Proof.
  intros Ho Hp. destruct (Hp nd Ho) as [_ Hj]. induction ps as [|p ps IH]; intros l Hin Hf; [by eexists|].
  simpl. destruct (decide (p = w)) as [->|Hpw].
  - apply IH; [by intros; apply Hin; right|by intros; apply Hf; [right|]].
  - destruct (Hf p ltac:(left) Hpw) as (res & Er & Hgood). rewrite Er. simpl.
    assert (Hrec : ∀ l, is_Some (foldl (add_forward w nd f) (Some l) ps)).
    { intros l'. apply IH; [by intros; apply Hin; right|by intros; apply Hf; [right|]]. }
    destruct res as [d2|]; [|done]. specialize (Hj p ltac:(apply Hin; left)). destruct (jac nd p) as [jp|]; [|done].
    destruct Hj as [Hst _].
    destruct (superdot_stores jp d2 (size o) (size p) m (J o p) (T p) Hst (good_means p d2 Hgood)) as (r & Er2 & _).
    rewrite Er2. apply Hrec.
Qed.

Lemma direct_store o nd : g !! o = Some nd → proper g size J no_lin o →
  ∃ As, all_store (size o) m (option_list (jac nd w)) As ∧
    meq (size o) m (msum As) (λ i j, if decide (w ∈ ops nd) then J o w i j else 0%R) ∧
    length As ≤ length (filter (λ p, p = w) (ops nd)).
Proof.
  intros Ho Hp. destruct (Hp nd Ho) as [Hout Hj]. destruct (decide (w ∈ ops nd)) as [Hin|Hin].
  - specialize (Hj w Hin). destruct (jac nd w) as [j|].
    + exists [J o w]. split; [by constructor|]. split.
      * intros i k Hi Hk. unfold msum. simpl. ring.
      * assert (w ∈ filter (λ p, p = w) (ops nd)) as Hf by (by apply elem_of_list_filter).
        destruct (filter _ _); [by apply elem_of_nil in Hf|simpl; lia].
    + exists []. split; [constructor|]. split; [|simpl; lia]. intros i k Hi Hk. by rewrite Hj.
  - rewrite (Hout w Hin). exists []. split; [constructor|]. split; [|simpl; lia]. by intros i k Hi Hk.
Qed.

Lemma filter_lengths (ps : list nat) : length (filter (λ p, p = w) ps) + length (filter (λ p, p ≠ w) ps) = length ps.
Proof.
  induction ps as [|p ps IH]; [done|]. destruct (decide (p = w)).
  - rewrite filter_cons_True, filter_cons_False by naive_solver. simpl. lia.
  - rewrite filter_cons_False, filter_cons_True by naive_solver. simpl. lia.
Qed.

(** One call, for classes that return matrices. *)
Lemma proper_sound n o res : o ≠ w → proper g size J no_lin o →
  (∀ p res, p ≠ w → rdr n g p w = Some res → good p res) → rdr (S n) g o w = Some res → good o res.
Proof.
  intros Hne Hp Hrec. simpl. destruct (g !! o) as [nd|] eqn:Ho; [|done]. simpl.
  destruct (direct_store o nd Ho Hp) as (As & HA & HAs & _).
  destruct (foldl _ _ _) as [l'|] eqn:Ef; [|done]. simpl. intros Hc.
  destruct (forward_sound o nd (λ p, rdr n g p w) Ho Hp (ops nd) (option_list (jac nd w)) As l') as (Bs & HB & HBs & _); [done|by intros; eapply Hrec|done|done|].
  assert (Hsum : meq (size o) m (msum (As ++ Bs)) (T o)).
  { intros i j Hi Hj. rewrite msum_app, HAs, HBs by done. symmetry. by apply split_w. }
  pose proof (conclude_sound _ _ _ _ _ HB Hc) as Hr. destruct res as [r|].
  - destruct Hr as [Hm Hl]. split; [done|]. left. by eapply is_mat_meq.
  - destruct Hr as [_ HE]. rewrite HE in Hsum. by apply meq_sym in Hsum.
Qed.
Lemma proper_total n o nd : o ≠ w → g !! o = Some nd → proper g size J no_lin o →
  (size o * m ≠ 1 ∨ length (ops nd) ≤ 1) →
  (∀ p, p ∈ ops nd → p ≠ w → ∃ res, rdr n g p w = Some res ∧ good p res) → is_Some (rdr (S n) g o w).
Proof.
  intros Hne Ho Hp Hc Hrec. simpl. rewrite Ho. simpl. destruct (direct_store o nd Ho Hp) as (As & HA & HAs & LA).
  destruct (forward_total o nd (λ p, rdr n g p w) Ho Hp (ops nd) (option_list (jac nd w))) as [l' El]; [done|done|].
  rewrite El. simpl.
  destruct (forward_sound o nd (λ p, rdr n g p w) Ho Hp (ops nd) (option_list (jac nd w)) As l') as (Bs & HB & HBs & LB); [done| |done|done|].
  { intros p res Hin Hpw Hr. destruct (Hrec p Hin Hpw) as (res' & Hr' & Hgood). simpl in Hr. rewrite Hr in Hr'. by injection Hr' as <-. }
  eapply conclude_total; [exact HB|]. destruct Hc as [?|Hc]; [by left|]. right; right.
  rewrite (Forall2_length _ _ _ HB), app_length. pose proof (filter_lengths (ops nd)). lia.
Qed.

(** One call, for classes that hand on an operand. *)
Lemma idle_loop nd f ps l : (∀ q, q ∈ ps → q ≠ w → jac nd q = None) →
  (∀ l', foldl (add_forward w nd f) (Some l) ps = Some l' → l' = l) ∧
  ((∀ q, q ∈ ps → q ≠ w → is_Some (f q)) → foldl (add_forward w nd f) (Some l) ps = Some l).
Proof.
  induction ps as [|q ps IH]; intros Hj; [by split; [intros l' [= <-]|]|].
  destruct IH as [IH1 IH2]; [by intros; apply Hj; [right|]|]. simpl. destruct (decide (q = w)) as [Hqw|Hqw].
  - split; [done|]. intros H. apply IH2. intros; by apply H; [right|].
  - rewrite (Hj q) by (done || left). destruct (f q) as [dr2|] eqn:Ef; simpl.
    + assert (E : (match dr2 with Some _ | _ => Some l end : option (list rep)) = Some l) by (by destruct dr2).
      split; [by destruct dr2|]. intros H. destruct dr2; (apply IH2; intros; by apply H; [right|]).
    + rewrite forward_none. split; [done|]. intros H. destruct (H q) as [? H']; [left|done|]. by rewrite Ef in H'.
Qed.
Lemma handle_loop nd f p ps l : p ∈ ps → NoDup ps → (∀ q, q ≠ p → jac nd q = None) →
  (∀ l', foldl (add_forward w nd f) (Some l) ps = Some l' → add_forward w nd f (Some l) p = Some l') ∧
  ((∀ q, q ∈ ps → q ≠ w → is_Some (f q)) → foldl (add_forward w nd f) (Some l) ps = add_forward w nd f (Some l) p).
Proof.
  intros Hp Hd Hj. apply elem_of_list_split in Hp as (l1 & l2 & ->). apply NoDup_app in Hd as (_ & Hd1 & Hd2).
  apply NoDup_cons in Hd2 as [Hp2 _].
  assert (Hj1 : ∀ q, q ∈ l1 → q ≠ w → jac nd q = None) by (intros q Hq _; apply Hj; intros ->; apply (Hd1 p Hq); by left).
  assert (Hj2 : ∀ q, q ∈ l2 → q ≠ w → jac nd q = None) by (intros q Hq _; apply Hj; congruence).
  rewrite foldl_app. change (foldl (add_forward w nd f) ?a (p :: l2)) with (foldl (add_forward w nd f) (add_forward w nd f a p) l2).
  destruct (idle_loop nd f l1 l Hj1) as [A1 A2]. split.
  - intros l'. destruct (foldl _ _ l1) as [k|] eqn:Ek; [|simpl; by rewrite forward_none]. rewrite (A1 k eq_refl).
    destruct (add_forward w nd f (Some l) p) as [k'|] eqn:Ek'; [|by rewrite forward_none].
    intros H. f_equal. symmetry. by apply (idle_loop nd f l2 k' Hj2).
  - intros H. rewrite A2 by (intros; apply H; [apply elem_of_app; by left|done]).
    destruct (add_forward w nd f (Some l) p) as [k'|]; [|by rewrite forward_none].
    apply (idle_loop nd f l2 k' Hj2). intros; apply H; [apply elem_of_app; by right; right|done].
Qed.

Lemma handle_step n o : o ≠ w → handle g size J o → ∀ nd, g !! o = Some nd →
  (∀ p res, p ≠ w → rdr n g p w = Some res → good p res) →
  (∀ res, rdr (S n) g o w = Some res → good o res) ∧
  ((∀ p, p ∈ ops nd → p ≠ w → is_Some (rdr n g p w)) → is_Some (rdr (S n) g o w)).
Proof.
  intros Hne Hh nd Ho Hrec. pose proof Hh as (nd' & p & r & c & Ho' & Eops & Ej & Eout & Ez & Hn & Hc & Hsz & HJ).
  rewrite Ho in Ho'. injection Ho' as <-. destruct HT as [HTw HTo].
  assert (HTo' : meq (size o) m (T o) (λ i j, c * T p i j)%R).
  { intros i j Hi Hj. rewrite (HTo o nd) by done. destruct Hg as [Hnd _]. destruct (Hnd o nd Ho) as [Hdup _].
    assert (Hid : mmult (size p) (J o p) (T p) i j = (c * T p i j)%R).
    { revert i j Hi Hj. rewrite Hsz in HJ |- *. by apply mmult_scal_l. }
    assert (Hzero : ∀ ps, (∀ q, q ∈ ps → q ∈ ops nd ∧ q ≠ p) → rsum ((λ q, mmult (size q) (J o q) (T q) i j) <$> ps) = 0%R).
    { induction ps as [|q ps IH]; [done|]. intros Hin. rewrite fmap_cons, rsum_cons, IH by (intros; apply Hin; by right).
      destruct (Hin q ltac:(left)) as [Hq Hqp]. rewrite (mmult_zero_l (size o) (size q) m (J o q) (T q) (Ez q Hq Hqp) i j Hi Hj).
      unfold mzero. ring. }
    pose proof Eops as Hsp. apply elem_of_list_split in Hsp as (l1 & l2 & E). rewrite E in Hdup.
    apply NoDup_app in Hdup as (_ & Hd1 & Hd2). apply NoDup_cons in Hd2 as [Hp2 _].
    rewrite E, fmap_app, fmap_cons, rsum_app, rsum_cons, Hid, !Hzero; [ring| |].
    - intros q Hq. rewrite E. split; [apply elem_of_app; by right; right|congruence].
    - intros q Hq. rewrite E. split; [apply elem_of_app; by left|]. intros ->. apply (Hd1 p Hq). by left. }
  assert (Hone : (∀ res, (drs ← add_forward w nd (λ q, rdr n g q w) (Some (option_list (jac nd w))) p; conclude drs) = Some res → good o res) ∧
    ((p ≠ w → is_Some (rdr n g p w)) → is_Some (drs ← add_forward w nd (λ q, rdr n g q w) (Some (option_list (jac nd w))) p; conclude drs))).
  2:{ destruct Hg as [Hnd _]. destruct (Hnd o nd Ho) as [Hdup _].
      destruct (handle_loop nd (λ q, rdr n g q w) p (ops nd) (option_list (jac nd w)) Eops Hdup Eout) as [L1 L2].
      destruct Hone as [O1 O2]. simpl. rewrite Ho. simpl. split.
      - intros res. destruct (foldl _ _ _) as [l'|] eqn:Ef; [|done]. intros Hc'. apply O1. by rewrite (L1 l' eq_refl).
      - intros H. rewrite L2 by done. apply O2. by apply H. }
  cbn [add_forward mbind option_bind]. destruct (decide (p = w)) as [->|Hpw].
  - rewrite Ej. simpl. destruct (finish_num r c Hn Hc) as (a & Ea & Sa & Da).
    unfold conclude. simpl. rewrite Ea. simpl. split; [|by intros _; eexists].
    intros res [= <-]. split; [done|]. right. split_and!; [|done|].
    + eapply (alias_step _ _ _ _ o w nd); [done|done|done|done|by rewrite Ej|constructor].
    + exists c. split; [done|]. split; [simpl; unfold asize; rewrite Sa; split_and!; [done|simpl; lia|done]|].
      intros i j Hi Hj. rewrite HTo' by done. rewrite HTw by (done || lia). unfold mscal. destruct (decide _); ring.
  - rewrite (Eout w) by done. simpl. destruct (rdr n g p w) as [dr2|] eqn:Ep; simpl.
    2:{ split; [done|]. intros H. specialize (H Hpw). by destruct H. }
    pose proof (Hrec p dr2 Hpw Ep) as Hgood. destruct dr2 as [d2|].
    + rewrite Ej. assert (Er : scal r = Num c).
      { destruct r as [x|a| |]; simpl in Hn |- *; [by subst| |done|done]. destruct Hn as (H1 & _ & H2). by rewrite decide_True, H2. }
      rewrite (superdot_num_l r d2 c Er). simpl. unfold conclude. simpl.
      assert (Hres : ∃ r', finish (scale c (scal d2)) = Some r' ∧ good o (Some r')).
      { destruct (means_norm _ _ _ _ (good_means p d2 Hgood)) as [(x & Ex & Nx & Es & Hx)|(Es & Mx & Nx)].
        - rewrite Ex. destruct Hgood as [_ [Hm|(Hal & _ & y & Hy & Hny & HTy)]].
          + assert (Hm1 : size p = 1 ∧ m = 1).
            { destruct d2 as [z|a| |]; [done| |done|done]. destruct Hm as [Hs _]. destruct Nx as (H1 & _).
              unfold asize in H1. rewrite Hs, size2 in H1. by apply Nat.eq_mul_1 in H1. }
            destruct Hm1 as [Hp1 Hm1].
            destruct (finish_is (scale c (Num x)) (size o) m (T o)) as (r' & Ef & Hm' & Hl'); [|done|].
            { rewrite Hsz, Hp1, Hm1. right. split_and!; [done..|]. simpl. rewrite HTo' by lia. rewrite Hx by lia. done. }
            exists r'. split; [done|]. split; [done|]. by left.
          + pose proof (is_num_inj _ _ _ Nx Hny) as ->.
            destruct (finish_num (Num (c * y)) (c * y)%R) as (a & Ea & Sa & Da); [done|by apply Rmult_integral_contrapositive_currified|].
            exists (Arr a). split; [done|]. split; [done|]. right. split_and!; [|congruence|].
            * eapply (alias_step _ _ _ _ o p nd); [done|done|done|done|by rewrite Ej|done].
            * exists (c * y)%R. split; [by apply Rmult_integral_contrapositive_currified|].
              split; [simpl; unfold asize; rewrite Sa; split_and!; [done|simpl; lia|done]|].
              intros i j Hi Hj. rewrite HTo' by done. rewrite HTy by lia. unfold mscal. destruct (decide _); ring.
        - rewrite Es. destruct (finish_is (scale c d2) (size o) m (T o)) as (r' & Ef & Hm' & Hl').
          + left. eapply is_mat_meq; [apply meq_sym, HTo'|]. rewrite Hsz. by apply scale_is.
          + apply scale_lin. by destruct Hgood.
          + exists r'. split; [done|]. split; [done|]. by left. }
      destruct Hres as (r' & Ef & Hgo). rewrite Ef. simpl. split; [|by intros _; eexists]. by intros res [= <-].
    + split; [|by intros _; eexists]. intros res [= <-]. intros i j Hi Hj. rewrite HTo' by done. rewrite Hgood by lia. unfold mzero. ring.
Qed.

Notation fine o := (proper g size J no_lin o ∨ handle g size J o).

Lemma rdr_sound n : (∀ o, fine o) → ∀ o res, o ≠ w → rdr n g o w = Some res → good o res.
Proof.
  intros Hfine. induction n as [|n IH]; intros o res Hne Hr; [done|].
  destruct (Hfine o) as [Hp|Hh].
  - by eapply proper_sound.
  - pose proof Hh as (nd & _ & _ & _ & Ho & _). by destruct (handle_step n o Hne Hh nd Ho IH) as [H _]; apply H.
Qed.
Lemma rdr_total rank n : (∀ o, fine o) → (∀ o nd p, g !! o = Some nd → p ∈ ops nd → rank p < rank o) →
  (∀ o nd, g !! o = Some nd → size o * m ≠ 1 ∨ length (ops nd) ≤ 1) →
  ∀ o, is_Some (g !! o) → o ≠ w → rank o < n → is_Some (rdr n g o w).
Proof.
  intros Hfine Hrank Hc. induction n as [|n IH]; intros o [nd Ho] Hne Hlt; [lia|].
  assert (Hch : ∀ p, p ∈ ops nd → p ≠ w → is_Some (rdr n g p w)).
  { intros p Hp Hpw. apply IH; [|done|specialize (Hrank o nd p Ho Hp); lia]. destruct Hg as [Hnd _]. by apply (Hnd o nd Ho). }
  destruct (Hfine o) as [Hp|Hh].
  - eapply (proper_total n o nd); [done|done|done|by apply (Hc o)|]. intros p Hpin Hpw.
    destruct (Hch p Hpin Hpw) as [res Hres]. exists res. split; [done|]. by apply (rdr_sound n).
  - destruct (handle_step n o Hne Hh nd Ho (rdr_sound n Hfine)) as [_ H]. by apply H.
Qed.

Lemma result_good o res : ¬ alias g size w J o → good o res → result_is res (size o) m (T o).
Proof. intros Ha. destruct res as [r|]; [|done]. intros [_ [H|(H & _)]]; done. Qed.

Lemma forward_right o : (∀ o, fine o) → o ≠ w → ¬ alias g size w J o →
  ∀ res, returns g o w res → result_is res (size o) m (T o).
Proof. intros Hf Hne Ha res [n Hn]. apply result_good; [done|]. by apply (rdr_sound n). Qed.
Lemma forward_returns o : (∀ o, fine o) → is_Some (g !! o) → o ≠ w →
  (∀ o nd, g !! o = Some nd → size o * m ≠ 1 ∨ length (ops nd) ≤ 1) → ∃ res, returns g o w res.
Proof.
  intros Hf Ho Hne Hc. destruct Hg as [_ [rank Hrank]].
  destruct (rdr_total rank (S (rank o)) Hf Hrank Hc o Ho Hne) as [res Hres]; [lia|]. exists res. by exists (S (rank o)).
Qed.

(* ------------------------------------------------------------------ *)
(** Left factors: lmult_wrt and lop. *)

Definition left_ok (q : nat) (A : mat) (P : rep → Prop) (res : option rep) : Prop :=
  match res with
  | None => meq q m A mzero
  | Some r => stores r q m A ∧ no_lin r = true ∧ P r
  end.

Lemma reverse_loop q nd use left f (C : nat → mat) P :
  ∀ ps l As, all_store q m l As → Forall P l →
  (∀ p, p ∈ ps → p ≠ w → ∃ b, use p = Some b ∧
     if b : bool then
       match jac nd p with
       | None => meq q m (C p) mzero
       | Some j => ∃ l' res, left j = Some l' ∧ f l' p = Some res ∧ left_ok q (C p) P res
       end
     else meq q m (C p) mzero) →
  ∃ l' Bs, foldl (add_reverse w nd use left f) (Some l) ps = Some l' ∧ all_store q m l' (As ++ Bs) ∧ Forall P l' ∧
    meq q m (msum Bs) (λ i j, rsum ((λ p, if decide (p = w) then 0%R else C p i j) <$> ps)).
Proof.
  induction ps as [|p ps IH]; intros l As Hl HP Hps.
  - exists l, []. rewrite app_nil_r. split_and!; [done..|]. by intros i j _ _.
  - simpl. assert (Hrec : ∀ p', p' ∈ ps → p' ≠ w → _) by (intros p' Hp'; apply (Hps p'); by right).
    destruct (decide (p = w)) as [->|Hpw].
    + destruct (IH l As Hl HP Hrec) as (l' & Bs & H1 & H2 & H3 & H4). exists l', Bs. split_and!; [done..|].
      intros i j Hi Hj. rewrite H4 by done. by rewrite Rplus_0_l.
    + assert (Hskip : meq q m (C p) mzero → ∃ l' Bs, foldl (add_reverse w nd use left f) (Some l) ps = Some l' ∧ all_store q m l' (As ++ Bs) ∧ Forall P l' ∧
        meq q m (msum Bs) (λ i j, C p i j + rsum ((λ p, if decide (p = w) then 0%R else C p i j) <$> ps))%R).
      { intros Hz. destruct (IH l As Hl HP Hrec) as (l' & Bs & H1 & H2 & H3 & H4). exists l', Bs. split_and!; [done..|].
        intros i j Hi Hj. rewrite H4 by done. rewrite Hz by done. unfold mzero. by rewrite Rplus_0_l. }
      destruct (Hps p ltac:(left) Hpw) as (b & Eb & Hb). rewrite Eb. simpl. destruct b; [|by apply Hskip].
      destruct (jac nd p) as [jp|]; [|by apply Hskip]. destruct Hb as (l1 & res & E1 & E2 & Hok). rewrite E1. simpl. rewrite E2. simpl.
      destruct res as [r|]; simpl; [|rewrite app_nil_r; by apply Hskip]. destruct Hok as (Hst & Hlin & HPr).
      destruct (IH (l ++ [r]) (As ++ [C p])) as (l' & Bs & H1 & H2 & H3 & H4).
      { apply Forall2_app; [done|]. constructor; [by split|constructor]. }
      { apply Forall_app. split; [done|]. constructor; [done|constructor]. }
      { exact Hrec. }
      exists l', (C p :: Bs). split; [done|]. split; [by rewrite <- app_assoc in H2|]. split; [done|].
      intros i j Hi Hj. transitivity (C p i j + msum Bs i j)%R; [done|]. by rewrite H4.
Qed.

(** A left factor times the total derivative, operand by operand. *)
Lemma left_split q L o nd : g !! o = Some nd → o ≠ w →
  meq q m (mmult (size o) L (T o))
    (λ i j, (if decide (w ∈ ops nd) then mmult (size o) L (J o w) i j else 0) +
            rsum ((λ p, if decide (p = w) then 0%R else mmult (size p) (mmult (size o) L (J o p)) (T p) i j) <$> ops nd))%R.
Proof.
  intros Ho Hne i j Hi Hj. unfold mmult at 1.
  rewrite (rsum_ext _ (λ l, L i l * (if decide (w ∈ ops nd) then J o w l j else 0) + L i l * others o (ops nd) l j)%R).
  2:{ intros l Hl. apply elem_of_seq in Hl. rewrite (split_w o nd) by (done || lia). ring. }
  rewrite rsum_plus. f_equal.
  - destruct (decide _); [done|]. apply rsum_zero. intros; ring.
  - unfold others. rewrite (rsum_ext _ (λ l, rsum ((λ p, L i l * (if decide (p = w) then 0 else mmult (size p) (J o p) (T p) l j))%R <$> ops nd))).
    2:{ intros l _. by rewrite rsum_scal. }
    rewrite rsum_swap. apply rsum_ext. intros p _. destruct (decide (p = w)); [apply rsum_zero; intros; ring|].
    symmetry. by apply (mmult_assoc q (size o) (size p) m).
Qed.

Lemma isdr_total rank n : (∀ o nd p, g !! o = Some nd → p ∈ ops nd → rank p < rank o) →
  ∀ o, is_Some (g !! o) → rank o < n → ∃ b, isdr n g o w = Some b ∧ (b = false → o ≠ w → meq (size o) m (T o) mzero).
Proof.
  intros Hrank. induction n as [|n IH]; intros o [nd Ho] Hlt; [lia|]. simpl. rewrite Ho. simpl.
  destruct HT as [_ HTo].
  assert (Hch : ∀ p, p ∈ ops nd → ∃ b, isdr n g p w = Some b ∧ (b = false → p ≠ w → meq (size p) m (T p) mzero)).
  { intros p Hp. apply IH; [|specialize (Hrank o nd p Ho Hp); lia]. destruct Hg as [Hnd _]. by apply (Hnd o nd Ho). }
  destruct (ops nd) as [|p0 ps0] eqn:Eo.
  - eexists. split; [done|]. intros _ Hne i j Hi Hj. rewrite (HTo o nd) by done. by rewrite Eo.
  - rewrite <- Eo in *. clear p0 ps0 Eo. destruct (decide (w ∈ ops nd)) as [Hw|Hw]; [by exists true|].
    assert (Hmap : ∃ bs, mapM (λ p, isdr n g p w) (ops nd) = Some bs ∧
      (existsb (λ b : bool, b) bs = false → ∀ p, p ∈ ops nd → meq (size p) m (T p) mzero)).
    { revert Hch Hw. generalize (ops nd). induction l as [|p ps IHp]; intros Hch Hw.
      - exists []. split; [done|]. intros _ p Hp. by apply elem_of_nil in Hp.
      - destruct (Hch p ltac:(left)) as (b & Eb & Hb).
        destruct IHp as (bs & Ebs & Hbs); [intros p' Hp'; apply Hch; by right|intros Hin; apply Hw; by right|].
        exists (b :: bs). simpl. rewrite Eb. simpl. rewrite Ebs. split; [done|].
        intros Hex p' Hp'. apply orb_false_iff in Hex as [-> Hex]. apply elem_of_cons in Hp' as [->|Hp']; [|by apply Hbs].
        apply Hb; [done|]. intros ->. apply Hw. left. }
    destruct Hmap as (bs & Ebs & Hbs). rewrite Ebs. simpl. eexists. split; [done|]. intros Hex Hne i j Hi Hj.
    rewrite (HTo o nd) by done. apply rsum_zero. intros p Hp.
    exact (mmult_zero_r (size o) (size p) m (J o p) (T p) (Hbs Hex p Hp) i j Hi Hj).
Qed.

(** lmult_wrt, for sparse Jacobians. *)
Lemma rlmult_right rank n : (∀ o, proper g size J sparse_only o) → (∀ o nd p, g !! o = Some nd → p ∈ ops nd → rank p < rank o) →
  ∀ o q L lhs, is_Some (g !! o) → o ≠ w → rank o < n → stores lhs q (size o) L → sparse_only lhs = true →
  ∃ res, rlmult n g lhs o w = Some res ∧ left_ok q (mmult (size o) L (T o)) (λ r, sparse_only r = true) res.
Proof.
  intros Hp Hrank. induction n as [|n IH]; intros o q L lhs [nd Ho] Hne Hlt Hlhs Hsp; [lia|].
  destruct (Hp o nd Ho) as [Hout Hj]. simpl. rewrite Ho. simpl.
  assert (Hlin : ∀ r, sparse_only r = true → no_lin r = true) by (by intros []).
  assert (Hdir : ∃ l0 As, (match jac nd w with
             | None => Some []
             | Some j => t ← truth_ne_none j;
                         if t : bool then r ← superdot lhs j; Some [r] else Some []
             end) = Some l0 ∧ all_store q m l0 As ∧ Forall (λ r, sparse_only r = true) l0 ∧
             meq q m (msum As) (λ i j, if decide (w ∈ ops nd) then mmult (size o) L (J o w) i j else 0%R)).
  { destruct (decide (w ∈ ops nd)) as [Hin|Hin].
    - specialize (Hj w Hin). destruct (jac nd w) as [jw|].
      + destruct Hj as [Hst Hjs]. destruct (superdot_stores lhs jw q (size o) m L (J o w) Hlhs (stores_means _ _ _ _ Hst)) as (r & Er & Hr & _ & Hrs).
        exists [r], [mmult (size o) L (J o w)]. split; [destruct jw; try done; simpl; by rewrite Er|].
        split; [constructor; [split; [done|by apply Hlin, Hrs]|constructor]|]. split; [constructor; [by apply Hrs|constructor]|].
        intros i j _ _. unfold msum. simpl. ring.
      + exists [], []. split_and!; [done|constructor|constructor|]. intros i j Hi Hk. symmetry. exact (mmult_zero_r q (size o) m L (J o w) Hj i j Hi Hk).
    - rewrite (Hout w Hin). exists [], []. split_and!; [done|constructor|constructor|]. by intros i j _ _. }
  destruct Hdir as (l0 & As & -> & HA & HAs & HAm). simpl.
  destruct (reverse_loop q nd (λ p, isdr n g p w) (superdot lhs) (λ l p, rlmult n g l p w)
    (λ p, mmult (size p) (mmult (size o) L (J o p)) (T p)) (λ r, sparse_only r = true) (ops nd) l0 As HA HAs) as (l' & Bs & El & HB & HBs & HBm).
  { intros p Hpo Hpw. destruct Hg as [Hnd _]. destruct (Hnd o nd Ho) as [_ Hin].
    assert (rank p < n) as Hlt' by (specialize (Hrank o nd p Ho Hpo); lia).
    destruct (isdr_total rank n Hrank p (Hin p Hpo) Hlt') as (b & Eb & Hb). exists b. split; [done|]. destruct b.
    - specialize (Hj p Hpo). destruct (jac nd p) as [jp|].
      + destruct Hj as [Hst Hjs]. destruct (superdot_stores lhs jp q (size o) (size p) L (J o p) Hlhs (stores_means _ _ _ _ Hst)) as (r & Er & Hr & _ & Hrs).
        destruct (IH p q (mmult (size o) L (J o p)) r (Hin p Hpo) Hpw Hlt' Hr (Hrs Hsp Hjs)) as (res & Eres & Hok).
        exists r, res. done.
      + apply (mmult_zero_l q). by apply (mmult_zero_r q).
    - apply (mmult_zero_r q). by apply Hb. }
  rewrite El. simpl.
  assert (Hsum : meq q m (msum (As ++ Bs)) (mmult (size o) L (T o))).
  { intros i j Hi Hk. rewrite msum_app, HAm, HBm by done. symmetry. by apply (left_split q L o nd). }
  destruct l' as [|d l'].
  - apply Forall2_nil_inv_l in HB. rewrite HB in Hsum. eexists. split; [done|]. by apply meq_sym.
  - apply Forall2_cons_inv_l in HB as (A & Cs & [Hd Ld] & Hl & HE). apply list.Forall_cons in HBs as [Hds HBs].
    destruct (rsum_reps_total q m l' d A Cs) as [r Er]; [done..|by right; left|]. rewrite Er. eexists. split; [done|].
    destruct (rsum_reps_sound q m l' d A Cs r) as [Hst Hlr]; [done..|]. rewrite <- HE in Hst. split; [by eapply stores_meq|]. split; [done|].
    clear -Er Hds HBs. unfold rsum_reps in Er. revert d Er Hds. induction HBs as [|y l Hy _ IHl]; intros d Er Hds; [by injection Er as <-|].
    simpl in Er. destruct (radd d y) as [t|] eqn:Et; [|by rewrite foldl_radd_none in Er]. apply (IHl t Er). by eapply radd_sparse.
Qed.

Lemma reverse_right o : (∀ o, proper g size J sparse_only o) → is_Some (g !! o) → o ≠ w →
  ∃ res, returns_rev g o w res ∧ result_is res (size o) m (T o).
Proof.
  intros Hp [nd Ho] Hne. destruct Hg as [Hnd [rank Hrank]]. destruct (Hp o nd Ho) as [Hout Hj].
  assert (Hlin : ∀ r, sparse_only r = true → no_lin r = true) by (by intros []).
  assert (Hp' : proper g size J no_lin o).
  { intros nd' E. rewrite Ho in E. injection E as <-. split; [done|]. intros p Hpo. specialize (Hj p Hpo).
    destruct (jac nd p); [|done]. destruct Hj as [? ?]. split; [done|by apply Hlin]. }
  destruct (direct_store o nd Ho Hp') as (As & HA & HAm & _).
  assert (HAs : Forall (λ r, sparse_only r = true) (option_list (jac nd w))).
  { destruct (decide (w ∈ ops nd)) as [Hin|Hin]; [|rewrite (Hout w Hin); constructor]. specialize (Hj w Hin).
    destruct (jac nd w); [|constructor]. constructor; [by destruct Hj|constructor]. }
  destruct (reverse_loop (size o) nd (λ _, Some true) Some (λ l p, rlmult (rank o) g l p w)
    (λ p, mmult (size p) (J o p) (T p)) (λ r, sparse_only r = true) (ops nd) _ As HA HAs) as (l' & Bs & El & HB & HBs & HBm).
  { intros p Hpo Hpw. exists true. split; [done|]. specialize (Hj p Hpo). destruct (jac nd p) as [jp|]; [|by apply (mmult_zero_l (size o))].
    destruct Hj as [Hst Hjs]. destruct (Hnd o nd Ho) as [_ Hin].
    destruct (rlmult_right rank (rank o) Hp Hrank p (size o) (J o p) jp (Hin p Hpo) Hpw (Hrank o nd p Ho Hpo) Hst Hjs) as (res & Er & Hok).
    exists jp, res. done. }
  assert (Hsum : meq (size o) m (msum (As ++ Bs)) (T o)).
  { intros i j Hi Hk. rewrite msum_app, HAm, HBm by done. symmetry. by apply split_w. }
  destruct (conclude_total (size o) m l' (As ++ Bs) HB) as [res Ec]; [by right; left|].
  exists res. split.
  - exists (rank o). unfold rdr_rev. rewrite Ho. simpl. rewrite El. done.
  - pose proof (conclude_sound _ _ _ _ _ HB Ec) as Hr. destruct res as [r|].
    + destruct Hr as [Hm Hl]. by eapply is_mat_meq.
    + destruct Hr as [_ HE]. rewrite HE in Hsum. by apply meq_sym in Hsum.
Qed.

(** lop, for all formats but LinearOperators. *)
Lemma densify_stores r n k A : stores r n k A → no_lin r = true → stores (densify r) n k A ∧ no_lin (densify r) = true ∧ sparse_only (densify r) = false.
Proof.
  intros Hr Hl. destruct r as [c|a|n' k' f|]; [done|done| |done]. split; [|done]. destruct Hr as [(-> & -> & Hf)|(_ & _ & [])].
  left. by apply arr2_is.
Qed.

Lemma local_means o nd p jp : g !! o = Some nd → fine o → p ∈ ops nd → jac nd p = Some jp → (means jp (size o) (size p) (J o p) ∧ no_lin jp = true).
Proof.
  intros Ho [Hp|(nd' & p' & r & c & Ho' & Eops & Ej & Eout & Ez & Hn & Hc & Hsz & HJ)] Hin Hjp.
  - destruct (Hp nd Ho) as [_ H]. specialize (H p Hin). rewrite Hjp in H. destruct H as [H1 H2]. split; [by left|done].
  - rewrite Ho in Ho'. injection Ho' as <-. destruct (decide (p = p')) as [->|Hne]; [|by rewrite Eout in Hjp].
    rewrite Ej in Hjp. injection Hjp as <-. split; [|by destruct r]. right. split; [done|]. by exists c.
Qed.
Lemma local_none o nd p : g !! o = Some nd → fine o → p ∈ ops nd → jac nd p = None → meq (size o) (size p) (J o p) mzero.
Proof.
  intros Ho [Hp|(nd' & p' & r & c & Ho' & Eops & Ej & Eout & Ez & Hn & Hc & Hsz & HJ)] Hin Hjp.
  - destruct (Hp nd Ho) as [_ H]. specialize (H p Hin). by rewrite Hjp in H.
  - rewrite Ho in Ho'. injection Ho' as <-. apply Ez; [done|]. intros ->. by rewrite Ej in Hjp.
Qed.
Lemma local_out o nd p : g !! o = Some nd → fine o → p ∉ ops nd → jac nd p = None.
Proof.
  intros Ho [Hp|(nd' & p' & r & c & Ho' & Eops & Ej & Eout & Ez & Hn & Hc & Hsz & HJ)] Hin.
  - destruct (Hp nd Ho) as [H _]. by apply H.
  - rewrite Ho in Ho'. injection Ho' as <-. apply Eout. by intros ->.
Qed.

Lemma rlop_right rank n : (∀ o, fine o) → (∀ o nd p, g !! o = Some nd → p ∈ ops nd → rank p < rank o) →
  ∀ o q L lhs, is_Some (g !! o) → o ≠ w → rank o < n → stores lhs q (size o) L → no_lin lhs = true →
  ∃ res, rlop n g lhs o w = Some res ∧ left_ok q (mmult (size o) L (T o)) (λ _, True) res.
Proof.
  intros Hf Hrank. induction n as [|n IH]; intros o q L lhs [nd Ho] Hne Hlt Hlhs Hsp; [lia|].
  simpl. rewrite Ho. simpl.
  assert (Hdir : ∃ l0 As, (match jac nd w with None => Some [] | Some j => r ← superdot lhs j; Some [r] end) = Some l0 ∧
             all_store q m l0 As ∧
             meq q m (msum As) (λ i j, if decide (w ∈ ops nd) then mmult (size o) L (J o w) i j else 0%R)).
  { destruct (decide (w ∈ ops nd)) as [Hin|Hin].
    - destruct (jac nd w) as [jw|] eqn:Ejw.
      + destruct (local_means o nd w jw Ho (Hf o) Hin Ejw) as [Hm Hml].
        destruct (superdot_stores lhs jw q (size o) m L (J o w) Hlhs Hm) as (r & Er & Hr & Hrl & _).
        exists [r], [mmult (size o) L (J o w)]. split; [by rewrite Er|].
        split; [constructor; [split; [done|by apply Hrl]|constructor]|].
        intros i j _ _. unfold msum. simpl. ring.
      + exists [], []. split_and!; [done|constructor|]. intros i j Hi Hk. symmetry.
        exact (mmult_zero_r q (size o) m L (J o w) (local_none o nd w Ho (Hf o) Hin Ejw) i j Hi Hk).
    - rewrite (local_out o nd w Ho (Hf o) Hin). exists [], []. split_and!; [done|constructor|]. by intros i j _ _. }
  destruct Hdir as (l0 & As & -> & HA & HAm). simpl.
  destruct (reverse_loop q nd (λ _, Some true) (superdot lhs) (λ l p, rlop n g l p w)
    (λ p, mmult (size p) (mmult (size o) L (J o p)) (T p)) (λ _, True) (ops nd) l0 As HA) as (l' & Bs & El & HB & _ & HBm).
  { clear. induction l0; constructor; done. }
  { intros p Hpo Hpw. destruct Hg as [Hnd _]. destruct (Hnd o nd Ho) as [_ Hin].
    assert (rank p < n) as Hlt' by (specialize (Hrank o nd p Ho Hpo); lia). exists true. split; [done|].
    destruct (jac nd p) as [jp|] eqn:Ejp.
    - destruct (local_means o nd p jp Ho (Hf o) Hpo Ejp) as [Hm Hml].
      destruct (superdot_stores lhs jp q (size o) (size p) L (J o p) Hlhs Hm) as (r & Er & Hr & Hrl & _).
      destruct (IH p q (mmult (size o) L (J o p)) r (Hin p Hpo) Hpw Hlt' Hr (Hrl Hsp Hml)) as (res & Eres & Hok).
      exists r, res. done.
    - apply (mmult_zero_l q). apply (mmult_zero_r q). by eapply local_none. }
  rewrite El. simpl.
  assert (Hsum : meq q m (msum (As ++ Bs)) (mmult (size o) L (T o))).
  { intros i j Hi Hk. rewrite msum_app, HAm, HBm by done. symmetry. by apply (left_split q L o nd). }
  assert (HD : all_store q m (densify <$> l') (As ++ Bs) ∧ Forall (λ r, sparse_only r = false) (densify <$> l')).
  { clear -HB. induction HB as [|r A l As' [Hr Hl] _ [IH1 IH2]]; [split; constructor|].
    destruct (densify_stores r q m A Hr Hl) as (H1 & H2 & H3). split; by constructor. }
  destruct HD as [HD HDs]. destruct (densify <$> l') as [|d l2].
  - apply Forall2_nil_inv_l in HD. rewrite HD in Hsum. eexists. split; [done|]. by apply meq_sym.
  - apply Forall2_cons_inv_l in HD as (A & Cs & [Hd Ld] & Hl & HE). apply list.Forall_cons in HDs as [Hds HDs].
    destruct (rsum_reps_total q m l2 d A Cs) as [r Er]; [done..|by right; right; left|]. rewrite Er. eexists. split; [done|].
    destruct (rsum_reps_sound q m l2 d A Cs r) as [Hst Hlr]; [done..|]. rewrite <- HE in Hst. split; [by eapply stores_meq|]. done.
Qed.
Lemma lop_right o q L lhs : (∀ o, fine o) → is_Some (g !! o) → o ≠ w → stores lhs q (size o) L → no_lin lhs = true →
  ∃ res, returns_lop g lhs o w res ∧
    match res with
    | None => meq q m (mmult (size o) L (T o)) mzero
    | Some r => stores r q m (mmult (size o) L (T o))
    end.
Proof.
  intros Hf Ho Hne Hl Hn. destruct Hg as [_ [rank Hrank]].
  destruct (rlop_right rank (S (rank o)) Hf Hrank o q L lhs Ho Hne) as (res & Er & Hok); [lia|done|done|].
  exists res. split; [by exists (S (rank o))|]. destruct res; [|done]. by destruct Hok.
Qed.
End graph.
