(** Stored Jacobians with LinearOperators: right as long as no object adds up more than two. *)
From Coq Require Import Reals Lra.
From stdpp Require Import gmap list list_numbers relations.
From Verif Require Import ArrModel ArrThms RepModel RepSpec RepThms RepSum RepGraph RepDemo RepOpsSpec.

Lemma stores_many r n m A : stores r n m A → n * m ≠ 1 → is_mat r n m A.
Proof. intros [H|(-> & -> & _)] Hn; [done|lia]. Qed.

Lemma finish_any r n m A : stores r n m A → ∃ r', finish r = Some r' ∧ is_mat r' n m A ∧ (no_lin r = true → no_lin r' = true).
Proof.
  intros Hr. destruct (no_lin r) eqn:Hl.
  - destruct (finish_is r n m A Hr Hl) as (r' & E & H1 & H2). by exists r'.
  - destruct r as [| | |ln lm lf]; try done. exists (Lin ln lm lf). split; [done|]. split; [|done]. by destruct Hr as [Hr|(_ & _ & [])].
Qed.

Definition all_any (n m : nat) (l : list rep) (As : list mat) : Prop := Forall2 (λ r A, stores r n m A) l As.
Definition clean (l : list rep) : Prop := Forall (λ r, no_lin r = true) l.
Definition few (n m : nat) (l : list rep) : Prop := clean l ∨ length l ≤ 1 ∨ length l ≤ 2 ∧ n * m ≠ 1.

Lemma any_store n m l As : all_any n m l As → clean l → all_store n m l As.
Proof. induction 1; intros Hc; [constructor|]. apply Forall_cons in Hc as [? ?]. constructor; [done|]. by apply IHForall2. Qed.
Lemma clean_lin l : clean l ↔ existsb is_lin l = false.
Proof.
  induction l as [|r l IH]; [by split; [|constructor]|]. simpl. rewrite orb_false_iff, <- IH. unfold clean. rewrite Forall_cons.
  destruct r; simpl; naive_solver.
Qed.

Lemma conclude_any n m l As : all_any n m l As → few n m l →
  (∀ res, conclude l = Some res → match res with
    | None => l = [] ∧ As = []
    | Some r => is_mat r n m (msum As) ∧ (clean l → no_lin r = true)
    end) ∧
  (n * m ≠ 1 ∨ length l ≤ 1 → is_Some (conclude l)).
Proof.
  intros Hl Hfew. destruct (existsb is_lin l) eqn:Hlin.
  2:{ apply clean_lin in Hlin as Hcl. pose proof (any_store _ _ _ _ Hl Hcl) as Hst. split.
      - intros res Hc. pose proof (conclude_sound n m l As res Hst Hc) as H. destruct res; naive_solver.
      - intros Hc. apply (conclude_total n m l As Hst). destruct Hc; [by left|by right; right]. }
  assert (Hncl : ¬ clean l) by (rewrite clean_lin; congruence).
  assert (Hcase : length l ≤ 1 ∨ length l ≤ 2 ∧ n * m ≠ 1) by (by destruct Hfew as [?|?]).
  destruct Hl as [|d A l As Hd Hl]; [done|]. destruct Hl as [|e B l As He Hl].
  - destruct (finish_any d n m A Hd) as (r' & E & Hm & _). unfold conclude. simpl. rewrite E. simpl. split; [|by intros _; eexists].
    intros res [= <-]. split; [|done]. eapply is_mat_meq; [|done]. intros i j _ _. unfold msum. simpl. ring.
  - destruct Hcase as [Hc|[Hc Hnm]]; [simpl in Hc; lia|]. destruct Hl as [|f C l As Hf Hl]; [|simpl in Hc; lia].
    destruct (two_operators d e n m A B) as (r & E & Hm); [by apply stores_many|by apply stores_many|done|].
    unfold conclude. rewrite E. simpl. destruct (finish_any r n m _ ltac:(by left)) as (r' & Ef & Hm' & _). rewrite Ef. simpl.
    split; [|by intros _; eexists]. intros res [= <-]. split; [|done]. eapply is_mat_meq; [|done].
    intros i j _ _. unfold msum, mplus. simpl. ring.
Qed.

Section graph.
Context (g : rgraph) (size : nat → nat) (w : nat) (J : nat → nat → mat) (T : nat → mat).
Hypothesis Hg : sound_graph g.
Hypothesis HT : chain_rule g size w J T.
Notation m := (size w).
Notation any := (λ _ : rep, true).
Notation others := (others size w J T).

(** What dr_wrt has to return. *)
Definition right (o : nat) (res : option rep) : Prop :=
  match res with
  | None => meq (size o) m (T o) mzero
  | Some r => (operator_free g size J o → no_lin r = true) ∧
      (is_mat r (size o) m (T o) ∨
       alias g size w J o ∧ size o = m ∧ ∃ c, c ≠ 0%R ∧ is_num r c ∧ meq (size o) m (T o) (mscal c))
  end.
Lemma right_means o r : right o (Some r) → means r (size o) m (T o).
Proof.
  intros [_ [H|(_ & Hs & c & _ & Hn & Hc)]]; [by left; left|]. right. split; [done|]. by exists c.
Qed.
Lemma free_below o nd p : operator_free g size J o → g !! o = Some nd → p ∈ ops nd → operator_free g size J p.
Proof. intros H Ho Hp q Hq. apply H. eapply rtc_l; [|done]. by exists nd. Qed.
Lemma free_here o : operator_free g size J o → proper g size J no_lin o ∨ handle g size J o.
Proof. intros H. apply H. constructor. Qed.

(** The loop over the operands, for classes that return matrices. *)
Lemma any_sound o nd f : g !! o = Some nd → proper g size J any o →
  ∀ ps l As l', (∀ p, p ∈ ps → p ∈ ops nd) → (∀ p res, p ∈ ps → p ≠ w → f p = Some res → right p res) →
  all_any (size o) m l As → foldl (add_forward w nd f) (Some l) ps = Some l' →
  ∃ Bs, all_any (size o) m l' (As ++ Bs) ∧ meq (size o) m (msum Bs) (others o ps) ∧
    length Bs ≤ length (filter (λ p, p ≠ w) ps) ∧
    (operator_free g size J o → proper g size J no_lin o → clean l → clean l').
Proof.
  intros Ho Hp. destruct (Hp nd Ho) as [_ Hj]. induction ps as [|p ps IH]; intros l As l' Hin Hf Hl.
  - intros [= <-]. exists []. split; [by rewrite app_nil_r|]. split; [|split; [simpl; lia|done]]. by intros i j _ _.
  - simpl. destruct (decide (p = w)) as [->|Hpw].
    + intros H. destruct (IH l As l') as (Bs & H1 & H2 & H3 & H4); [by intros; apply Hin; right|by intros; eapply Hf; [by right|..]|done|done|].
      exists Bs. split; [done|]. split; [|split; [|done]].
      * intros i j Hi Hj'. rewrite H2 by done. rewrite others_cons, decide_True by done. ring.
      * rewrite filter_cons_False by naive_solver. done.
    + assert (p ∈ ops nd) as Hpo by (apply Hin; left). specialize (Hj p Hpo).
      destruct (f p) as [dr2|] eqn:Efp; [|by rewrite forward_none]. simpl.
      pose proof (Hf p dr2 ltac:(left) Hpw Efp) as Hgood.
      rewrite filter_cons_True by done. simpl.
      assert (Hskip : meq (size o) m (mmult (size p) (J o p) (T p)) mzero →
        foldl (add_forward w nd f) (Some l) ps = Some l' → ∃ Bs, all_any (size o) m l' (As ++ Bs) ∧
          meq (size o) m (msum Bs) (others o (p :: ps)) ∧ length Bs ≤ S (length (filter (λ p, p ≠ w) ps)) ∧
          (operator_free g size J o → proper g size J no_lin o → clean l → clean l')).
      { intros Hz H. destruct (IH l As l') as (Bs & H1 & H2 & H3 & H4); [by intros; apply Hin; right|by intros; eapply Hf; [by right|..]|done|done|].
        exists Bs. split; [done|]. split; [|split; [lia|done]]. intros i j Hi Hj'. rewrite H2 by done.
        rewrite others_cons, decide_False by done. rewrite Hz by done. unfold mzero. ring. }
      destruct dr2 as [d2|]; [|apply Hskip; by apply (mmult_zero_r (size o))].
      destruct (jac nd p) as [jp|] eqn:Ej; [|apply Hskip; by apply (mmult_zero_l (size o))].
      destruct Hj as [Hst _].
      destruct (superdot_stores jp d2 (size o) (size p) m (J o p) (T p) Hst (right_means p d2 Hgood)) as (r & Er & Hr & Hlr & _).
      rewrite Er. simpl. intros H. destruct (IH (l ++ [r]) (As ++ [mmult (size p) (J o p) (T p)]) l') as (Bs & H1 & H2 & H3 & H4);
        [by intros; apply Hin; right|by intros; eapply Hf; [by right|..]| |done|].
      { apply Forall2_app; [done|]. by constructor; [|constructor]. }
      exists (mmult (size p) (J o p) (T p) :: Bs). split; [by rewrite <- app_assoc in H1|]. split; [|split; [simpl; lia|]].
      * intros i j Hi Hj'. transitivity (mmult (size p) (J o p) (T p) i j + msum Bs i j)%R; [done|]. rewrite H2 by done.
        by rewrite others_cons, decide_False by done.
      * intros Hfree Hpr Hcl. apply H4; [done|done|]. apply Forall_app. split; [done|]. constructor; [|constructor].
        destruct (Hpr nd Ho) as [_ Hj2]. specialize (Hj2 p Hpo). rewrite Ej in Hj2. destruct Hj2 as [_ Hj2].
        apply Hlr; [done|]. destruct Hgood as [Hno _]. apply Hno. by eapply free_below.
Qed.
Lemma any_total o nd f : g !! o = Some nd → proper g size J any o →
  ∀ ps l, (∀ p, p ∈ ps → p ∈ ops nd) → (∀ p, p ∈ ps → p ≠ w → ∃ res, f p = Some res ∧ right p res) →
  is_Some (foldl (add_forward w nd f) (Some l) ps).
Proof.
  intros Ho Hp. destruct (Hp nd Ho) as [_ Hj]. induction ps as [|p ps IH]; intros l Hin Hf; [by eexists|].
  simpl. destruct (decide (p = w)) as [->|Hpw].
  - apply IH; [by intros; apply Hin; right|by intros; apply Hf; [right|]].
  - destruct (Hf p ltac:(left) Hpw) as (res & Er & Hgood). rewrite Er. simpl.
    assert (Hrec : ∀ l, is_Some (foldl (add_forward w nd f) (Some l) ps)).
    { intros l'. apply IH; [by intros; apply Hin; right|by intros; apply Hf; [right|]]. }
    destruct res as [d2|]; [|done]. specialize (Hj p ltac:(apply Hin; left)). destruct (jac nd p) as [jp|]; [|done].
    destruct Hj as [Hst _].
    destruct (superdot_stores jp d2 (size o) (size p) m (J o p) (T p) Hst (right_means p d2 Hgood)) as (r & Er2 & _).
    rewrite Er2. apply Hrec.
Qed.
Lemma any_direct o nd : g !! o = Some nd → proper g size J any o →
  ∃ As, all_any (size o) m (option_list (jac nd w)) As ∧
    meq (size o) m (msum As) (λ i j, if decide (w ∈ ops nd) then J o w i j else 0%R) ∧
    length As ≤ length (filter (λ p, p = w) (ops nd)) ∧
    (proper g size J no_lin o → clean (option_list (jac nd w))).
Proof.
  intros Ho Hp. destruct (Hp nd Ho) as [Hout Hj].
  assert (Hcl : proper g size J no_lin o → clean (option_list (jac nd w))).
  { intros Hpr. destruct (Hpr nd Ho) as [Hout' Hj']. destruct (decide (w ∈ ops nd)) as [Hin|Hin].
    - specialize (Hj' w Hin). destruct (jac nd w); [|constructor]. constructor; [by destruct Hj'|constructor].
    - rewrite (Hout' w Hin). constructor. }
  destruct (decide (w ∈ ops nd)) as [Hin|Hin].
  - specialize (Hj w Hin). destruct (jac nd w) as [j|].
    + exists [J o w]. split; [constructor; [by destruct Hj|constructor]|]. split; [|split; [|done]].
      * intros i k Hi Hk. unfold msum. simpl. ring.
      * assert (w ∈ filter (λ p, p = w) (ops nd)) as Hf by (by apply elem_of_list_filter).
        destruct (filter _ _); [by apply elem_of_nil in Hf|simpl; lia].
    + exists []. split; [constructor|]. split; [|split; [simpl; lia|done]]. intros i k Hi Hk. by rewrite Hj.
  - rewrite (Hout w Hin) in Hcl |- *. exists []. split; [constructor|]. split; [|split; [simpl; lia|done]]. by intros i k Hi Hk.
Qed.

Lemma proper_handle o : proper g size J any o → handle g size J o → proper g size J no_lin o.
Proof.
  intros Hp (nd & p & r & c & Ho & Hin & Ej & Hout & Hz & Hn & _) nd' Ho'. rewrite Ho in Ho'. injection Ho' as <-.
  destruct (Hp nd Ho) as [H1 H2]. split; [done|]. intros q Hq. specialize (H2 q Hq). destruct (decide (q = p)) as [->|Hqp].
  - rewrite Ej in H2 |- *. destruct H2 as [H2 _]. split; [done|]. by destruct r.
  - by rewrite (Hout q Hqp) in H2 |- *.
Qed.
Lemma any_few o nd l As Bs : sums_few g size w J o → g !! o = Some nd → all_any (size o) m l (As ++ Bs) →
  length As ≤ length (filter (λ p, p = w) (ops nd)) → length Bs ≤ length (filter (λ p, p ≠ w) (ops nd)) →
  (operator_free g size J o → clean l) → few (size o) m l ∧ length l ≤ length (ops nd).
Proof.
  intros Hf Ho Hl HA HB Hc. assert (Hlen : length l ≤ length (ops nd)).
  { rewrite (Forall2_length _ _ _ Hl), app_length. pose proof (filter_lengths w (ops nd)). lia. }
  split; [|done]. destruct (Hf nd Ho) as [H|[[H1 H2]|H1]].
  - right; left. lia.
  - right; right. split; [lia|done].
  - left. by apply Hc.
Qed.

(** One call, for classes that return matrices. *)
Notation round nd f := (drs ← foldl (add_forward w nd f) (Some (option_list (jac nd w))) (ops nd); conclude drs).
Lemma any_step f o nd : o ≠ w → g !! o = Some nd → proper g size J any o → sums_few g size w J o →
  (∀ p res, p ≠ w → f p = Some res → right p res) →
  (∀ res, round nd f = Some res → right o res) ∧
  ((size o * m ≠ 1 ∨ length (ops nd) ≤ 1) → (∀ p, p ∈ ops nd → p ≠ w → is_Some (f p)) → is_Some (round nd f)).
Proof.
  intros Hne Ho Hp Hfew Hrec.
  assert (Hpf : operator_free g size J o → proper g size J no_lin o).
  { intros Hfree. destruct (free_here o Hfree); [done|]. by apply proper_handle. }
  destruct (any_direct o nd Ho Hp) as (As & HA & HAs & LA & CA).
  assert (Hloop : ∀ l', foldl (add_forward w nd f) (Some (option_list (jac nd w))) (ops nd) = Some l' →
    (∀ res, conclude l' = Some res → right o res) ∧ ((size o * m ≠ 1 ∨ length (ops nd) ≤ 1) → is_Some (conclude l'))).
  { intros l' Ef.
    destruct (any_sound o nd f Ho Hp (ops nd) (option_list (jac nd w)) As l') as (Bs & HB & HBs & LB & CB); [done|by intros; eapply Hrec|done|done|].
    assert (Hsum : meq (size o) m (msum (As ++ Bs)) (T o)).
    { intros i j Hi Hj. rewrite msum_app, HAs, HBs by done. symmetry. by apply (split_w g size w J T Hg HT). }
    assert (Hcl : operator_free g size J o → clean l').
    { intros H1. apply CB; [done|by apply Hpf|]. by apply CA, Hpf. }
    destruct (any_few o nd l' As Bs Hfew Ho HB LA LB Hcl) as [Hfl Hlen].
    destruct (conclude_any (size o) m l' (As ++ Bs) HB Hfl) as [C1 C2]. split.
    - intros res Hc. pose proof (C1 res Hc) as Hr. destruct res as [r|].
      + destruct Hr as [Hm Hl]. split; [|left; by eapply is_mat_meq]. intros Hfree. apply Hl. by apply Hcl.
      + destruct Hr as [_ HE]. rewrite HE in Hsum. by apply meq_sym in Hsum.
    - intros [H|H]; apply C2; [by left|right; lia]. }
  split.
  - intros res. destruct (foldl _ _ _) as [l'|]; [|done]. simpl. by destruct (Hloop l' eq_refl) as [H _]; apply H.
  - intros Hs Hch. destruct (any_total o nd f Ho Hp (ops nd) (option_list (jac nd w))) as [l' El]; [done| |].
    { intros p Hin Hpw. destruct (Hch p Hin Hpw) as [res Hr]. exists res. split; [done|]. by apply Hrec. }
    rewrite El. simpl. destruct (Hloop l' El) as [_ H]. by apply H.
Qed.

Lemma any_handle f o : o ≠ w → handle g size J o → ∀ nd, g !! o = Some nd →
  (∀ p res, p ≠ w → f p = Some res → right p res) →
  (∀ res, round nd f = Some res → right o res) ∧
  ((∀ p, p ∈ ops nd → p ≠ w → is_Some (f p)) → is_Some (round nd f)).
Proof.
  intros Hne Hh nd Ho Hrec. pose proof Hh as (nd' & p & r & c & Ho' & Eops & Ej & Eout & Ez & Hn & Hc & Hsz & HJ).
  rewrite Ho in Ho'. injection Ho' as <-. destruct HT as [HTw HTo].
  assert (HTo' : meq (size o) m (T o) (λ i j, c * T p i j)%R).
  { intros i j Hi Hj. rewrite (HTo o nd) by done. destruct Hg as [Hnd _]. destruct (Hnd o nd Ho) as [Hdup _].
    assert (Hid : mmult (size p) (J o p) (T p) i j = (c * T p i j)%R).
    { revert i j Hi Hj. rewrite Hsz in HJ |- *. by apply mmult_scal_l. }
    assert (Hzero : ∀ ps, (∀ q, q ∈ ps → q ∈ ops nd ∧ q ≠ p) → rsum ((λ q, mmult (size q) (J o q) (T q) i j) <$> ps) = 0%R).
    { induction ps as [|q ps IH]; [done|]. intros Hin. rewrite fmap_cons, rsum_cons, IH by (intros; apply Hin; by right).
      destruct (Hin q ltac:(left)) as [Hq Hqp]. rewrite (mmult_zero_l (size o) (size q) m (J o q) (T q) (Ez q Hq Hqp) i j Hi Hj).
      unfold mzero. ring. }
    pose proof Eops as Hsp. apply elem_of_list_split in Hsp as (l1 & l2 & E). rewrite E in Hdup.
    apply NoDup_app in Hdup as (_ & Hd1 & Hd2). apply NoDup_cons in Hd2 as [Hp2 _].
    rewrite E, fmap_app, fmap_cons, rsum_app, rsum_cons, Hid, !Hzero; [ring| |].
    - intros q Hq. rewrite E. split; [apply elem_of_app; by right; right|congruence].
    - intros q Hq. rewrite E. split; [apply elem_of_app; by left|]. intros ->. apply (Hd1 p Hq). by left. }
  assert (Hone : (∀ res, (drs ← add_forward w nd f (Some (option_list (jac nd w))) p; conclude drs) = Some res → right o res) ∧
    ((p ≠ w → is_Some (f p)) → is_Some (drs ← add_forward w nd f (Some (option_list (jac nd w))) p; conclude drs))).
  2:{ destruct Hg as [Hnd _]. destruct (Hnd o nd Ho) as [Hdup _].
      destruct (handle_loop w nd f p (ops nd) (option_list (jac nd w)) Eops Hdup Eout) as [L1 L2].
      destruct Hone as [O1 O2]. split.
      - intros res. destruct (foldl _ _ _) as [l'|] eqn:Ef; [|done]. intros Hc'. apply O1. by rewrite (L1 l' eq_refl).
      - intros H. rewrite L2 by done. apply O2. by apply H. }
  cbn [add_forward mbind option_bind]. destruct (decide (p = w)) as [->|Hpw].
  - rewrite Ej. simpl. destruct (finish_num r c Hn Hc) as (a & Ea & Sa & Da).
    unfold conclude. simpl. rewrite Ea. simpl. split; [|by intros _; eexists].
    intros res [= <-]. split; [done|]. right. split_and!; [|done|].
    + eapply (alias_step _ _ _ _ o w nd); [done|done|done|done|by rewrite Ej|constructor].
    + exists c. split; [done|]. split; [simpl; unfold asize; rewrite Sa; split_and!; [done|simpl; lia|done]|].
      intros i j Hi Hj. rewrite HTo' by done. rewrite HTw by (done || lia). unfold mscal. destruct (decide _); ring.
  - rewrite (Eout w) by done. simpl. destruct (f p) as [dr2|] eqn:Ep; simpl.
    2:{ split; [done|]. intros H. specialize (H Hpw). by destruct H. }
    pose proof (Hrec p dr2 Hpw Ep) as Hgood. destruct dr2 as [d2|].
    + rewrite Ej. assert (Er : scal r = Num c).
      { destruct r as [x|a| |]; simpl in Hn |- *; [by subst| |done|done]. destruct Hn as (H1 & _ & H2). by rewrite decide_True, H2. }
      rewrite (superdot_num_l r d2 c Er). simpl. unfold conclude. simpl.
      assert (Hres : ∃ r', finish (scale c (scal d2)) = Some r' ∧ right o (Some r')).
      { destruct (means_norm _ _ _ _ (right_means p d2 Hgood)) as [(x & Ex & Nx & Es & Hx)|(Es & Mx & Nx)].
        - rewrite Ex. destruct Hgood as [_ [Hm|(Hal & _ & y & Hy & Hny & HTy)]].
          + assert (Hm1 : size p = 1 ∧ m = 1).
            { destruct d2 as [z|a| |]; [done| |done|done]. destruct Hm as [Hs _]. destruct Nx as (H1 & _).
              unfold asize in H1. rewrite Hs, size2 in H1. by apply Nat.eq_mul_1 in H1. }
            destruct Hm1 as [Hp1 Hm1].
            destruct (finish_is (scale c (Num x)) (size o) m (T o)) as (r' & Ef & Hm' & Hl'); [|done|].
            { rewrite Hsz, Hp1, Hm1. right. split_and!; [done..|]. simpl. rewrite HTo' by lia. rewrite Hx by lia. done. }
            exists r'. split; [done|]. split; [done|]. by left.
          + pose proof (is_num_inj _ _ _ Nx Hny) as ->.
            destruct (finish_num (Num (c * y)) (c * y)%R) as (a & Ea & Sa & Da); [done|by apply Rmult_integral_contrapositive_currified|].
            exists (Arr a). split; [done|]. split; [done|]. right. split_and!; [|congruence|].
            * eapply (alias_step _ _ _ _ o p nd); [done|done|done|done|by rewrite Ej|done].
            * exists (c * y)%R. split; [by apply Rmult_integral_contrapositive_currified|].
              split; [simpl; unfold asize; rewrite Sa; split_and!; [done|simpl; lia|done]|].
              intros i j Hi Hj. rewrite HTo' by done. rewrite HTy by lia. unfold mscal. destruct (decide _); ring.
        - rewrite Es. destruct (finish_any (scale c d2) (size o) m (T o)) as (r' & Ef & Hm' & Hl').
          + left. eapply is_mat_meq; [apply meq_sym, HTo'|]. rewrite Hsz. by apply scale_is.
          + exists r'. split; [done|]. split; [|by left]. intros Hfree. apply Hl', scale_lin. destruct Hgood as [Hno _].
            apply Hno. by eapply free_below. }
      destruct Hres as (r' & Ef & Hgo). rewrite Ef. simpl. split; [|by intros _; eexists]. by intros res [= <-].
    + split; [|by intros _; eexists]. intros res [= <-]. intros i j Hi Hj. rewrite HTo' by done. rewrite Hgood by lia. unfold mzero. ring.
Qed.


Notation fine o := (proper g size J any o ∧ sums_few g size w J o ∨ handle g size J o).
Lemma any_rdr n : (∀ o, fine o) → ∀ o res, o ≠ w → rdr n g o w = Some res → right o res.
Proof.
  intros Hfine. induction n as [|n IH]; intros o res Hne Hr; [done|].
  destruct (Hfine o) as [[Hp Hs]|Hh].
  - destruct (g !! o) as [nd|] eqn:Ho; [|simpl in Hr; by rewrite Ho in Hr].
    simpl in Hr. rewrite Ho in Hr. by destruct (any_step (λ p, rdr n g p w) o nd Hne Ho Hp Hs IH) as [H _]; apply H.
  - pose proof Hh as (nd & _ & _ & _ & Ho & _). simpl in Hr. rewrite Ho in Hr. by destruct (any_handle (λ p, rdr n g p w) o Hne Hh nd Ho IH) as [H _]; apply H.
Qed.
Lemma any_rdr_total rank n : (∀ o, fine o) → (∀ o nd p, g !! o = Some nd → p ∈ ops nd → rank p < rank o) →
  (∀ o nd, g !! o = Some nd → size o * m ≠ 1 ∨ length (ops nd) ≤ 1) →
  ∀ o, is_Some (g !! o) → o ≠ w → rank o < n → is_Some (rdr n g o w).
Proof.
  intros Hfine Hrank Hc. induction n as [|n IH]; intros o [nd Ho] Hne Hlt; [lia|].
  assert (Hch : ∀ p, p ∈ ops nd → p ≠ w → is_Some (rdr n g p w)).
  { intros p Hp Hpw. apply IH; [|done|specialize (Hrank o nd p Ho Hp); lia]. destruct Hg as [Hnd _]. by apply (Hnd o nd Ho). }
  simpl. rewrite Ho. destruct (Hfine o) as [[Hp Hs]|Hh].
  - destruct (any_step (λ p, rdr n g p w) o nd Hne Ho Hp Hs (any_rdr n Hfine)) as [_ H]. apply H; [by apply (Hc o)|done].
  - destruct (any_handle (λ p, rdr n g p w) o Hne Hh nd Ho (any_rdr n Hfine)) as [_ H]. by apply H.
Qed.
Lemma any_right o : (∀ o, fine o) → o ≠ w → ¬ alias g size w J o →
  ∀ res, returns g o w res → result_is res (size o) m (T o).
Proof.
  intros Hf Hne Ha res [n Hn]. pose proof (any_rdr n Hf o res Hne Hn) as H. destruct res as [r|]; [|done].
  destruct H as [_ [H|(H & _)]]; done.
Qed.
Lemma any_returns o : (∀ o, fine o) → is_Some (g !! o) → o ≠ w →
  (∀ o nd, g !! o = Some nd → size o * m ≠ 1 ∨ length (ops nd) ≤ 1) → ∃ res, returns g o w res.
Proof.
  intros Hf Ho Hne Hc. destruct Hg as [_ [rank Hrank]].
  destruct (any_rdr_total rank (S (rank o)) Hf Hrank Hc o Ho Hne) as [res Hres]; [lia|]. exists res. by exists (S (rank o)).
Qed.
End graph.

(** x with two elements, e sparse, t = the sum of an operator at e and one at x, s = sum(t). *)
Definition g_two : rgraph :=
  <[0 := RNode [] nojac]> (<[1 := RNode [0] (jac1 0 sp_id)]> (<[2 := RNode [1; 0] (jac2 1 op_id 0 op_id)]>
  {[3 := RNode [2] (jac1 2 (Arr (full [1; 2] 1%R)))]})).
Definition n_two (o : nat) : nat := match o with 3 => 1 | _ => 2 end.
Definition J_two (o p : nat) : mat := match o with 3 => λ _ _, 1%R | _ => mscal 1 end.
Definition T_two (o : nat) : mat := match o with 2 => mscal 2 | 3 => λ _ _, 2%R | _ => mscal 1 end.
Lemma two_sound : sound_graph g_two.
Proof.
  split.
  - intros o nd H. graph_cases g_two H; simpl.
    + split; [constructor|]. intros p Hp. by apply elem_of_nil in Hp.
    + split; [repeat constructor; set_solver|]. intros p Hp. apply elem_of_list_singleton in Hp as ->. by eexists.
    + split; [repeat constructor; set_solver|]. intros p Hp.
      apply elem_of_cons in Hp as [->|Hp]; [by eexists|]. apply elem_of_list_singleton in Hp as ->. by eexists.
    + split; [repeat constructor; set_solver|]. intros p Hp. apply elem_of_list_singleton in Hp as ->. by eexists.
  - exists (λ o, o). intros o nd p H Hp. graph_cases g_two H; simpl in Hp; set_unfold; lia.
Qed.
Lemma two_chain : chain_rule g_two n_two 0 J_two T_two.
Proof.
  assert (Hid : ∀ B i j, i < 2 → j < 2 → mmult 2 (mscal 1) B i j = B i j).
  { intros B i j Hi Hj. rewrite (mmult_scal_l 2 2 1) by (done || by intros ? ? ? ?). ring. }
  split; [by intros ? ? ? ?|]. intros o nd H Hne i j Hi Hj.
  graph_cases g_two H; [done|..]; simpl in *.
  - rewrite !Hid by done. ring.
  - rewrite !Hid by done. unfold mscal. destruct (decide _); ring.
  - unfold mmult. destruct j as [|[|j]]; [| |lia]; simpl; unfold mscal; simpl; ring.
Qed.
Lemma two_proper o : proper g_two n_two J_two (λ _, true) o.
Proof.
  assert (Hs : stores sp_id 2 2 (mscal 1)) by (left; split_and!; by try intros ? ? ? ?).
  assert (Ho : stores op_id 2 2 (mscal 1)) by (left; apply id_is).
  intros nd H. graph_cases g_two H; simpl.
  - split; [done|]. intros p Hp. by apply elem_of_nil in Hp.
  - split; [intros p Hp; unfold jac1; rewrite decide_False by set_solver; done|].
    intros p Hp. by apply elem_of_list_singleton in Hp as ->.
  - split; [intros p Hp; unfold jac2; rewrite !decide_False by set_solver; done|].
    intros p Hp. apply elem_of_cons in Hp as [->|Hp]; [done|]. by apply elem_of_list_singleton in Hp as ->.
  - split; [intros p Hp; unfold jac1; rewrite decide_False by set_solver; done|].
    intros p Hp. apply elem_of_list_singleton in Hp as ->. split; [|done]. left. by split.
Qed.
Lemma two_few o : sums_few g_two n_two 0 J_two o.
Proof. intros nd H. graph_cases g_two H; simpl; try (left; lia). right; left. lia. Qed.
Lemma two_sizes o nd : g_two !! o = Some nd → n_two o * n_two 0 ≠ 1 ∨ length (ops nd) ≤ 1.
Proof. intros H. graph_cases g_two H; simpl; lia. Qed.
Lemma two_alias : ¬ alias g_two n_two 0 J_two 3.
Proof.
  intros H. inversion H as [|o p nd Hne (nd' & q & r & c & Ho & Eo & _ & _ & _ & _ & _ & Hn & _) Ho' Hp _]; subst.
  injection Ho as <-. apply elem_of_list_singleton in Eo as ->. done.
Qed.
