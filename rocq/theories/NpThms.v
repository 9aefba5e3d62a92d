(** Proofs about the class library of real arrays. *)
From Coq Require Import Reals Lra.
From stdpp Require Import gmap strings list list_numbers relations.
From Verif Require Import EngineModel EngineSpec EngineEval EngineThms GraphSpec GraphThms RevModel RevSpec RevThms
  ArrModel Curve ArrThms AdSpec AdThms ElemModel ElemSpec ElemThms NpModel NpSpec.

Lemma np_sem_ok : sem_ok np_sem.
Proof.
  split; simpl.
  - intros a b v i. apply mact_mmul.
  - intros a b v i. apply mact_madd.
  - intros a u v i H. by apply mact_ext.
  - intros a i. apply mact_zero.
Qed.

Lemma ask_all_uses {A} (P : req → Prop) ks acc (f : list (arr R) → option A) : (∀ k, k ∈ ks → P (RChild k)) →
  uses nplib P (ask_all ks acc f : prog (Arr nplib) A).
Proof.
  revert acc. induction ks as [|k ks IH]; intros acc H; simpl; [by destruct (f _)|].
  split; [apply H, elem_of_list_here|]. intros v. apply IH. intros k' Hk'. apply H. by apply elem_of_list_further.
Qed.
Lemma terms_agree p ts1 ts2 : agree nplib (tracked (np_dt p) (np_tm p)) ts1 ts2 → terms_of p ts1 = terms_of p ts2.
Proof.
  intros H. unfold terms_of. apply list_fmap_ext_ne. intros k Hk. apply H. unfold tracked.
  apply elem_of_union_r. by apply elem_of_list_to_set.
Qed.
Lemma np_op_ok p : op_wf p → class_ok nplib (NOp p) (np_dt p) (np_tm p).
Proof.
  intros [Hnd Hperm]. split; simpl.
  - intros ts. apply ask_all_uses. intros k Hk. simpl. done.
  - intros ts1 ts2 H. by rewrite (terms_agree p ts1 ts2 H).
  - intros ts b ks. destruct ks; simpl; [done|]. apply ask_all_uses. intros k Hk. simpl. done.
  - intros ts1 ts2 b ks H. by rewrite (terms_agree p ts1 ts2 H).
  - intros k ds Hk. by rewrite lookup_empty in Hk.
  - intros k ds ts Hk. by rewrite lookup_empty in Hk.
  - done.
  - done.
  - intros Hp. auto.
Qed.
Lemma np_base_ok : class_ok nplib NBase ["x"%string] [].
Proof.
  assert (Hx : ∀ ts1 ts2 : gmap name nval, agree nplib (tracked ["x"%string] []) ts1 ts2 →
    ts1 !! "x"%string = ts2 !! "x"%string).
  { intros ts1 ts2 H. apply H. unfold tracked. set_solver. }
  split; simpl; try done.
  - intros ts. destruct (ts !! "x"%string) as [[a|l|l]|]; done.
  - intros ts1 ts2 H. unfold np_compute_r. rewrite (Hx _ _ H). done.
  - intros ts b ks. by destruct b.
Qed.
Lemma np_lib_ok : lib_ok nplib.
Proof. split; [done|]. apply np_base_ok. Qed.

Lemma np_local : local_derivatives nplib.
Proof. intros c ts b Hb. destruct c; simpl; [|done]. destruct b; [|done]. by specialize (Hb eq_refl). Qed.

(* ------------------------------------------------------------------ *)
(** Running the bodies. *)
Lemma runp_ask_all {A} ask ks acc (f : list (arr R) → option A) vs :
  Forall2 (λ k v, ask (RChild k) = Some v) ks vs →
  runp nplib ask (ask_all ks acc f : prog (Arr nplib) A) = f (reverse acc ++ vs).
Proof.
  intros H. revert acc. induction H as [|k v ks vs Hk H IH]; intros acc; simpl.
  - rewrite app_nil_r. by destruct (f (reverse acc)).
  - rewrite Hk, IH, reverse_cons, <- app_assoc. done.
Qed.

Lemma Forall2_fmap_same {A B C} (f : A → B) (R : C → B → Prop) ks (l : list A) :
  Forall2 (λ k x, R k (f x)) ks l → Forall2 R ks (f <$> l).
Proof. induction 1; [constructor|]. rewrite fmap_cons. by constructor. Qed.

Lemma operands_refs (c : core nplib) ks ps :
  Forall2 (λ k q, c_attr nplib c !! k = Some (@ARef nplib q)) ks ps → omap (ref_of c) ks = ps.
Proof. induction 1 as [|k q ks ps Hk H IH]; [done|]. simpl. unfold ref_of at 1. rewrite Hk. by f_equal. Qed.

Lemma matches_mask (c : core nplib) ks ps q : c_dt nplib c = ks → NoDup ks →
  Forall2 (λ k q, c_attr nplib c !! k = Some (@ARef nplib q)) ks ps →
  (λ k, bool_decide (k ∈ matches nplib c q)) <$> ks = (λ r, bool_decide (r = q)) <$> ps.
Proof.
  intros Hdt Hnd HF.
  assert (Hm : ∀ k p, k ∈ ks → c_attr nplib c !! k = Some (@ARef nplib p) → bool_decide (k ∈ matches nplib c q) = bool_decide (p = q)).
  { intros k p Hk Hp. apply bool_decide_ext. unfold matches. rewrite elem_of_list_filter, Hp. simpl.
    rewrite bool_decide_spec. rewrite Hdt. naive_solver. }
  clear Hnd Hdt. revert Hm. induction HF as [|k p ks ps Hk HF IH]; intros Hm; [done|].
  rewrite !fmap_cons. rewrite (Hm k p); [|apply elem_of_list_here|done]. f_equal. apply IH.
  intros k' p' Hk'. apply Hm. by apply elem_of_list_further.
Qed.
Lemma matches_nonempty (c : core nplib) ks ps q : c_dt nplib c = ks →
  Forall2 (λ k q, c_attr nplib c !! k = Some (@ARef nplib q)) ks ps → q ∈ ps → matches nplib c q ≠ [].
Proof.
  intros Hdt HF Hq. apply elem_of_list_lookup in Hq as [i Hi].
  destruct (Forall2_lookup_r _ _ _ _ _ HF Hi) as (k & Hk & Ha).
  assert (Hin : k ∈ matches nplib c q).
  { unfold matches. rewrite Hdt. apply elem_of_list_filter. split; [|by eapply elem_of_list_lookup_2].
    rewrite Ha. simpl. by apply bool_decide_spec. }
  intros E. rewrite E in Hin. by apply elem_of_nil in Hin.
Qed.

Lemma uniform_denotes (g : gmap oid (core nplib)) ps vs : Forall2 (λ q v, denotes nplib g q QR v) ps vs →
  ∃ N, Forall2 (λ q v, eval nplib N g q QR = Some v) ps vs.
Proof.
  induction 1 as [|q v ps vs [n Hn] H [N IH]]; [exists 0; constructor|].
  exists (n `max` N). constructor.
  - apply (eval_mono nplib n); [lia|done].
  - eapply Forall2_impl; [exact IH|]. intros q' v' E. apply (eval_mono nplib N); [lia|done].
Qed.

Lemma fine_right g x : fine_at g x → right_at np_sem g x.
Proof.
  intros (c & Hc & Hf). exists c. split; [done|].
  destruct (c_cls nplib c) as [|p] eqn:Ecls.
  - destruct Hf as (a & Ha & Hdt). exists (λ _, None).
    assert (Hops : operands c = []).
    { unfold operands. rewrite Hdt. simpl. unfold ref_of. by rewrite Ha. }
    split; [intros q Hq; rewrite Hops in Hq; by apply elem_of_nil in Hq|].
    intros rho V _. exists (λ _, atleast_1d a). rewrite Hops. split.
    + apply near_always. intros t. exists 1. simpl. unfold given.
      rewrite Hc, Ecls.
      assert (Hp : (plain nplib c : gmap name nval) !! "x"%string = Some (NArr a)).
      { unfold plain. rewrite lookup_omap, Ha. done. }
      unfold np_compute_r. rewrite Hp. done.
    + split; [by apply near_always|]. intros i. simpl. unfold sumR. simpl. apply (deriv_const (elem (atleast_1d a) i)).
  - destruct Hf as (Hdt & Htm & ps & vs & HF & Hden & Hnd & (J & HJ & Hr) & Hnv).
    assert (Hops : operands c = ps).
    { unfold operands. rewrite Hdt. by apply operands_refs. }
    exists J. rewrite Hops. split.
    + intros q Hq. split.
      * destruct (uniform_denotes g ps vs Hden) as [N HN]. exists N. unfold pdirect. rewrite Hc, Ecls.
        simpl. pose proof (matches_nonempty c _ ps q Hdt HF Hq) as Hne.
        destruct (matches nplib c q) as [|k0 m] eqn:Em; [done|]. 
        assert (Hrun : Forall2 (λ k v, answer nplib (eval nplib N g) x c (RChild k) = Some v) (np_dt p) vs).
        { clear -HF HN. revert vs HN. induction HF as [|k r ks ps Hk HF IH]; intros vs HN; inversion HN; subst; constructor.
          - simpl. by rewrite Hk.
          - by apply IH. }
        rewrite (runp_ask_all _ (np_dt p) [] _ vs Hrun). simpl.
        rewrite <- Em. rewrite (matches_mask c (np_dt p) ps q Hdt Hnd HF). by apply HJ.
      * intros E. apply (Hnv q Hq). by rewrite HJ, E.
    + intros rho V Hrho. destruct (Hr rho V) as (y & Hy & Hm).
      * clear -Hrho Hden. 
        assert (H : ∀ q, q ∈ ps → denotes nplib g q QR (rho q 0%R)) by (intros q Hq; by apply Hrho). clear Hrho.
        induction Hden as [|q v ps vs Hq Hden IH]; [done|]. rewrite fmap_cons. f_equal.
        -- eapply (denotes_det nplib); [apply H, elem_of_list_here|exact Hq].
        -- apply IH. intros r Hr. apply H. by apply elem_of_list_further.
      * intros q Hq. apply (Hrho q Hq).
      * exists (λ t, atleast_1d (y t)). split; [|exact (amoves_at1 _ _ Hm)]. eapply near_mono; [|exact Hy]. intros t Ht. 
        destruct (decide (x ∈ ps)) as [Hx|Hx].
        { (* an object that is its own operand: its value is given *)
          exfalso. apply elem_of_list_lookup in Hx as [i Hi].
          destruct (Forall2_lookup_l _ _ _ _ _ Hden Hi) as (v & _ & [n Hn]).
          destruct (Forall2_lookup_r _ _ _ _ _ HF Hi) as (k & Hk & Hka).
          apply elem_of_list_lookup_2 in Hk.
          clear -Hn Hc Ecls Hk Hka HF.
          revert v Hn. induction n as [|n IH]; intros v Hn; [done|]. simpl in Hn. rewrite Hc, Ecls in Hn. simpl in Hn.
          assert (Hall : ∀ ks acc f r, runp nplib (answer nplib (eval nplib n g) x c) (ask_all ks acc f : prog (Arr nplib) (arr R)) = Some r → k ∈ ks →
            ∃ v, eval nplib n g x QR = Some v).
          { induction ks as [|k' ks IHk]; intros acc f r Hrun Hin; [by apply elem_of_nil in Hin|].
            simpl in Hrun. destruct (c_attr nplib c !! k') as [[?|q]|] eqn:Ek; try done.
            destruct (eval nplib n g q QR) as [u|] eqn:Eu; [|done].
            apply elem_of_cons in Hin as [<-|Hin]; [|by eapply IHk].
            rewrite Hka in Ek. injection Ek as <-. eauto. }
          destruct (Hall _ _ _ _ Hn Hk) as [v' Hv']. by eapply IH. }
        exists 2. simpl. unfold given at 1. rewrite decide_False by done. rewrite Hc, Ecls. simpl.
        rewrite (runp_ask_all _ (np_dt p) [] _ ((λ q, rho q t) <$> ps)); [by simpl; rewrite Ht|].
        apply Forall2_fmap_same. 
        assert (Hsub : ∀ q, q ∈ ps → given ps rho t q = Some (rho q t)) by (intros q Hq; unfold given; by rewrite decide_True).
        revert Hsub. generalize (given ps rho t). clear -HF. intros env Hsub.
        induction HF as [|k q ks ps Hk HF IH]; constructor.
        -- simpl. rewrite Hk. rewrite Hsub by apply elem_of_list_here. done.
        -- apply IH. intros r Hr. apply Hsub. by apply elem_of_list_further.
Qed.

(* ------------------------------------------------------------------ *)
(** The elementwise operations are right. *)
Lemma remove_dups_two (p q : oid) : p ≠ q → remove_dups [p; q] ≡ₚ [p; q].
Proof.
  intros H. apply NoDup_Permutation; [apply NoDup_remove_dups| |intros x; apply elem_of_remove_dups].
  constructor; [|apply NoDup_singleton]. by rewrite elem_of_list_singleton.
Qed.
Lemma remove_dups_same (p : oid) : remove_dups [p; p] = [p].
Proof.
  simpl. destruct (decide_rel elem_of p (p :: [])) as [?|H]; [|destruct H; apply elem_of_list_here]. 
  destruct (decide_rel elem_of p []) as [H|]; [by apply elem_of_nil in H|done].
Qed.

Lemma unary_op_right f q a tms : unary_shape (sh a) → (∀ i, i < asize a → u_dom f (dat a i)) →
  op_right (op_unary f) tms [q] [a].
Proof.
  intros Hs Hd. destruct (unary_right f a Hs Hd) as (J & HJ & _ & _ & Hdiff).
  exists (λ _, Some J). split.
  - intros r _. simpl. by rewrite HJ.
  - intros rho V Ha Hm. simpl in Ha. injection Ha as Ha. exists (λ t, unary f (rho q t)). split; [by apply near_always|].
    eapply amoves_ext; [|apply (Hdiff (rho q) (V q) Ha)]; [|apply Hm, elem_of_list_here].
    intros i. simpl. unfold sumR. simpl. ring.
Qed.

Lemma binary_op_right f p q a b tms out : bshape (sh a) (sh b) = Some out → meet b_dom f a b →
  (p = q → a = b) → op_right (op_binary f) tms [p; q] [a; b].
Proof.
  intros Hb Hdom Hpq. destruct (decide (p = q)) as [<-|Hne].
  - rewrite <- (Hpq eq_refl) in *. clear Hpq b. rewrite bshape_same in Hb. injection Hb as <-.
    assert (Hd : ∀ i, i < asize a → b_dom f (dat a i) (dat a i)).
    { intros i Hi. pose proof (meet_b_dom f a a (sh a) i (bshape_same _) Hdom Hi) as H. unfold v1, v2 in H. by rewrite bidx_same in H. }
    destruct (binary_same_right f a [] Hd) as [_ Hdiff]. unfold after_calls in Hdiff. simpl in Hdiff.
    set (J := (binary_jac f true true a a no_templates).2) in *.
    exists (λ _, J). split.
    + intros r Hr. assert (r = p) as -> by set_solver. simpl. rewrite !bool_decide_true by done. done.
    + intros rho V Ha Hm. simpl in Ha. injection Ha as Ha. exists (λ t, binary f (rho p t) (rho p t)). split.
      * apply near_always. intros t. simpl. by rewrite bshape_same.
      * rewrite remove_dups_same. eapply amoves_ext; [|apply (Hdiff (rho p) (V p) Ha)]; [|apply Hm, elem_of_list_here].
        intros i. unfold sumR. simpl. unfold none_zero. destruct J; simpl; [ring|]. 
        rewrite mact_alt. unfold rsum. simpl. ring.
  - destruct (binary_right f a b out [] [] Hb Hdom) as (Ja & Jb & HJa & HJb & _ & _ & Hdiff).
    unfold after_calls in *. simpl in HJa, HJb.
    exists (λ r, if decide (r = p) then Some Ja else Some Jb). split.
    + intros r Hr. simpl. destruct (decide (r = p)) as [->|Hrp].
      * rewrite bool_decide_true, bool_decide_false by done. by f_equal.
      * assert (r = q) as -> by set_solver. rewrite bool_decide_false, bool_decide_true by done. by f_equal.
    + intros rho V Ha Hm. simpl in Ha. injection Ha as Ha Hb'. exists (λ t, binary f (rho p t) (rho q t)).
      assert (Hp : amoves (rho p) (V p)) by (apply Hm; set_solver).
      assert (Hq : amoves (rho q) (V q)) by (apply Hm; set_solver). split.
      * pose proof (curve_shape2 _ _ _ _ Hp Hq) as Hn. eapply near_mono; [|exact Hn].
        intros t (H1 & _ & _). simpl. rewrite H1, Ha, Hb', Hb. done.
      * eapply amoves_ext; [|apply (Hdiff (rho p) (V p) (rho q) (V q) Ha Hb' Hp Hq)].
        intros i. cbv beta. rewrite (sumR_perm _ _ (fmap_Permutation _ _ _ (remove_dups_two p q Hne))).
        unfold sumR. simpl. rewrite decide_True by done. rewrite decide_False by done. simpl. ring.
Qed.

(* ------------------------------------------------------------------ *)
(** Elementwise objects in a graph. *)
Lemma fine_unary (g : graph) x c f q a : g !! x = Some c → c_cls nplib c = NOp (op_unary f) →
  c_dt nplib c = ["x"%string] → c_tm nplib c = [] → c_attr nplib c !! "x"%string = Some (@ARef nplib q) →
  denotes nplib g q QR a → unary_shape (sh a) → (∀ i, i < asize a → u_dom f (dat a i)) → fine_at g x.
Proof.
  intros Hc Hcls Hdt Htm Ha Hden Hs Hd. exists c. split; [done|]. rewrite Hcls. split_and!; [done..|].
  exists [q], [a]. split_and!; [by constructor|by constructor|apply NoDup_singleton|by apply unary_op_right|].
  intros r _. simpl. by destruct (unary_jac f a).
Qed.
Lemma fine_binary (g : graph) x c f ka kb p q a b out : g !! x = Some c → c_cls nplib c = NOp (op_binary f) →
  bnames f = [ka; kb] →
  c_dt nplib c = [ka; kb] → c_tm nplib c = [] → c_attr nplib c !! ka = Some (@ARef nplib p) → c_attr nplib c !! kb = Some (@ARef nplib q) →
  denotes nplib g p QR a → denotes nplib g q QR b → bshape (sh a) (sh b) = Some out → meet b_dom f a b →
  (p = q → not_view nplib g p) → fine_at g x.
Proof.
  intros Hc Hcls Hn Hdt Htm Ha Hb Hpa Hqb Hsh Hm Hnv. exists c. split; [done|]. rewrite Hcls. simpl. rewrite Hn. split_and!; [done..|].
  exists [p; q], [a; b]. split_and!; [by repeat constructor|by repeat constructor|rewrite <- Hn; destruct f; simpl; repeat constructor; set_solver| |].
  - apply (binary_op_right f p q a b _ out); [done..|]. intros ->. by eapply (denotes_det nplib).
  - intros r Hr E. destruct (decide (p = q)) as [<-|Hne].
    + assert (r = p) as -> by set_solver. by apply Hnv.
    + exfalso. simpl in E. injection E as E.
      assert (Hrr : (r = p ∧ r ≠ q) ∨ (r = q ∧ r ≠ p)) by set_solver.
      destruct Hrr as [[-> H]|[-> H]].
      * destruct (jac_rows f true a b out Hsh) as (J & HJ & _). simpl in HJ.
        rewrite bool_decide_true, bool_decide_false in E by done. congruence.
      * destruct (jac_rows f false a b out Hsh) as (J & HJ & _). simpl in HJ.
        rewrite bool_decide_false, bool_decide_true in E by done. congruence.
Qed.
Lemma denotes_base (g : graph) x c a : g !! x = Some c → c_cls nplib c = NBase →
  c_attr nplib c !! "x"%string = Some (@AVal nplib (NArr a)) → denotes nplib g x QR (atleast_1d a).
Proof.
  intros Hc Hb Ha. exists 1. simpl. rewrite Hc, Hb.
  assert (Hp : (plain nplib c : gmap name nval) !! "x"%string = Some (NArr a)).
  { unfold plain. rewrite lookup_omap, Ha. done. }
  unfold np_compute_r. rewrite Hp. done.
Qed.
Lemma denotes_op (g : graph) x c p ps vs r : g !! x = Some c → c_cls nplib c = NOp p →
  Forall2 (λ k q, c_attr nplib c !! k = Some (@ARef nplib q)) (np_dt p) ps → Forall2 (λ q v, denotes nplib g q QR v) ps vs →
  np_r p (terms_of p (plain nplib c)) vs = Some r → denotes nplib g x QR (atleast_1d r).
Proof.
  intros Hc Hcls HF Hden Hr. destruct (uniform_denotes g ps vs Hden) as [N HN]. exists (S N). simpl. rewrite Hc, Hcls. simpl.
  rewrite (runp_ask_all _ (np_dt p) [] _ vs); [by simpl; rewrite Hr|].
  clear -HF HN. revert vs HN. induction HF as [|k r ks ps Hk HF IH]; intros vs HN; inversion HN; subst; constructor.
  - simpl. by rewrite Hk.
  - by apply IH.
Qed.
Lemma denotes_base_ne (g : graph) x c a : sh a ≠ [] → g !! x = Some c → c_cls nplib c = NBase →
  c_attr nplib c !! "x"%string = Some (@AVal nplib (NArr a)) → denotes nplib g x QR a.
Proof. intros Ha Hc Hb Hx. rewrite <- (at1_id a Ha). by eapply denotes_base. Qed.
Lemma denotes_op_ne (g : graph) x c p ps vs r : sh r ≠ [] → g !! x = Some c → c_cls nplib c = NOp p →
  Forall2 (λ k q, c_attr nplib c !! k = Some (@ARef nplib q)) (np_dt p) ps → Forall2 (λ q v, denotes nplib g q QR v) ps vs →
  np_r p (terms_of p (plain nplib c)) vs = Some r → denotes nplib g x QR r.
Proof. intros Hr Hc Hcls HF Hd Hx. rewrite <- (at1_id r Hr). by eapply denotes_op. Qed.
