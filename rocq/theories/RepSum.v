(** Sums of stored Jacobians and the conversions at the end of dr_wrt. *)
From Coq Require Import Reals Lra.
From stdpp Require Import gmap list list_numbers.
From Verif Require Import ArrModel ArrThms ElemModel ElemThms RepModel RepSpec RepThms.

(** Jacobians of one element with respect to one element. *)
Lemma one_cases r A : stores r 1 1 A → no_lin r = true →
  is_num r (A 0 0) ∨ ∃ f, r = Spr 1 1 f ∧ f 0 0 = A 0 0.
Proof.
  intros [Hm|(_ & _ & Hn)] Hl; [|by left]. destruct r as [c|a|n m f|n m f]; [done| | |done].
  - left. destruct Hm as [Hs Hd]. simpl. unfold asize. rewrite Hs. split_and!; [done|simpl; lia|]. by apply (Hd 0 0); lia.
  - right. destruct Hm as (-> & -> & Hf). exists f. split; [done|]. apply Hf; lia.
Qed.
Lemma many_cases r n m A : stores r n m A → no_lin r = true → n * m ≠ 1 →
  (∃ a, r = Arr a ∧ sh a = [n; m] ∧ ∀ i j, i < n → j < m → dat a (i * m + j) = A i j) ∨
  (∃ f, r = Spr n m f ∧ meq n m f A).
Proof.
  intros [Hm|(-> & -> & _)] Hl Hne; [|done]. destruct r as [c|a|n' m' f|n' m' f]; [done| | |done].
  - left. exists a. split; [done|]. apply Hm.
  - right. destruct Hm as (-> & -> & Hf). by exists f.
Qed.
Lemma num_shape (a : arr R) : asize a = 1 → length (sh a) ≤ 2 → sh a = [] ∨ sh a = [1] ∨ sh a = [1; 1].
Proof.
  unfold asize. destruct (sh a) as [|x [|y [|z s]]]; simpl; [by left| | |lia].
  - intros H _. right; left. f_equal. lia.
  - intros H _. right; right. rewrite Nat.mul_1_r in H. by apply Nat.eq_mul_1 in H as [-> ->].
Qed.
Lemma num_array r c : is_num r c → ∃ a, as_array r = Some a ∧ dat a 0 = c ∧ (sh a = [] ∨ sh a = [1] ∨ sh a = [1; 1]).
Proof.
  destruct r as [x|a| |]; simpl; [|intros (H1 & H2 & H3)|done|done].
  - intros ->. eexists. split; [done|]. split; [done|by left].
  - exists a. split_and!; [done|done|]. by apply num_shape.
Qed.

Lemma radd_num r s c d : is_num r c → is_num s d → ∃ t, radd r s = Some t ∧ is_num t (c + d).
Proof.
  intros Hr Hs. assert (Hb : ∀ a b : arr R, (sh a = [] ∨ sh a = [1] ∨ sh a = [1; 1]) → (sh b = [] ∨ sh b = [1] ∨ sh b = [1; 1]) →
    dat a 0 = c → dat b 0 = d → is_Some (bshape (sh a) (sh b)) ∧ is_num (Arr (bop Rplus a b)) (c + d)).
  { intros a b Ha Hb <- <-. unfold is_num, asize, bop. cbv zeta.
    destruct Ha as [->|[->| ->]], Hb as [->|[->| ->]]; (split; [by eexists|]); split_and!; try done; simpl; lia. }
  destruct (num_array r c Hr) as (a & Ea & Da & Sa). destruct (num_array s d Hs) as (b & Eb & Db & Sb).
  destruct (Hb a b Sa Sb Da Db) as [[sh0 Esh] Hn].
  destruct r as [x|x| |], s as [y|y| |]; simpl in Hr, Hs; try done.
  - eexists. split; [done|]. simpl. by rewrite Hr, Hs.
  - eexists. split; [|exact Hn]. unfold radd. rewrite Ea, Eb. simpl. by rewrite Esh.
  - eexists. split; [|exact Hn]. unfold radd. rewrite Ea, Eb. simpl. by rewrite Esh.
  - eexists. split; [|exact Hn]. unfold radd. rewrite Ea, Eb. simpl. by rewrite Esh.
Qed.
Lemma sp_add_num f a c d t : f 0 0 = c → dat a 0 = d → (sh a = [] ∨ sh a = [1] ∨ sh a = [1; 1]) →
  sp_add 1 1 f a = Some t → no_lin t = true ∧ ∀ A, A 0 0 = (c + d)%R → stores t 1 1 A.
Proof.
  intros <- <- Hs. unfold sp_add. destruct Hs as [->|[->| ->]].
  - destruct (Req_EM_T _ _) as [E|E]; [|done]. intros [= <-]. split; [done|]. intros A HA. left. split_and!; [done..|].
    intros i j Hi Hj. replace i with 0 by lia. replace j with 0 by lia. rewrite HA, E. ring.
  - rewrite decide_True by done. intros [= <-]. split; [done|]. intros A HA. left. apply arr2_is.
    intros i j Hi Hj. replace i with 0 by lia. replace j with 0 by lia. by rewrite HA.
  - rewrite decide_True by done. intros [= <-]. split; [done|]. intros A HA. left. apply arr2_is.
    intros i j Hi Hj. replace i with 0 by lia. replace j with 0 by lia. by rewrite HA.
Qed.

Lemma radd_comm_sp n m f r : no_lin r = true → sparse_only r = false → radd r (Spr n m f) = radd (Spr n m f) r.
Proof. by destruct r. Qed.
Lemma radd_sp_num f r c : is_num r c → radd (Spr 1 1 f) r = (a ← as_array r; sp_add 1 1 f a).
Proof. by destruct r. Qed.

Lemma radd_sp_arr n m f a : sh a = [n; m] →
  ∃ t, radd (Spr n m f) (Arr a) = Some (Arr t) ∧ sh t = [n; m] ∧
    ∀ i j, i < n → j < m → dat t (i * m + j) = (f i j + dat a (i * m + j))%R.
Proof.
  intros Hs. simpl. unfold sp_add. rewrite Hs. rewrite decide_True by apply bshape_same. eexists. split; [done|]. split; [done|].
  intros i j Hi Hj. rewrite arr2_dat by done. rewrite bidx_same; [done|]. rewrite size2. nia.
Qed.

(** Sums: what is returned is the sum; away from single elements nothing raises. *)
Lemma radd_sound a b n m A B r : stores a n m A → stores b n m B → no_lin a = true → no_lin b = true →
  radd a b = Some r → stores r n m (mplus A B) ∧ no_lin r = true.
Proof.
  intros Ha Hb La Lb Hr. destruct (decide (n * m = 1)) as [E|E].
  - apply Nat.eq_mul_1 in E as [-> ->].
    destruct (one_cases a A Ha La) as [Na|(f & -> & Ef)], (one_cases b B Hb Lb) as [Nb|(h & -> & Eh)].
    + destruct (radd_num a b _ _ Na Nb) as (t & Et & Nt). rewrite Hr in Et. injection Et as <-.
      split; [right; by split_and!|]. by destruct r.
    + rewrite radd_comm_sp in Hr by (done || by destruct a). rewrite (radd_sp_num h a _ Na) in Hr.
      destruct (num_array a _ Na) as (x & Ex & Dx & Sx). rewrite Ex in Hr. simpl in Hr.
      destruct (sp_add_num h x _ _ r Eh Dx Sx Hr) as [Hl Hst]. split; [|done]. apply Hst. unfold mplus. ring.
    + rewrite (radd_sp_num f b _ Nb) in Hr. destruct (num_array b _ Nb) as (x & Ex & Dx & Sx). rewrite Ex in Hr. simpl in Hr.
      destruct (sp_add_num f x _ _ r Ef Dx Sx Hr) as [Hl Hst]. split; [|done]. by apply Hst.
    + unfold radd in Hr. rewrite decide_True in Hr by done. injection Hr as <-. split; [|done]. left. split_and!; [done..|].
      intros i j Hi Hj. replace i with 0 by lia. replace j with 0 by lia. unfold mplus. by rewrite Ef, Eh.
  - destruct (many_cases a n m A Ha La E) as [(x & -> & Sx & Dx)|(f & -> & Ef)], (many_cases b n m B Hb Lb E) as [(y & -> & Sy & Dy)|(h & -> & Eh)].
    + assert (Eb : bshape (sh x) (sh y) = Some [n; m]) by (rewrite Sx, Sy; apply bshape_same).
      simpl in Hr. rewrite Eb in Hr. injection Hr as <-. split; [|done]. left. split; [by apply bop_sh|]. intros i j Hi Hj.
      rewrite (bop_dat _ _ _ [n; m]) by done. rewrite Sx, Sy, bidx_same by (rewrite size2; nia). by rewrite Dx, Dy.
    + rewrite radd_comm_sp in Hr by done. destruct (radd_sp_arr n m h x Sx) as (t & Et & St & Dt). rewrite Hr in Et. injection Et as ->.
      split; [|done]. left. split; [done|]. intros i j Hi Hj. rewrite Dt, Dx, Eh by done. unfold mplus. ring.
    + destruct (radd_sp_arr n m f y Sy) as (t & Et & St & Dt). rewrite Hr in Et. injection Et as ->.
      split; [|done]. left. split; [done|]. intros i j Hi Hj. rewrite Dt, Dy, Ef by done. done.
    + unfold radd in Hr. rewrite decide_True in Hr by done. injection Hr as <-. split; [|done]. left. split_and!; [done..|].
      intros i j Hi Hj. unfold mplus. by rewrite Ef, Eh.
Qed.
Lemma radd_total a b n m A B : stores a n m A → stores b n m B → no_lin a = true → no_lin b = true →
  (n * m ≠ 1 ∨ sparse_only a = sparse_only b) → is_Some (radd a b).
Proof.
  intros Ha Hb La Lb [E|E].
  - destruct (many_cases a n m A Ha La E) as [(x & -> & Sx & Dx)|(f & -> & Ef)], (many_cases b n m B Hb Lb E) as [(y & -> & Sy & Dy)|(h & -> & Eh)].
    + simpl. rewrite Sx, Sy, bshape_same. by eexists.
    + rewrite radd_comm_sp by done. destruct (radd_sp_arr n m h x Sx) as (t & Et & _). rewrite Et. by eexists.
    + destruct (radd_sp_arr n m f y Sy) as (t & Et & _). rewrite Et. by eexists.
    + unfold radd. rewrite decide_True by done. by eexists.
  - destruct (decide (n * m = 1)) as [E1|E1].
    + apply Nat.eq_mul_1 in E1 as [-> ->].
      destruct (one_cases a A Ha La) as [Na|(f & -> & Ef)], (one_cases b B Hb Lb) as [Nb|(h & -> & Eh)].
      * destruct (radd_num a b _ _ Na Nb) as (t & Et & Nt). rewrite Et. by eexists.
      * by destruct a.
      * by destruct b.
      * unfold radd. rewrite decide_True by done. by eexists.
    + destruct (many_cases a n m A Ha La E1) as [(x & -> & Sx & Dx)|(f & -> & Ef)], (many_cases b n m B Hb Lb E1) as [(y & -> & Sy & Dy)|(h & -> & Eh)]; try done.
      * simpl. rewrite Sx, Sy, bshape_same. by eexists.
      * unfold radd. rewrite decide_True by done. by eexists.
Qed.
Lemma radd_sparse a b r : radd a b = Some r → sparse_only a = true → sparse_only b = true → sparse_only r = true.
Proof.
  destruct a as [| |n m f|], b as [| |n' m' f'|]; try done. simpl. destruct (decide _); [|done]. by intros [= <-].
Qed.
Lemma radd_dense a b r n m A B : stores a n m A → stores b n m B → no_lin a = true → no_lin b = true →
  radd a b = Some r → sparse_only a = false → sparse_only b = false → sparse_only r = false.
Proof.
  destruct a as [x|x| |], b as [y|y| |]; try done; simpl; intros _ _ _ _ Hr _ _.
  all: repeat case_match; try done; by injection Hr as <-.
Qed.

Definition msum (As : list mat) : mat := λ i j, rsum ((λ A : mat, A i j) <$> As).
(** A list of stored n x m Jacobians. *)
Definition all_store (n m : nat) (l : list rep) (As : list mat) : Prop :=
  Forall2 (λ r A, stores r n m A ∧ no_lin r = true) l As.

Lemma foldl_radd_none l : foldl (λ acc y, x ← acc; radd x y) None l = None.
Proof. by induction l. Qed.
Lemma rsum_reps_sound n m l : ∀ d A As r, stores d n m A → no_lin d = true → all_store n m l As →
  rsum_reps d l = Some r → stores r n m (msum (A :: As)) ∧ no_lin r = true.
Proof.
  unfold rsum_reps. induction l as [|y l IH]; intros d A As r Hd Ld Hl.
  - apply Forall2_nil_inv_l in Hl as ->. intros [= <-]. split; [|done]. eapply stores_meq; [|done].
    intros i j _ _. unfold msum. simpl. ring.
  - apply Forall2_cons_inv_l in Hl as (B & Bs & [Hy Ly] & Hl & ->). simpl.
    destruct (radd d y) as [t|] eqn:Et; [|by rewrite foldl_radd_none]. intros Hr.
    destruct (radd_sound d y n m A B t) as [Ht Lt]; [done..|].
    destruct (IH t (mplus A B) Bs r Ht Lt Hl Hr) as [Hst Hlr]. split; [|done]. eapply stores_meq; [|done].
    intros i j _ _. unfold msum, mplus. simpl. ring.
Qed.
Lemma rsum_reps_total n m l : ∀ d A As, stores d n m A → no_lin d = true → all_store n m l As →
  (n * m ≠ 1 ∨ sparse_only d = true ∧ Forall (λ r, sparse_only r = true) l ∨
   sparse_only d = false ∧ Forall (λ r, sparse_only r = false) l ∨ l = []) →
  is_Some (rsum_reps d l).
Proof.
  unfold rsum_reps. induction l as [|y l IH]; intros d A As Hd Ld Hl Hc; [by eexists|].
  apply Forall2_cons_inv_l in Hl as (B & Bs & [Hy Ly] & Hl & ->). simpl.
  destruct (radd_total d y n m A B) as [t Et]; [done..| |].
  { destruct Hc as [?|[[-> Hf]|[[-> Hf]|?]]]; [by left| | |done]; right; apply list.Forall_cons in Hf as [-> _]; done. }
  destruct (radd_sound d y n m A B t) as [Ht Lt]; [done..|].
  rewrite Et. apply (IH t (mplus A B) Bs); [done..|].
  destruct Hc as [?|[[Hds Hf]|[[Hds Hf]|?]]]; [by left| | |done]; apply list.Forall_cons in Hf as [Hys Hf]; right.
  - left. split; [|done]. by eapply radd_sparse.
  - right; left. split; [|done]. by eapply (radd_dense d y t n m A B).
Qed.

Lemma all_store_lin n m l As : all_store n m l As → existsb is_lin l = false.
Proof. induction 1 as [|r A l As [_ Hr] _ IH]; [done|]. simpl. rewrite IH. by destruct r. Qed.

(** The conversions of dr_wrt give a matrix. *)
Lemma finish_num r c : is_num r c → c ≠ 0%R → ∃ a, finish r = Some (Arr a) ∧ sh a = [1; 1] ∧ dat a 0 = c.
Proof.
  intros Hr Hc. destruct (num_array r c Hr) as (a & Ea & Da & Sa). unfold finish. rewrite Ea.
  assert (nonzeros a = 1) as Hn.
  { unfold nonzeros. replace (asize a) with 1 by (unfold asize; destruct Sa as [->|[->| ->]]; done). simpl.
    rewrite Da. by destruct (Req_EM_T c 0). }
  assert (asize a = 1) as H1 by (unfold asize; destruct Sa as [->|[->| ->]]; done).
  rewrite decide_False by (rewrite Hn, H1; lia). eexists. split; [done|].
  unfold two_dims. destruct Sa as [E|[E|E]]; rewrite E; by split_and!.
Qed.
Lemma finish_is r n m A : stores r n m A → no_lin r = true → ∃ r', finish r = Some r' ∧ is_mat r' n m A ∧ no_lin r' = true.
Proof.
  intros Hr Hl. destruct (decide (n * m = 1)) as [E|E].
  - apply Nat.eq_mul_1 in E as [-> ->]. destruct (one_cases r A Hr Hl) as [Hn|(f & -> & Ef)].
    + destruct (num_array r _ Hn) as (a & Ea & Da & Sa). unfold finish. rewrite Ea. case_decide.
      * unfold to_sparse. destruct Sa as [Es|[Es|Es]]; rewrite Es; (eexists; split; [done|]; split; [|done]); split_and!; try done;
          intros i j Hi Hj; replace i with 0 by lia; replace j with 0 by lia; done.
      * unfold two_dims. destruct Sa as [Es|[Es|Es]]; rewrite Es; (eexists; split; [done|]; split; [|done]);
          (split; [done|]); intros i j Hi Hj; replace i with 0 by lia; replace j with 0 by lia; done.
    + eexists. split; [done|]. split; [|done]. split_and!; [done..|]. intros i j Hi Hj. replace i with 0 by lia. by replace j with 0 by lia.
  - destruct (many_cases r n m A Hr Hl E) as [(a & -> & Sa & Da)|(f & -> & Ef)].
    + unfold finish. simpl as_array. cbv match. case_decide.
      * unfold to_sparse. rewrite Sa. eexists. split; [done|]. split; [|done]. split_and!; [done..|]. intros i j Hi Hj. by apply Da.
      * unfold two_dims. rewrite Sa. eexists. split; [done|]. split; [|done]. by split.
    + eexists. split; [done|]. split; [|done]. by split_and!.
Qed.

Lemma conclude_sound n m l As res : all_store n m l As → conclude l = Some res →
  match res with
  | None => l = [] ∧ As = []
  | Some r => is_mat r n m (msum As) ∧ no_lin r = true
  end.
Proof.
  intros Hl. pose proof (all_store_lin _ _ _ _ Hl) as Hlin. destruct l as [|d l].
  - apply Forall2_nil_inv_l in Hl as ->. by intros [= <-].
  - apply Forall2_cons_inv_l in Hl as (A & Bs & [Hd Ld] & Hl & ->). unfold conclude.
    assert (Hs : ∀ r, dsum (d :: l) = Some r → ∃ r', r = Some r' ∧ stores r' n m (msum (A :: Bs)) ∧ no_lin r' = true).
    { intros r. assert (Hgen : (r' ← rsum_reps d l; Some (Some r')) = Some r → ∃ r', r = Some r' ∧ stores r' n m (msum (A :: Bs)) ∧ no_lin r' = true).
      { destruct (rsum_reps d l) as [t|] eqn:Et; [|done]. intros [= <-]. exists t. split; [done|]. by apply (rsum_reps_sound n m l d A Bs t). }
      destruct l as [|e l]; [exact Hgen|]. unfold dsum. by rewrite Hlin. }
    destruct (dsum (d :: l)) as [r|]; [|done]. destruct (Hs r eq_refl) as (r' & -> & Hst & Hlr). simpl.
    destruct (finish_is r' n m _ Hst Hlr) as (r2 & Ef & Hm & Hl2). rewrite Ef. simpl. by intros [= <-].
Qed.
Lemma conclude_total n m l As : all_store n m l As →
  (n * m ≠ 1 ∨ Forall (λ r, sparse_only r = true) l ∨ length l ≤ 1) → is_Some (conclude l).
Proof.
  intros Hl Hc. pose proof (all_store_lin _ _ _ _ Hl) as Hlin. destruct l as [|d l]; [by eexists|].
  apply Forall2_cons_inv_l in Hl as (A & Bs & [Hd Ld] & Hl & ->). unfold conclude.
  assert (is_Some (rsum_reps d l)) as [t Et].
  { apply (rsum_reps_total n m l d A Bs); [done..|]. destruct Hc as [?|[Hf|Hf]]; [by left| |].
    - apply list.Forall_cons in Hf as [? ?]. by right; left.
    - destruct l; [by right; right; right|simpl in Hf; lia]. }
  assert (Hds : dsum (d :: l) = Some (Some t)).
  { destruct l as [|e l]; [by injection Et as <-|]. unfold dsum. rewrite Hlin. by rewrite Et. }
  rewrite Hds. simpl. destruct (rsum_reps_sound n m l d A Bs t) as [Hst Hlt]; [done..|].
  destruct (finish_is t n m _ Hst Hlt) as (r2 & Ef & _). rewrite Ef. by eexists.
Qed.
