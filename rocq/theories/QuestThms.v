(** Questions about values: proofs. *)
From Coq Require Import Reals Lra FunctionalExtensionality.
From stdpp Require Import list list_numbers numbers gmap.
From Verif Require Import ArrModel Curve ArrThms ElemModel ElemSpec ElemThms ReorderModel ReorderSpec ReorderThms ReorderCache RedModel RedSpec RedThms ExtThms NanModel NanSpec NanThms StepThms InterpThms.
From Verif Require Import MixModel MixSpec MixThms MixRules ProtoModel QuestModel QuestSpec.

Lemma truth_is e : truth e = true ↔ e ≠ Num 0.
Proof.
  destruct e as [x| | |]; simpl; try done. rewrite bool_decide_eq_true. split; [congruence|]. intros H E. apply H. by rewrite E.
Qed.
Lemma truth_not e : truth e = false ↔ e = Num 0.
Proof.
  destruct e as [x| | |]; simpl; try done. rewrite bool_decide_eq_false. split; [|intros [= ->]; tauto]. intros H. f_equal.
  destruct (Req_dec x 0); [done|]. by apply H in H0.
Qed.
Lemma e_f_is f e : e_f f e = true ↔ asks f e.
Proof.
  destruct f; simpl; [destruct e; simpl; naive_solver..|]. rewrite negb_true_iff. apply truth_not.
Qed.
Lemma q_f_is f a l : q_f f (dat a <$> l) = true ↔ asks_of f a l.
Proof.
  destruct f; simpl.
  - rewrite forallb_forall. setoid_rewrite <- elem_of_list_In. split.
    + intros H p Hp. apply truth_is, H. apply elem_of_list_fmap. eauto.
    + intros H e (p & -> & Hp)%elem_of_list_fmap. by apply truth_is, H.
  - rewrite existsb_exists. setoid_rewrite <- elem_of_list_In. split.
    + intros (e & (p & -> & Hp)%elem_of_list_fmap & H). exists p. by rewrite <- truth_is.
    + intros (p & Hp & H). exists (dat a p). split; [apply elem_of_list_fmap; eauto|]. by apply truth_is.
Qed.
Lemma asks_of_perm f a l l' : l ≡ₚ l' → asks_of f a l ↔ asks_of f a l'.
Proof. intros H. destruct f; simpl; by setoid_rewrite H. Qed.
Lemma bit_answers b (P : Prop) : (b = true ↔ P) → answers (bit b) P.
Proof. intros H. split; intros HP; destruct b; simpl; try done; naive_solver. Qed.
Lemma atleast_dat {T} (a : arr T) : dat (atleast_1d a) = dat a.
Proof. unfold atleast_1d. by destruct (sh a). Qed.
Lemma atleast_sh {T} (a : arr T) : sh (atleast_1d a) = match sh a with [] => [1] | _ => sh a end.
Proof. unfold atleast_1d. by destruct (sh a) eqn:E. Qed.
Lemma atleast_asize {T} (a : arr T) : asize (atleast_1d a) = asize a.
Proof. unfold asize. rewrite atleast_sh. by destruct (sh a). Qed.

Theorem each_value f a : ∃ y, logic_r (Each f) a = Some y ∧ sh y = match sh a with [] => [1] | _ => sh a end ∧ ∀ i, answers (dat y i) (asks f (dat a i)).
Proof.
  eexists. split; [done|]. rewrite atleast_sh. split; [done|]. intros i. rewrite atleast_dat. apply bit_answers, e_f_is.
Qed.

Lemma size_ones n : size (replicate n 1) = 1.
Proof. induction n as [|n IH]; [done|]. simpl. rewrite IH. done. Qed.
Lemma size_insert k d e (s : shp) : s !! k = Some d → size (<[k := e]> s) = e * size (delete k s).
Proof. intros H. rewrite (size_delete k e). 2:{ apply list_lookup_insert. by eapply lookup_lt_Some. } f_equal. f_equal.
  revert s H. induction k as [|k IH]; intros [|x s] H; simpl in *; try done. f_equal. by apply IH. Qed.
Lemma asked_size {T U} (f : list T → U) ax (keep : bool) (a : arr T) (r : arr U) : np_fold f ax a = Some r → asize (if keep then Arr_ (kept ax (sh a)) (dat r) else r) = asize r.
Proof.
  intros Hr. destruct (np_fold_value _ _ _ _ Hr) as [Hred _]. destruct keep; [|done]. unfold asize. cbn [sh]. destruct ax as [k|]; simpl in *.
  - destruct Hred as (k' & Hk & ->). rewrite (proj2 (naxis_is _ _ _) Hk). destruct (axis_dim _ _ _ Hk) as [d Hd].
    rewrite (size_insert _ d) by done. lia.
  - rewrite Hred. apply size_ones.
Qed.
Theorem over_value f ax keep a y : logic_r (Over f ax keep) a = Some y →
  asked_shape ax keep (sh a) (sh y) ∧ (∀ o, reduced ax (sh a) o → asize y = size o) ∧
  ∀ i l, i < asize y → gathers ax (sh a) i l → answers (dat y i) (asks_of f a l).
Proof.
  unfold logic_r. intros (b & Hb & ->)%fmap_Some. simpl in Hb. unfold np_ask in Hb. apply fmap_Some in Hb as (r & Hr & ->).
  destruct (np_fold_value _ _ _ _ Hr) as [Hred Hv].
  pose proof (asked_size _ ax keep a r Hr) as Hsz.
  rewrite atleast_sh. split_and!.
  - unfold asked_shape. destruct keep; cbn [sh amap].
    + destruct ax as [k|]; simpl in *.
      * destruct Hred as (k' & Hk & _). exists k'. rewrite (proj2 (naxis_is _ _ _) Hk). destruct (axis_dim _ _ _ Hk) as [d Hd]. pose proof (lookup_lt_Some _ _ _ Hd) as Hlt.
        assert (E : match <[k':=1]> (sh a) with [] => [1] | _ => <[k':=1]> (sh a) end = <[k':=1]> (sh a)).
        { destruct (<[k':=1]> (sh a)) eqn:E; [|done]. apply (f_equal length) in E. rewrite insert_length in E. simpl in E. lia. }
        rewrite E. split_and!; [done|by rewrite insert_length|by apply list_lookup_insert|]. intros c Hc. by apply list_lookup_insert_ne.
      * destruct (sh a) as [|d s]; simpl; [split; [done|]; by intros d ->%elem_of_list_singleton|]. rewrite replicate_length. split; [lia|]. intros e [->|He]%elem_of_cons; [done|]. by apply elem_of_replicate_inv in He.
    + exists (sh r). split; [done|]. done.
  - intros o Ho. rewrite atleast_asize. unfold asize at 1. cbn [sh amap]. fold (asize (if keep then Arr_ (kept ax (sh a)) (dat r) else r)). rewrite Hsz. unfold asize. f_equal. by eapply reduced_unique.
  - intros i l Hi Hl. rewrite atleast_asize in Hi. unfold asize in Hi. cbn [sh amap] in Hi. fold (asize (if keep then Arr_ (kept ax (sh a)) (dat r) else r)) in Hi. rewrite Hsz in Hi.
    rewrite atleast_dat. destruct (Hv i Hi) as (l' & Hl' & E). assert (Ed : dat (amap bit (if keep then Arr_ (kept ax (sh a)) (dat r) else r)) i = bit (q_f f (dat a <$> l'))).
    { cbn [dat amap]. f_equal. by destruct keep. }
    rewrite Ed. apply bit_answers. rewrite q_f_is. apply asks_of_perm. by eapply gathers_perm.
Qed.
Theorem over_raises f ax keep a : logic_r (Over f ax keep) a = None ↔ ∃ k, ax = Some k ∧ ∀ c, ¬ axis_is (length (sh a)) k c.
Proof.
  unfold logic_r. simpl. unfold np_ask. rewrite !fmap_None. destruct ax as [k|]; simpl; [|naive_solver].
  destruct (naxis (length (sh a)) k) as [c|] eqn:E; simpl.
  - split; [done|]. intros (k' & [= <-] & H). apply naxis_is in E. by apply H in E.
  - split; [|done]. intros _. exists k. split; [done|]. intros c Hc. apply naxis_is in Hc. congruence.
Qed.

(** They have no derivative. *)
Lemma bit_whole b : ∃ k, bit b = IZR k.
Proof. destruct b; [by exists 1%Z|by exists 0%Z]. Qed.
Theorem logic_flat q u y w : (∀ t, logic_r q (u t) = Some (y t)) → amoves y w → ∀ i, w i = 0%R.
Proof.
  intros H. apply whole_moves. intros t i. specialize (H t). unfold logic_r in H. apply fmap_Some in H as (b & _ & ->). rewrite atleast_dat. apply bit_whole.
Qed.
(** The answer stays for a while. *)
Lemma np_fold_ext {T U} (f g : list T → U) ax (a b : arr T) : sh a = sh b → (∀ l, (∀ p, p ∈ l → p < asize a) → f (dat a <$> l) = g (dat b <$> l)) →
  match np_fold f ax a, np_fold g ax b with Some x, Some y => aeq x y | None, None => True | _, _ => False end.
Proof.
  intros Hs H. destruct ax as [k|]; simpl.
  - rewrite <- Hs. destruct (naxis (length (sh a)) k) as [k'|] eqn:E; [|done]. simpl. apply naxis_is in E. destruct (axis_dim _ _ _ E) as [d Hd]. split; [simpl; by rewrite Hs|].
    intros i Hi. rewrite !fold_axis_dat, <- Hs. apply H. intros p Hp. apply (slice_in _ d) in Hp; [by destruct Hp|done|exact Hi].
  - split; [done|]. intros i _. cbn [dat]. unfold elems. replace (asize b) with (asize a) by (unfold asize; by rewrite Hs). apply H. intros p Hp%elem_of_seq. lia.
Qed.
Lemma near_num (x : R → R) l : derivable_pt_lim x 0%R l → x 0%R ≠ 0%R → near (λ t, x t ≠ 0%R).
Proof.
  intros Hd H. destruct (Rlt_dec 0 (x 0%R)).
  - eapply near_mono; [|apply (near_between x 0%R (x 0 + 1)%R l ltac:(lra) Hd)]. intros t ?. cbv beta in *. lra.
  - eapply near_mono; [|apply (near_between x (x 0 - 1)%R 0%R l ltac:(lra) Hd)]. intros t ?. cbv beta in *. lra.
Qed.
Lemma near_truth (u : R → arr ev) v i : emoves u v → i < asize (u 0%R) → dat (u 0%R) i ≠ Num 0 → near (λ t, truth (dat (u t) i) = truth (dat (u 0%R) i)).
Proof.
  intros [HN Hd] Hi H0. destruct (dat (u 0%R) i) as [x| | |] eqn:E.
  2-4: eapply near_mono; [|exact HN]; intros t [_ Ht]; specialize (Ht i Hi); rewrite E in Ht; simpl in Ht; by rewrite <- Ht.
  specialize (Hd i x Hi E). assert (Hx0 : num (dat (u 0%R) i) ≠ 0%R) by (rewrite E; simpl; congruence). eapply near_mono; [|exact (near_and _ _ HN (near_num _ _ Hd Hx0))].
  intros t [[_ Ht] Hx]. specialize (Ht i Hi). rewrite E in Ht. destruct (dat (u t) i) as [z| | |]; simpl in *; try done. rewrite !bool_decide_eq_true_2; [done|congruence|done].
Qed.
Lemma alike_e_f f e e' : alike e e' → f ≠ Enot → e_f f e = e_f f e'.
Proof. destruct e, e', f; simpl; intros H ?; try done. Qed.
Theorem logic_constant q u v y : logic_r q (u 0%R) = Some y → emoves u v → (∀ i, i < asize (u 0%R) → ¬ at_edge q (dat (u 0%R) i)) →
  near (λ t, ∃ z, logic_r q (u t) = Some z ∧ aeq z y).
Proof.
  intros Hy Hu Hq.
  assert (HT : (∀ i, i < asize (u 0%R) → dat (u 0%R) i ≠ Num 0) → near (λ t, ∀ i, i < asize (u 0%R) → truth (dat (u t) i) = truth (dat (u 0%R) i))).
  { intros H0. eapply near_mono; [|apply (near_list (seq 0 (asize (u 0%R))) (λ i t, truth (dat (u t) i) = truth (dat (u 0%R) i)))].
    - intros t H i Hi. apply H. apply elem_of_seq. lia.
    - intros i Hi%elem_of_seq. apply (near_truth u v); [done|lia|]. apply H0. lia. }
  destruct q as [f|f ax keep].
  - assert (HD : f = Enot ∨ f ≠ Enot) by (destruct f; auto; by right). destruct HD as [->|Hne].
    + eapply near_mono; [|exact (near_and _ _ (proj1 Hu) (HT Hq))]. intros t [[Hs _] Ht]. eexists. split; [done|]. injection Hy as <-. split.
      * rewrite !atleast_sh. simpl. by rewrite Hs.
      * intros i Hi. rewrite !atleast_dat. simpl. rewrite Ht; [done|]. rewrite atleast_asize in Hi. unfold asize in *. simpl in Hi. by rewrite Hs in Hi.
    + eapply near_mono; [|exact (proj1 Hu)]. intros t [Hs Ht]. eexists. split; [done|]. injection Hy as <-. split.
      * rewrite !atleast_sh. simpl. by rewrite Hs.
      * intros i Hi. rewrite !atleast_dat. simpl. f_equal. symmetry. apply alike_e_f; [|done]. apply Ht. rewrite atleast_asize in Hi. unfold asize in *. simpl in Hi. by rewrite Hs in Hi.
  - eapply near_mono; [|exact (near_and _ _ (proj1 Hu) (HT Hq))]. intros t [[Hs _] Ht].
    assert (HE : match np_fold (q_f f) ax (u t), np_fold (q_f f) ax (u 0%R) with Some x, Some y => aeq x y | None, None => True | _, _ => False end).
    { apply np_fold_ext; [done|]. intros l Hl. assert (HM : truth <$> (dat (u t) <$> l) = truth <$> (dat (u 0%R) <$> l)).
      { rewrite <- !list_fmap_compose. apply list_fmap_ext. intros j p Hp. simpl. apply Ht. unfold asize. rewrite <- Hs. apply Hl. by eapply elem_of_list_lookup_2. }
      revert HM. generalize (dat (u t) <$> l) (dat (u 0%R) <$> l). intros m. induction m as [|e m IH]; intros [|e' m'] HM; simpl in *; try done. injection HM as He HM.
      specialize (IH m' HM). destruct f; simpl in *; by rewrite He, IH. }
    unfold logic_r in Hy |- *. simpl in Hy |- *. unfold np_ask in Hy |- *. destruct (np_fold (q_f f) ax (u 0%R)) as [r0|]; [|done].
    destruct (np_fold (q_f f) ax (u t)) as [r|] eqn:Er; [|done]. simpl in *. injection Hy as <-. eexists. split; [done|]. destruct HE as [E1 E2]. split.
    + rewrite !atleast_sh. destruct keep; simpl; [by rewrite Hs|by rewrite E1].
    + intros i Hi. rewrite !atleast_dat. rewrite atleast_asize in Hi. change (i < asize (if keep then Arr_ (kept ax (sh (u t))) (dat r) else r)) in Hi. rewrite (asked_size _ ax keep _ _ Er) in Hi. destruct keep; simpl; f_equal; by apply E2.
Qed.
