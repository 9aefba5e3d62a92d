(** Concatenation: values, Jacobians, flattening. *)
From Coq Require Import Reals Lra.
From stdpp Require Import gmap strings list list_numbers numbers.
From Verif Require Import EngineModel ArrModel Curve ArrThms ElemModel ElemSpec ElemThms ReorderModel ReorderSpec ReorderThms ReorderCache
  ConcModel ConcSpec.

(* ------------------------------------------------------------------ *)
(** Finding an element. *)
Lemma locate_spec ds k t j : locate ds k = Some (t, j) ↔ ∃ d, ds !! t = Some d ∧ j < d ∧ k = sum_list (take t ds) + j.
Proof.
  revert k t j. induction ds as [|d ds IH]; intros k t j; simpl; [split; [done|intros (d & Hd & _); done]|].
  destruct (decide (k < d)) as [H|H].
  - split.
    + intros [= <- <-]. exists d. simpl. split_and!; [done|done|lia].
    + intros (d' & Hd & Hj & Hk). destruct t as [|t]; simpl in *; [injection Hd as <-; f_equal; f_equal; lia|].
      exfalso. lia.
  - split.
    + intros ((t', j') & Hl & [= -> ->])%fmap_Some. apply IH in Hl as (d' & Hd & Hj & Hk). exists d'. simpl. split_and!; [done|done|lia].
    + intros (d' & Hd & Hj & Hk). destruct t as [|t]; simpl in *; [injection Hd as <-; lia|].
      rewrite (proj2 (IH (k - d) t j)); [done|]. exists d'. split_and!; [done|done|lia].
Qed.
Lemma locate_total ds k : k < sum_list ds → is_Some (locate ds k).
Proof.
  revert k. induction ds as [|d ds IH]; intros k Hk; simpl in *; [lia|]. destruct (decide (k < d)); [done|].
  apply fmap_is_Some, IH. lia.
Qed.
Lemma sum_take (ds : list nat) t d : ds !! t = Some d → sum_list (take t ds) + d ≤ sum_list ds.
Proof.
  revert t. induction ds as [|e ds IH]; intros [|t] H; simpl in *; [done|done|injection H as <-; lia|]. specialize (IH t H). lia.
Qed.
Lemma total_iff k vs n : total k vs n ↔ (∀ v, v ∈ vs → k < length (sh v)) ∧ n = sum_list (dims k vs).
Proof.
  split.
  - induction 1 as [|v vs d n Hd Ht [H1 H2]]; [split; [set_solver|done]|]. split.
    + intros w [->|Hw]%elem_of_cons; [by eapply lookup_lt_Some|by apply H1].
    + cbn [dims fmap list_fmap sum_list]. rewrite (nth_of _ _ _ Hd). unfold dims in H2. by rewrite <- H2.
  - revert n. induction vs as [|v vs IH]; intros n [H1 H2].
    + subst. constructor.
    + destruct (lookup_lt_is_Some_2 (sh v) k) as [d Hd]; [apply H1; by left|].
      subst. cbn [dims fmap list_fmap sum_list]. rewrite (nth_of _ _ _ Hd). constructor; [done|]. apply IH. split; [|done].
      intros w Hw. apply H1. by right.
Qed.
Lemma dims_length k vs : length (dims k vs) = length vs. Proof. unfold dims. apply fmap_length. Qed.
Lemma dims_take k vs t : dims k (take t vs) = take t (dims k vs). Proof. unfold dims. apply fmap_take. Qed.
Lemma dims_app k vs ws : dims k (vs ++ ws) = dims k vs ++ dims k ws. Proof. unfold dims. apply fmap_app. Qed.
Lemma sum_dims_cons k v vs : sum_list (dims k (v :: vs)) = nth k (sh v) 0 + sum_list (dims k vs). Proof. done. Qed.
Lemma sum_list_app (l1 l2 : list nat) : sum_list (l1 ++ l2) = sum_list l1 + sum_list l2.
Proof. induction l1; simpl; lia. Qed.

Lemma delete_same (l l' : list nat) k : length l = length l' → delete k l = delete k l' → ∀ b, b ≠ k → l !! b = l' !! b.
Proof.
  intros Hl E b Hb. destruct (decide (b < k)).
  - rewrite <- (lookup_delete_lt l k b), <- (lookup_delete_lt l' k b) by done. by rewrite E.
  - destruct b as [|b]; [lia|]. rewrite <- (lookup_delete_ge l k b), <- (lookup_delete_ge l' k b) by lia. by rewrite E.
Qed.
Lemma same_delete (l l' : list nat) k : length l = length l' → (∀ b, b ≠ k → l !! b = l' !! b) → delete k l = delete k l'.
Proof.
  intros Hl H. apply list_eq. intros b. destruct (decide (b < k)).
  - rewrite !lookup_delete_lt by done. apply H. lia.
  - rewrite !lookup_delete_ge by lia. apply H. lia.
Qed.
Lemma same_but_sym k l l' : same_but k l l' → same_but k l' l.
Proof. intros [H1 H2]. split; [done|]. intros b Hb. by rewrite H2. Qed.
Lemma same_but_trans k l1 l2 l3 : same_but k l1 l2 → same_but k l2 l3 → same_but k l1 l3.
Proof. intros [H1 H2] [H3 H4]. split; [congruence|]. intros b Hb. rewrite H2, H4 by done. done. Qed.
Lemma same_but_insert k l x : same_but k (<[k := x]> l) l.
Proof. split; [apply insert_length|]. intros b Hb. by rewrite list_lookup_insert_ne. Qed.
Lemma same_but_eq k l l' : same_but k l l' → l !! k = l' !! k → l = l'.
Proof. intros [H1 H2] E. apply list_eq. intros b. destruct (decide (b = k)) as [->|]; auto. Qed.
Lemma same_but_is k l l' x : same_but k l l' → l !! k = Some x → l = <[k := x]> l'.
Proof.
  intros H E. apply (same_but_eq k); [eapply same_but_trans; [done|apply same_but_sym, same_but_insert]|].
  rewrite list_lookup_insert; [done|]. destruct H as [<- _]. by eapply lookup_lt_Some.
Qed.

(* ------------------------------------------------------------------ *)
(** The value. *)
Lemma concat_inv ax vs y : concat ax vs = Some y → ∃ k n, axis_is n ax k ∧ length (sh y) = n ∧ vs ≠ [] ∧
  (∀ v, v ∈ vs → same_but k (sh v) (sh y)) ∧ sh y !! k = Some (sum_list (dims k vs)) ∧
  ∀ i, dat y i = match locate (dims k vs) (nth k (unravel (sh y) i) 0) with
        | Some (t, j) => match vs !! t with Some v => at_ v (<[k := j]> (unravel (sh y) i)) | None => 0%R end
        | None => 0%R end.
Proof.
  unfold concat. destruct vs as [|v0 vs]; [done|]. set (l := v0 :: vs).
  intros (k & Hk & E)%bind_Some. destruct (decide _) as [HF|]; [|done]. injection E as <-.
  apply naxis_is in Hk. exists k, (length (sh v0)). split_and!; [done|by cbn; rewrite insert_length|done| | |done].
  - intros v Hv. rewrite list.Forall_forall in HF. destruct (HF v Hv) as [H1 H2]. cbn [sh].
    apply (same_but_trans k _ (sh v0)); [|apply same_but_sym, same_but_insert]. split; [done|by apply delete_same].
  - cbn [sh]. apply list_lookup_insert. apply Hk.
Qed.
Lemma concat_some ax vs s k : vs ≠ [] → axis_is (length s) ax k → (∀ v, v ∈ vs → same_but k (sh v) s) → is_Some (concat ax vs).
Proof.
  intros Hne Hk Hs. destruct vs as [|v0 vs]; [done|]. unfold concat.
  assert (H0 : same_but k (sh v0) s) by (apply Hs; by left).
  rewrite (proj1 H0). rewrite (proj2 (naxis_is _ _ _) Hk). cbn [mbind option_bind].
  rewrite decide_True; [done|]. rewrite list.Forall_forall. intros v Hv. destruct (Hs v Hv) as [H1 H2].
  split; [done|]. apply same_delete; [by rewrite H1, (proj1 H0)|]. intros b Hb. rewrite H2, (proj2 H0) by done. done.
Qed.
Lemma inside_same k s s' jx ix i d : same_but k s s' → same_but k jx ix → inside s jx → s' !! k = Some d → ix !! k = Some i → i < d → inside s' ix.
Proof.
  intros [Hl Hs] [Hl' Hx] [Hin1 Hin2]%inside_iff Hd Hi Hlt. apply inside_iff. split; [congruence|].
  intros a i' d' Hi' Hd'. destruct (decide (a = k)) as [->|Ha]; [congruence|].
  apply (Hin2 a); [by rewrite Hx|by rewrite Hs].
Qed.
Lemma concat_is ax vs y : concat ax vs = Some y → ∃ k, axis_is (length (sh y)) ax k ∧ is_concat k vs y.
Proof.
  intros H. destruct (concat_inv ax vs y H) as (k & n & Hk & Hn & Hne & Hsb & Hdim & Hdat). exists k. rewrite Hn. split; [done|].
  assert (Hlen : ∀ v, v ∈ vs → k < length (sh v)) by (intros v Hv; rewrite (proj1 (Hsb v Hv)), Hn; apply Hk).
  split_and!; [|done|].
  - exists (sum_list (dims k vs)). split; [|done]. apply total_iff. by split.
  - intros t v jx ix Hv Hin (off & j & Hoff & Hsx & Hj & Hi). apply total_iff in Hoff as [_ ->].
    assert (Hvin : v ∈ vs) by (by eapply elem_of_list_lookup_2).
    destruct (lookup_lt_is_Some_2 (sh v) k) as [d Hd]; [by apply Hlen|].
    assert (Hjd : j < d) by (by eapply inside_at).
    assert (Hdt : dims k vs !! t = Some d) by (unfold dims; rewrite list_lookup_fmap, Hv; simpl; f_equal; by apply nth_of).
    assert (Hy : inside (sh y) ix).
    { eapply (inside_same k (sh v) (sh y) jx ix); [by apply Hsb|by apply same_but_sym|done|done|done|].
      rewrite dims_take. pose proof (sum_take _ _ _ Hdt). lia. }
    unfold at_ at 1. rewrite Hdat, unravel_ravel by done. rewrite (nth_of _ _ _ Hi).
    rewrite (proj2 (locate_spec (dims k vs) (sum_list (dims k (take t vs)) + j) t j)).
    + rewrite Hv. f_equal. symmetry. apply same_but_is; [by apply same_but_sym|done].
    + exists d. rewrite dims_take. done.
Qed.
(** every element of the result is some operand's *)
Lemma is_concat_covers k vs y ix : is_concat k vs y → inside (sh y) ix →
  ∃ t v jx, vs !! t = Some v ∧ inside (sh v) jx ∧ stands k vs t jx ix.
Proof.
  intros ((n & Hn & Hk) & Hsb & _) Hin. apply total_iff in Hn as [Hlen ->].
  destruct (inside_some _ _ _ _ Hin Hk) as (i & Hi & Hlt).
  destruct (locate_total _ _ Hlt) as [[t j] Hl]. apply locate_spec in Hl as (d & Hd & Hj & Ei).
  unfold dims in Hd. rewrite list_lookup_fmap in Hd. destruct (vs !! t) as [v|] eqn:Ev; [|done]. simpl in Hd. injection Hd as Hd.
  assert (Hvin : v ∈ vs) by (by eapply elem_of_list_lookup_2).
  destruct (lookup_lt_is_Some_2 (sh v) k) as [d' Hd']; [by apply Hlen|]. rewrite (nth_of _ _ _ Hd') in Hd. subst d'.
  assert (Hkx : k < length ix) by (by eapply lookup_lt_Some).
  exists t, v, (<[k := j]> ix). split_and!; [done| |].
  - eapply (inside_same k (sh y) (sh v) ix); [by apply same_but_sym, Hsb|apply same_but_sym, same_but_insert|done|done|by rewrite list_lookup_insert|done].
  - exists (sum_list (dims k (take t vs))), j. split_and!.
    + apply total_iff. split; [|done]. intros w Hw. apply Hlen. rewrite <- (take_drop t vs). apply elem_of_app. by left.
    + apply same_but_sym, same_but_insert.
    + by rewrite list_lookup_insert.
    + rewrite Hi, Ei. by rewrite dims_take.
Qed.
Lemma is_concat_unique k vs y z : is_concat k vs y → is_concat k vs z → vs ≠ [] → aeq y z.
Proof.
  intros Hy Hz Hne. assert (Hs : sh y = sh z).
  { destruct Hy as ((n & Hn & Hk) & Hsb & _), Hz as ((n' & Hn' & Hk') & Hsb' & _).
    apply total_iff in Hn as [_ ->]. apply total_iff in Hn' as [_ ->]. destruct vs as [|v vs]; [done|].
    apply (same_but_eq k); [|by rewrite Hk, Hk']. apply (same_but_trans k _ (sh v)); [apply same_but_sym, Hsb; by left|apply Hsb'; by left]. }
  split; [done|]. intros i Hi. unfold asize in Hi. pose proof (unravel_inside _ _ Hi) as Hin.
  destruct (is_concat_covers k vs y _ Hy Hin) as (t & v & jx & Ht & Hjx & Hst).
  destruct Hy as (_ & _ & Hy), Hz as (_ & _ & Hz). specialize (Hy t v jx _ Ht Hjx Hst). specialize (Hz t v jx _ Ht Hjx Hst).
  unfold at_ in Hy, Hz. rewrite <- Hs in Hz. rewrite ravel_unravel in Hy, Hz by done. congruence.
Qed.
(** Values from an offset on. *)
Definition vals (k off : nat) (vs : list (arr R)) (y : arr R) : Prop :=
  ∀ t v jx ix j, vs !! t = Some v → inside (sh v) jx → same_but k ix jx → jx !! k = Some j →
    ix !! k = Some (off + sum_list (dims k (take t vs)) + j) → at_ y ix = at_ v jx.
Lemma vals_app k off vs1 vs2 y : vals k off (vs1 ++ vs2) y ↔ vals k off vs1 y ∧ vals k (off + sum_list (dims k vs1)) vs2 y.
Proof.
  split.
  - intros H. split.
    + intros t v jx ix j Hv Hin Hsb Hj Hi. apply (H t v jx ix j); try done.
      * by apply lookup_app_l_Some.
      * rewrite take_app_le; [done|]. apply lookup_lt_Some in Hv. lia.
    + intros t v jx ix j Hv Hin Hsb Hj Hi. apply (H (length vs1 + t) v jx ix j); try done.
      * rewrite lookup_app_r by lia. by replace (length vs1 + t - length vs1) with t by lia.
      * rewrite take_add_app by done. rewrite dims_app, sum_list_app, Hi. f_equal. lia.
  - intros [H1 H2] t v jx ix j Hv Hin Hsb Hj Hi. destruct (decide (t < length vs1)).
    + rewrite lookup_app_l in Hv by done. apply (H1 t v jx ix j); try done. rewrite take_app_le in Hi by lia. done.
    + rewrite lookup_app_r in Hv by lia. apply (H2 (t - length vs1) v jx ix j); try done.
      replace t with (length vs1 + (t - length vs1)) in Hi by lia. rewrite take_add_app in Hi by done.
      rewrite dims_app, sum_list_app in Hi. rewrite Hi. f_equal. lia.
Qed.
Lemma is_concat_iff k vs y : is_concat k vs y ↔
  (∀ v, v ∈ vs → k < length (sh v) ∧ same_but k (sh v) (sh y)) ∧ sh y !! k = Some (sum_list (dims k vs)) ∧ vals k 0 vs y.
Proof.
  split.
  - intros ((n & Hn & Hk) & Hsb & Hv). apply total_iff in Hn as [Hlen ->]. split_and!; [by intros v H; split; auto|done|].
    intros t v jx ix j Ht Hin Hs Hj Hi. apply (Hv t v jx ix Ht Hin). exists (sum_list (dims k (take t vs))), j.
    split_and!; [|done|done|done]. apply total_iff. split; [|done].
    intros w Hw. apply Hlen. rewrite <- (take_drop t vs). apply elem_of_app. by left.
  - intros (H1 & H2 & H3). split_and!.
    + exists (sum_list (dims k vs)). split; [|done]. apply total_iff. split; [|done]. intros v Hv. by apply H1.
    + intros v Hv. by apply H1.
    + intros t v jx ix Ht Hin (off & j & Hoff & Hs & Hj & Hi). apply total_iff in Hoff as [_ ->].
      apply (H3 t v jx ix j); done.
Qed.
(** A concatenation inside a concatenation along the same axis *)
Lemma is_concat_flat k pre inner post y z : is_concat k inner y → is_concat k (pre ++ y :: post) z → is_concat k (pre ++ inner ++ post) z.
Proof.
  rewrite !is_concat_iff. intros (A1 & A2 & A3) (B1 & B2 & B3).
  assert (Hy : k < length (sh y) ∧ same_but k (sh y) (sh z)) by (apply B1; set_solver).
  assert (Hd : nth k (sh y) 0 = sum_list (dims k inner)) by (by apply nth_of).
  split_and!.
  - intros v [Hv|[Hv|Hv]%elem_of_app]%elem_of_app.
    + apply B1. set_solver.
    + destruct (A1 v Hv) as [H1 H2]. split; [done|]. eapply same_but_trans; [done|apply Hy].
    + apply B1. set_solver.
  - rewrite B2. f_equal. rewrite !dims_app, !sum_list_app, sum_dims_cons, Hd. lia.
  - change (y :: post) with ([y] ++ post) in B3. rewrite !vals_app in *. destruct B3 as (P1 & P2 & P3). split_and!; [done| |].
    + intros t v jx ix j Hv Hin Hs Hj Hi. set (off := sum_list (dims k (take t inner))) in *.
      assert (Hvin : v ∈ inner) by (by eapply elem_of_list_lookup_2). destruct (A1 v Hvin) as [Hkv Hsv].
      destruct (lookup_lt_is_Some_2 (sh v) k Hkv) as [d Hdv]. assert (j < d) by (by eapply inside_at).
      assert (Hdt : dims k inner !! t = Some d) by (unfold dims; rewrite list_lookup_fmap, Hv; simpl; f_equal; by apply nth_of).
      assert (Hle : off + d ≤ sum_list (dims k inner)) by (unfold off; rewrite dims_take; by apply sum_take).
      assert (Hkx : k < length ix) by (by eapply lookup_lt_Some).
      set (ix' := <[k := off + j]> ix).
      assert (Hs' : same_but k ix' jx) by (eapply same_but_trans; [apply same_but_insert|done]).
      assert (Hi' : ix' !! k = Some (off + j)) by (by apply list_lookup_insert).
      rewrite <- (A3 t v jx ix' j Hv Hin Hs' Hj); [|by rewrite Hi'].
      apply (P2 0 y ix' ix (off + j)); [done| |apply same_but_sym, same_but_insert|done|].
      * apply (inside_same k (sh v) (sh y) jx ix' (off + j) (sum_list (dims k inner))); try done; [by apply same_but_sym|lia].
      * rewrite Hi. simpl. f_equal. lia.
    + intros t v jx ix j Hv Hin Hs Hj Hi. apply (P3 t v jx ix j); try done. rewrite Hi. rewrite sum_dims_cons, Hd. f_equal. simpl. lia.
Qed.
Lemma is_concat_aeq k vs y z : is_concat k vs y → aeq y z → is_concat k vs z.
Proof.
  rewrite !is_concat_iff. intros (A1 & A2 & A3) [Hs Hd]. rewrite Hs in A1, A2. split_and!; [done|done|].
  intros t v jx ix j Hv Hin Hsb Hj Hi. rewrite <- (A3 t v jx ix j Hv Hin Hsb Hj Hi). unfold at_. rewrite Hs. symmetry. apply Hd.
  unfold asize. rewrite Hs. apply ravel_lt.
  assert (Hvin : v ∈ vs) by (by eapply elem_of_list_lookup_2). destruct (A1 v Hvin) as [Hkv Hsv].
  destruct (lookup_lt_is_Some_2 (sh v) k Hkv) as [d Hdv]. assert (j < d) by (by eapply inside_at).
  assert (Hdt : dims k vs !! t = Some d) by (unfold dims; rewrite list_lookup_fmap, Hv; simpl; f_equal; by apply nth_of).
  pose proof (sum_take _ _ _ Hdt) as Hle. rewrite <- dims_take in Hle.
  eapply (inside_same k (sh v) (sh z) jx ix); [done|by apply same_but_sym|done|done|done|simpl; lia].
Qed.

(* ------------------------------------------------------------------ *)
(** Flattening. *)
Lemma cval_conc ax l : cval (Conc ax l) = vs ← cvals l; concat ax vs. Proof. done. Qed.
Lemma cvals_cons t l : cvals (t :: l) = v ← cval t; vs ← cvals l; Some (v :: vs). Proof. done. Qed.
Lemma cvals_app l1 l2 : cvals (l1 ++ l2) = v1 ← cvals l1; v2 ← cvals l2; Some (v1 ++ v2).
Proof.
  induction l1 as [|t l IH]; [simpl; by destruct (cvals l2)|]. cbn [app]. rewrite !cvals_cons. destruct (cval t); [|done].
  cbn [mbind option_bind]. rewrite IH. destruct (cvals l); [|done]. cbn [mbind option_bind]. by destruct (cvals l2).
Qed.
Lemma cvals_app_Some l1 l2 vs : cvals (l1 ++ l2) = Some vs ↔ ∃ v1 v2, cvals l1 = Some v1 ∧ cvals l2 = Some v2 ∧ vs = v1 ++ v2.
Proof.
  rewrite cvals_app. split.
  - intros (v1 & H1 & (v2 & H2 & E)%bind_Some)%bind_Some. injection E as <-. by exists v1, v2.
  - intros (v1 & v2 & -> & -> & ->). done.
Qed.
Lemma cvals_cons_Some t l vs : cvals (t :: l) = Some vs ↔ ∃ v vs', cval t = Some v ∧ cvals l = Some vs' ∧ vs = v :: vs'.
Proof.
  rewrite cvals_cons. split.
  - intros (v1 & H1 & (v2 & H2 & E)%bind_Some)%bind_Some. injection E as <-. by exists v1, v2.
  - intros (v1 & v2 & -> & -> & ->). done.
Qed.
Lemma weights_app l1 l2 : weights (l1 ++ l2) = weights l1 + weights l2.
Proof. induction l1 as [|t l IH]; [done|]. simpl. lia. Qed.
Lemma expand_right fuel ax todo done_ vs k z : weights todo < fuel → cvals (done_ ++ todo) = Some vs → axis_is (length (sh z)) ax k →
  is_concat k vs z → vs ≠ [] → ∃ l ws, expand fuel ax todo done_ = Some l ∧ cvals l = Some ws ∧ is_concat k ws z ∧ ws ≠ [].
Proof.
  revert todo done_ vs. induction fuel as [|fuel IH]; intros todo done_ vs Hw Hvs Hk Hz Hne; [lia|]. simpl.
  destruct todo as [|t todo].
  - rewrite app_nil_r in Hvs. by exists done_, vs.
  - destruct t as [a|ax' l].
    + apply (IH todo (done_ ++ [Leaf a]) vs); [simpl in Hw; lia|by rewrite <- app_assoc|done..].
    + assert (weights (Conc ax' l :: todo) = S (weights l + weights todo)) as Hw' by done.
      destruct (decide (ax' = ax)) as [->|].
      * apply cvals_app_Some in Hvs as (pre & rest & Hp & Hr & ->). apply cvals_cons_Some in Hr as (y & post & Hy & Hpost & ->).
        rewrite cval_conc in Hy. apply bind_Some in Hy as (inner & Hin & Hy).
        assert (Hyk : is_concat k inner y).
        { destruct (concat_is _ _ _ Hy) as (k' & Hk' & Hc). assert (length (sh y) = length (sh z)) as El.
          { destruct Hz as (_ & Hsb & _). apply (Hsb y). set_solver. }
          rewrite El in Hk'. by rewrite (axis_is_unique _ _ _ _ Hk Hk'). }
        destruct (concat_inv _ _ _ Hy) as (_ & _ & _ & _ & Hne' & _).
        apply (IH (l ++ todo) done_ (pre ++ inner ++ post)); [rewrite weights_app; lia| |done| |].
        -- rewrite cvals_app_Some. exists pre, (inner ++ post). split_and!; [done| |done]. rewrite cvals_app_Some. by exists inner, post.
        -- by eapply is_concat_flat.
        -- intros [_ [? _]%app_eq_nil]%app_eq_nil. done.
      * apply (IH todo (done_ ++ [Conc ax' l]) vs); [lia|by rewrite <- app_assoc|done..].
Qed.
Lemma concatenate_value ax l vs y : cvals l = Some vs → concat ax vs = Some y →
  ∃ t z, concatenate ax l = Some t ∧ cval t = Some z ∧ aeq y z.
Proof.
  intros Hvs Hy. destruct (concat_is _ _ _ Hy) as (k & Hk & Hc).
  destruct (concat_inv _ _ _ Hy) as (_ & _ & _ & _ & Hne & _).
  destruct (expand_right (S (weights l)) ax l [] vs k y) as (l' & ws & He & Hws & Hcw & Hnw); [lia|done..|].
  destruct (concat_some ax ws (sh y) k Hnw Hk) as [z Hz]; [intros v Hv; by apply Hcw|].
  exists (Conc ax l'), z. unfold concatenate. rewrite He. split_and!; [done| |].
  - rewrite cval_conc, Hws. done.
  - destruct (concat_is _ _ _ Hz) as (k' & Hk' & Hc'). destruct (concat_inv _ _ _ Hz) as (k2 & n2 & Hk2 & Hn2 & _ & Hsb & _).
    assert (length (sh y) = length (sh z)) as El.
    { destruct ws as [|w ws]; [done|]. destruct Hcw as (_ & Hsw & _). rewrite <- (proj1 (Hsw w (elem_of_list_here _ _))).
      apply (Hsb w). by left. }
    rewrite <- El in Hk'. rewrite (axis_is_unique _ _ _ _ Hk' Hk) in Hc'. by eapply is_concat_unique.
Qed.
Lemma expand_flat fuel ax todo done_ l : expand fuel ax todo done_ = Some l → Forall (no_conc ax) done_ → Forall (no_conc ax) l.
Proof.
  revert todo done_. induction fuel as [|fuel IH]; intros todo done_ H Hd; [done|]. simpl in H.
  destruct todo as [|[a|ax' l'] todo]; [by injection H as <-| |].
  - apply IH in H; [done|]. apply Forall_app. split; [done|]. by repeat constructor.
  - destruct (decide (ax' = ax)); [by apply IH in H|]. apply IH in H; [done|]. apply Forall_app. split; [done|]. by repeat constructor.
Qed.
