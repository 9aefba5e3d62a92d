(** Concrete copies over the library of EngineDemo.v. *)
From stdpp Require Import gmap strings list relations.
From Verif Require Import EngineModel EngineSpec EngineDemo CopyModel CopySpec CopyThms.

Notation graph := (gmap oid (core demo)).

(** The names visited by __setstate__, in the order of dterms. *)
Definition listed (g : graph) (x : oid) : list name :=
  match g !! x with
  | Some c => filter (λ k, is_Some (c_attr demo c !! k)) (c_dt demo c)
  | None => []
  end.

Definition copy_b (g : graph) (rn : oid → oid) (ord : oid → list name) (o : oid) (out : list oid) : bool :=
  bool_decide (o ∈ dom g) && bool_decide (NoDup out) && bool_decide (o ∈ out) &&
  (* what an object refers to comes before it *)
  forallb (λ i, match out !! i with
                | Some x => forallb (λ p, bool_decide (p ∈ take i out)) (held demo g x)
                | None => true
                end) (seq 0 (length out)) &&
  (* every object but the root is referred to by a later one *)
  forallb (λ i, match out !! i with
                | Some x => bool_decide (x = o) ||
                            existsb (λ y, bool_decide (x ∈ held demo g y)) (drop (S i) out)
                | None => true
                end) (seq 0 (length out)) &&
  forallb (λ x, bool_decide (NoDup (ord x)) && bool_decide (list_to_set (ord x) =@{gset name} list_to_set (listed g x))) out &&
  forallb (λ x, bool_decide (rn x ∉ dom g)) out &&
  bool_decide (NoDup (rn <$> out)).

Lemma forallb_in {A} (f : A → bool) l a : forallb f l = true → a ∈ l → f a = true.
Proof. intros H Ha. apply elem_of_list_In in Ha. by apply (proj1 (forallb_forall f l) H). Qed.

Lemma copy_b_ok g rn ord o out : copy_b g rn ord o out = true → copy_ok demo g rn ord o out.
Proof.
  unfold copy_b. rewrite !andb_true_iff, !bool_decide_eq_true.
  intros [[[[[[[Hod Hnd] Hoo] Hfirst] Hlater] Hord] Hnew] Hinj].
  assert (Hord' : ∀ x p, x ∈ out → refers demo g x p → before out p x).
  { intros x p Hx Hr. apply elem_of_list_lookup in Hx as [i Hi].
    assert (Hin : i ∈ seq 0 (length out)).
    { apply elem_of_seq. pose proof (lookup_lt_Some _ _ _ Hi). lia. }
    pose proof (forallb_in _ _ _ Hfirst Hin) as H. simpl in H. rewrite Hi in H.
    apply (held_refers demo) in Hr. pose proof (forallb_in _ _ _ H Hr) as Hp. simpl in Hp.
    apply bool_decide_eq_true in Hp. apply elem_of_list_lookup in Hp as [j Hj].
    apply lookup_take_Some in Hj as [Hj Hlt]. by exists j, i. }
  split; [done|]. split; [|split].
  - split; [done| |done]. intros x. split.
    + intros Hx. apply elem_of_list_lookup in Hx as [i Hi].
      remember (length out - i) as m eqn:Em. revert x i Hi Em.
      induction m as [m IH] using lt_wf_ind. intros x i Hi Em.
      pose proof (lookup_lt_Some _ _ _ Hi) as Hlt.
      assert (Hin : i ∈ seq 0 (length out)) by (apply elem_of_seq; lia).
      pose proof (forallb_in _ _ _ Hlater Hin) as H. simpl in H. rewrite Hi in H.
      apply orb_true_iff in H as [H|H].
      * apply bool_decide_eq_true in H as ->. constructor.
      * apply existsb_exists in H as (y & Hy & Hxy). apply bool_decide_eq_true in Hxy.
        apply elem_of_list_In, elem_of_list_lookup in Hy as [j Hj]. rewrite lookup_drop in Hj.
        pose proof (lookup_lt_Some _ _ _ Hj).
        assert (Hry : reach demo g o y) by (eapply (IH (length out - (S i + j))); [lia|exact Hj|done]).
        eapply rtc_r; [exact Hry|]. by apply (held_refers demo).
    + intros Hr. unfold reach in Hr. assert (Hgen : ∀ a b, rtc (refers demo g) a b → a ∈ out → b ∈ out).
      { intros a b Hab. induction Hab as [|a b c Hab _ IH]; [done|]. intros Ha. apply IH.
        destruct (Hord' a b Ha Hab) as (i & j & Hi & _). by eapply elem_of_list_lookup_2. }
      by apply (Hgen o x).
  - intros x c Hx Hc. pose proof (forallb_in _ _ _ Hord Hx) as H. simpl in H.
    rewrite andb_true_iff, !bool_decide_eq_true in H. destruct H as [H1 H2]. split; [done|].
    intros k. rewrite <- (elem_of_list_to_set (C := gset name)), H2, elem_of_list_to_set. unfold listed. rewrite Hc, elem_of_list_filter. tauto.
  - split.
    + intros x Hx. pose proof (forallb_in _ _ _ Hnew Hx) as H. simpl in H. by apply bool_decide_eq_true in H.
    + intros x y Hx Hy E. apply elem_of_list_lookup in Hx as [i Hi]. apply elem_of_list_lookup in Hy as [j Hj].
      assert (i = j) as ->; [|congruence].
      eapply (NoDup_lookup (rn <$> out)); [done| |].
      * rewrite list_lookup_fmap, Hi. done.
      * rewrite list_lookup_fmap, Hj. simpl. by rewrite E.
Qed.

Definition act_b (used : gset Z) (a : act demo) (g : graph) : bool :=
  match a with
  | Op _ b => op_b used b g
  | Copy _ rn ord o out => copy_b g rn ord o out
  end.
Fixpoint acts_b (used : gset Z) (l : list (act demo)) (st : state demo) : bool :=
  match l with
  | [] => true
  | a :: l' => act_b used a (cores demo (st_h demo st)) &&
               acts_b (act_tags demo a ∪ used) l' (act_step demo a st)
  end.
Lemma acts_b_ok l : ∀ used st, acts_b used l st = true → acts_ok demo used l st.
Proof.
  induction l as [|a l IH]; intros used st H; [done|]. apply andb_true_iff in H as [H1 H2].
  split; [|by apply IH]. destruct a; [by apply op_b_ok|by apply copy_b_ok].
Qed.

(** x and y are variables, s = x + y, t = s * x; t is read, then copied, and the copy of
    x is 11, and so on. *)
Definition made : list (act demo) := Op demo <$> take 8 build ++ [ORead demo 9 4 QR; OReadDr demo 9 4 1].
Definition ab (x : oid) : list name :=
  match x with 1 | 2 => ["x"%string] | 3 => ["b"; "a"]%string | _ => ["a"; "b"]%string end.
Definition plus10 (x : oid) : oid := 10 + x.
Definition post : list oid := [1; 2; 3; 4].
Definition later : list (act demo) :=
  [Op demo (OSet demo 1 "x" (val [1; 1]%Z) 120); Op demo (OSet demo 11 "x" (val [2; 2]%Z) 121)].

Lemma no_double_b (g : graph) out :
  forallb (λ x, match g !! x with
                | Some c => bool_decide (NoDup (omap (λ k, child_at g x k) (c_dt demo c))) &&
                            bool_decide (NoDup (c_dt demo c))
                | None => true
                end) out = true → no_double demo g out.
Proof.
  intros H x k1 k2 p Hx H1 H2. pose proof (forallb_in _ _ _ H Hx) as Hb. simpl in Hb.
  destruct H1 as (c & Hc & _ & Hk1 & Ha1). destruct H2 as (c2 & Hc2 & _ & Hk2 & Ha2).
  rewrite Hc in Hc2. injection Hc2 as <-. rewrite Hc in Hb.
  rewrite andb_true_iff, !bool_decide_eq_true in Hb. destruct Hb as [Hb _].
  assert (E1 : child_at g x k1 = Some p) by (unfold child_at; by rewrite Hc, Ha1).
  assert (E2 : child_at g x k2 = Some p) by (unfold child_at; by rewrite Hc, Ha2).
  clear Hc Ha1 Ha2 H Hx. induction (c_dt demo c) as [|k ks IH]; [by apply elem_of_nil in Hk1|].
  simpl in Hb.
  assert (Hin : ∀ k', k' ∈ ks → child_at g x k' = Some p → p ∈ omap (λ k, child_at g x k) ks).
  { intros k' Hk' E. apply elem_of_list_omap. by exists k'. }
  apply elem_of_cons in Hk1 as [->|Hk1]; apply elem_of_cons in Hk2 as [->|Hk2]; [done| | |].
  - rewrite E1 in Hb. apply NoDup_cons in Hb as [Hb _]. by destruct Hb; apply (Hin k2).
  - rewrite E2 in Hb. apply NoDup_cons in Hb as [Hb _]. by destruct Hb; apply (Hin k1).
  - apply IH; try done. destruct (child_at g x k); [by apply NoDup_cons in Hb as [_ Hb]|done].
Qed.

Lemma made_ok :
  lib_ok demo ∧ acts_ok demo ∅ made (init demo) ∧
  copy_ok demo (cores demo (st_h demo (perform demo made (init demo)))) plus10 ab 4 post ∧
  no_double demo (cores demo (st_h demo (perform demo made (init demo)))) post.
Proof.
  split; [exact demo_lib_ok|]. split; [apply acts_b_ok; vm_compute; reflexivity|].
  split; [apply copy_b_ok; vm_compute; reflexivity|]. apply no_double_b. vm_compute. reflexivity.
Qed.

Definition avoids_b (X : oid → bool) (a : act demo) : bool :=
  match a with
  | Op _ (OSet _ o _ _ _) => negb (X o)
  | _ => false
  end.
Lemma avoids_b_ok (X : oid → bool) (P : oid → Prop) a : (∀ x, P x → X x = true) → avoids_b X a = true → avoids demo P a.
Proof.
  intros HX. destruct a as [b|]; [|done]. destruct b; try done. simpl. intros H s Hs.
  apply elem_of_list_singleton in Hs as ->. simpl. intros HP. rewrite HX in H; done.
Qed.
Lemma later_ok :
  acts_ok demo ∅ (made ++ Copy demo plus10 ab 4 post :: later) (init demo) ∧
  (∀ a, a ∈ take 1 later → avoids demo (the_copies plus10 post) a) ∧
  (∀ a, a ∈ drop 1 later → avoids demo (the_originals post) a).
Proof.
  split; [apply acts_b_ok; vm_compute; reflexivity|]. split.
  - intros a Ha. apply (avoids_b_ok (λ y, bool_decide (y ∈ plus10 <$> post))).
    + intros y (x & Hx & ->). apply bool_decide_eq_true. apply elem_of_list_fmap. by exists x.
    + apply elem_of_list_singleton in Ha as ->. vm_compute. reflexivity.
  - intros a Ha. apply (avoids_b_ok (λ y, bool_decide (y ∈ post))).
    + intros y Hy. by apply bool_decide_eq_true.
    + apply elem_of_list_singleton in Ha as ->. vm_compute. reflexivity.
Qed.

Lemma square_raises : ∃ (L : lib) l rn ord o out v,
  lib_ok L ∧ acts_ok L ∅ l (init L) ∧ copy_ok L (cores L (st_h L (perform L l (init L)))) rn ord o out ∧
  reads L (perform L l (init L)) o QR v ∧ copy_state L rn ord out (perform L l (init L)) = None.
Proof.
  exists demo, (Op demo <$> build), plus10, ab, 5, [2; 5], ([25; 36]%Z : Arr demo).
  split; [exact demo_lib_ok|]. split; [apply acts_b_ok; vm_compute; reflexivity|].
  split; [apply copy_b_ok; vm_compute; reflexivity|]. split.
  - exists 9. vm_compute. reflexivity.
  - vm_compute. reflexivity.
Qed.
