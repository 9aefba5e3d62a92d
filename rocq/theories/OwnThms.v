(** Equality, membership and sorting of objects. *)
From Coq Require Import Reals Lra.
From stdpp Require Import list list_numbers numbers gmap.
From Verif Require Import ArrModel ElemModel StepModel ProtoModel ProtoThms OwnModel OwnSpec.

Lemma eq_same st x y : py_eq st x y = true ↔ x = y.
Proof. apply bool_decide_eq_true. Qed.
Lemma hit_is st x e : hit st x e = bool_decide (e = x).
Proof. unfold hit, py_eq. by destruct (bool_decide (e = x)). Qed.
Lemma in_is st x l : py_in st x l = true ↔ x ∈ l.
Proof.
  unfold py_in. rewrite existsb_exists. setoid_rewrite hit_is. split.
  - intros (e & He & ->%bool_decide_eq_true). by apply elem_of_list_In.
  - intros H. exists x. split; [by apply elem_of_list_In|]. by apply bool_decide_eq_true.
Qed.
Lemma index_from st x l i n : py_index_from st i x l = Some n ↔ ∃ j, n = i + j ∧ first_at x l j.
Proof.
  revert i. induction l as [|e l IH]; intros i; simpl.
  - split; [done|]. intros (j & _ & H & _). by rewrite lookup_nil in H.
  - rewrite hit_is. destruct (bool_decide (e = x)) eqn:E.
    + apply bool_decide_eq_true in E as ->. split.
      * intros [= <-]. exists 0. split; [lia|]. split; [done|lia].
      * intros (j & -> & H & Hj). destruct j as [|j]; [f_equal; lia|]. exfalso. by apply (Hj 0); [lia|].
    + apply bool_decide_eq_false in E. rewrite IH. split.
      * intros (j & -> & H & Hj). exists (S j). split; [lia|]. split; [done|]. intros [|k] Hk; simpl; [congruence|]. apply Hj. lia.
      * intros (j & -> & H & Hj). destruct j as [|j]; [simpl in H; congruence|]. exists j. split; [lia|]. split; [done|].
        intros k Hk. apply (Hj (S k)). lia.
Qed.
Lemma index_is st x l i : py_index st x l = Some i ↔ first_at x l i.
Proof. unfold py_index. rewrite index_from. split; [by intros (j & -> & ?)|]. intros H. by exists i. Qed.
Lemma count_is st x l : py_count st x l = length (filter (x =.) l).
Proof.
  induction l as [|e l IH]; simpl; [done|]. rewrite hit_is, filter_cons. destruct (bool_decide (e = x)) eqn:E.
  - apply bool_decide_eq_true in E as ->. rewrite decide_True by done. simpl. by rewrite IH.
  - apply bool_decide_eq_false in E. rewrite decide_False by congruence. done.
Qed.
Lemma remove_is st x l m : py_remove st x l = Some m ↔ ∃ i, first_at x l i ∧ m = delete i l.
Proof.
  revert m. induction l as [|e l IH]; intros m; simpl.
  - split; [done|]. intros (i & [H _] & _). by rewrite lookup_nil in H.
  - rewrite hit_is. destruct (bool_decide (e = x)) eqn:E.
    + apply bool_decide_eq_true in E as ->. split.
      * intros [= <-]. exists 0. split; [|done]. split; [done|lia].
      * intros (i & [H Hi] & ->). destruct i as [|i]; [done|]. exfalso. by apply (Hi 0); [lia|].
    + apply bool_decide_eq_false in E. rewrite fmap_Some. split.
      * intros (m' & (i & [H Hi] & ->)%IH & ->). exists (S i). split; [|done]. split; [done|]. intros [|k] Hk; simpl; [congruence|]. apply Hi. lia.
      * intros (i & [H Hi] & ->). destruct i as [|i]; [simpl in H; congruence|]. exists (delete i l). split; [|done]. apply IH. exists i. split; [|done].
        split; [done|]. intros k Hk. apply (Hi (S k)). lia.
Qed.

(* ------------------------------------------------------------------ *)
(** Dictionaries. *)
Definition proper {T} (d : list (slot T)) : Prop := Forall (λ s, s_hash s = py_hash (s_key s)) d.
Lemma fits_is {T} st x (s : slot T) : s_hash s = py_hash (s_key s) → fits_slot st x s = bool_decide (s_key s = x).
Proof.
  intros E. unfold fits_slot. rewrite hit_is, E. unfold py_hash. by destruct (bool_decide (s_key s = x)).
Qed.
Lemma set_proper {T} st x (v : T) d : proper d → proper (dict_set st x v d).
Proof.
  intros H. induction H as [|s d Hs Hd IH]; simpl; [constructor; [done|constructor]|].
  destruct (fits_slot st x s); constructor; done.
Qed.
Lemma get_set {T} st st' x y (v : T) d : proper d → dict_get st y (dict_set st' x v d) = if decide (y = x) then Some v else dict_get st y d.
Proof.
  intros H. induction H as [|s d Hs Hd IH]; simpl.
  - rewrite fits_is by done. simpl. destruct (decide (y = x)) as [->|Hne]; [by rewrite bool_decide_eq_true_2|]. by rewrite bool_decide_eq_false_2.
  - rewrite !fits_is by done. destruct (bool_decide (s_key s = x)) eqn:E.
    + apply bool_decide_eq_true in E. simpl. rewrite fits_is by done. simpl. rewrite E. destruct (decide (y = x)) as [->|Hne]; [by rewrite bool_decide_eq_true_2|].
      by rewrite bool_decide_eq_false_2.
    + apply bool_decide_eq_false in E. simpl. rewrite fits_is, IH by done. destruct (decide (y = x)) as [->|Hne]; [by rewrite bool_decide_eq_false_2|]. done.
Qed.
Lemma dict_of_proper {T} (l : list (store * nat * T)) : proper (dict_of l).
Proof.
  induction l as [|e l IH] using rev_ind; [constructor|]. unfold dict_of in *. rewrite foldl_app. by apply set_proper.
Qed.
Lemma dict_right {T} st x (l : list (store * nat * T)) v : dict_get st x (dict_of l) = Some v ↔ last_under x l v.
Proof.
  induction l as [|[[st' y] w] l IH] using rev_ind.
  - split; [done|]. intros (l1 & ? & l2 & E & _). by destruct l1.
  - unfold dict_of. rewrite foldl_app. cbn [foldl fst snd]. rewrite get_set by apply dict_of_proper. destruct (decide (x = y)) as [->|Hne].
    + split.
      * intros [= <-]. exists l, st', []. split; [done|constructor].
      * intros (l1 & s & l2 & E & Hl). destruct l2 as [|e l2 _] using rev_ind.
        -- apply app_inj_tail in E as [_ E]. congruence.
        -- rewrite app_comm_cons, app_assoc in E. apply app_inj_tail in E as [_ <-]. apply Forall_app in Hl as [_ Hl].
           exfalso. inversion Hl as [|? ? Hq _]. by apply Hq.
    + fold (dict_of l). rewrite IH. split.
      * intros (l1 & s & l2 & -> & Hl). exists l1, s, (l2 ++ [(st', y, w)]). split; [by rewrite <- app_assoc|].
        apply Forall_app. split; [done|]. by apply Forall_singleton.
      * intros (l1 & s & l2 & E & Hl). destruct l2 as [|e l2 _] using rev_ind.
        -- apply app_inj_tail in E as [_ E]. congruence.
        -- rewrite app_comm_cons, app_assoc in E. apply app_inj_tail in E as [-> <-]. apply Forall_app in Hl as [Hl _]. exists l1, s, l2. done.
Qed.

(* ------------------------------------------------------------------ *)
(** != and sorting. *)
Lemma ne_true st x y : asize (st x) ≠ 0 → asize (st y) ≠ 0 → (∃ s, bshape (sh (st x)) (sh (st y)) = Some s) → py_ne st x y = Some true.
Proof.
  intros Hx Hy Hs. destruct (compare_ok Cnot_equal _ _ Hs) as [c Hc]. unfold py_ne. rewrite Hc. simpl. by apply (compare_true Cnot_equal (st x) (st y)).
Qed.
Lemma lt_true st x y : asize (st x) ≠ 0 → asize (st y) ≠ 0 → (∃ s, bshape (sh (st x)) (sh (st y)) = Some s) → py_lt st x y = Some true.
Proof.
  intros Hx Hy Hs. destruct (compare_ok Cless _ _ Hs) as [c Hc]. unfold py_lt. rewrite Hc. simpl. by apply (compare_true Cless (st x) (st y)).
Qed.
Lemma run_all lt prev l : (∀ x y, x ∈ prev :: l → y ∈ prev :: l → lt x y = Some true) → run_on lt true prev l = Some (length l).
Proof.
  revert prev. induction l as [|e l IH]; intros prev H; simpl; [done|]. rewrite (H e prev) by (rewrite !elem_of_cons; tauto). simpl. rewrite IH; [done|]. intros x y Hx Hy. apply H; by right.
Qed.
Lemma sort_all lt l : (∀ x y, x ∈ l → y ∈ l → lt x y = Some true) → py_sort lt l = Sorted_ (reverse l).
Proof.
  intros H. destruct l as [|x [|y l]]; [done|done|]. unfold py_sort. rewrite (H y x) by (rewrite !elem_of_cons; tauto).
  rewrite (run_all lt y l) by (intros u v Hu Hv; apply H; by right). by rewrite decide_True.
Qed.
Lemma sort_reverses st l : comparable st l → py_sort (py_lt st) l = Sorted_ (reverse l) ∧ py_sort_reverse (py_lt st) l = Sorted_ (reverse l).
Proof.
  intros H. assert (Hlt : ∀ x y, x ∈ l → y ∈ l → py_lt st x y = Some true).
  { intros x y Hx Hy. apply lt_true; [by apply (H x y)|by apply (H y x)|by apply (H x y)]. }
  split; [by apply sort_all|]. unfold py_sort_reverse. rewrite sort_all; [by rewrite reverse_involutive|].
  intros x y Hx Hy. rewrite elem_of_reverse in Hx, Hy. by apply Hlt.
Qed.
(** The numbers 1, 2, 3 ... as objects. *)
Definition counting : store := λ x, Arr_ [1] (λ _, INR x).
Lemma counting_comparable l : comparable counting l.
Proof. intros x y _ _. split; [done|]. by eexists. Qed.
Lemma sort_wrong : ∃ st l m, comparable st l ∧ in_order st l ∧ py_sort (py_lt st) l = Sorted_ m ∧ ¬ in_order st m.
Proof.
  exists counting, [1; 2], [2; 1]. split_and!; [apply counting_comparable| | |].
  - intros i j x y Hij Hx Hy. destruct i as [|[|i]], j as [|[|j]]; simplify_eq/=; try lia; try lra.
  - apply (sort_reverses counting [1; 2]). apply counting_comparable.
  - intros H. specialize (H 0 1 2 1 ltac:(lia) eq_refl eq_refl). simpl in H. lra.
Qed.
Lemma ne_self st x s : bshape (sh (st x)) (sh (st x)) = Some s → asize (st x) ≠ 0 → py_eq st x x = true ∧ py_ne st x x = Some true.
Proof. intros Hs Hx. split; [by apply eq_same|]. by apply ne_true; [..|exists s]. Qed.
