(** dr_wrt over real arrays: the theorem for the array library, worked cases, and the
    counterexample with a shared operand. *)
From Coq Require Import Reals Lra.
From stdpp Require Import gmap strings list list_numbers relations.
From Verif Require Import EngineModel EngineSpec EngineEval EngineInv EngineHist EngineThms GraphSpec RevModel RevSpec RevThms
  ArrModel Curve ArrThms AdSpec AdThms AdHist ElemModel ElemSpec ElemThms NpModel NpSpec NpThms Check.

Notation after l := (exec nplib l (init nplib)).
Notation attrs l := (gexec nplib l ∅).
Notation nset o k v o' := (OSet nplib o k v o').
Definition narr (a : arr R) : aval nplib := @AVal nplib (NArr a).
Definition nref (o : oid) : aval nplib := @ARef nplib o.

Lemma np_reads_base l w c a : valid nplib l → attrs l !! w = Some c → c_cls nplib c = NBase →
  c_attr nplib c !! "x"%string = Some (narr a) → reads nplib (after l) w QR (atleast_1d a).
Proof.
  intros Hv Hc Hb Ha. apply (hist_reads nplib); [apply np_lib_ok|done|]. exists 1. simpl. rewrite Hc, Hb.
  assert (Hp : (plain nplib c : gmap name nval) !! "x"%string = Some (NArr a)).
  { unfold plain. rewrite lookup_omap, Ha. done. }
  unfold np_compute_r. rewrite Hp. done.
Qed.

Lemma np_jacobian l : valid nplib l → ∀ o w c o' gam v j,
  attrs l !! w = Some c → c_cls nplib c = NBase → c_attr nplib c !! "x"%string = Some (narr (gam 0%R)) →
  o' ∉ dom (attrs l) → amoves gam v → o ≠ w →
  (∀ x, rtc (points nplib (attrs l)) o x → x ≠ w → fine_at (attrs l) x ∧ no_repeat (attrs l) w x) →
  reads_dr nplib (after l) o w j →
  ∃ y, reads nplib (after l) o QR (y 0%R) ∧
    near (λ t, reads nplib (after (l ++ [nset w "x" (narr (gam t)) o'])) o QR (y t)) ∧ amoves y (jact' j v).
Proof.
  intros Hv o w c o' gam v j Hc Hb Ha Ho' Hm Hne Hfine Hdr.
  apply (hist_jacobian np_sem l np_lib_ok Hv np_sem_ok np_local o w c (λ t, NArr (gam t)) o' (λ t, atleast_1d (gam t)) v j); try done.
  - by rewrite Hb.
  - apply near_always. intros t.
    assert (Hv' : valid nplib (l ++ [nset w "x" (narr (gam t)) o'])).
    { unfold valid. apply valid_app. split; [done|]. split; [|done]. exists c. split_and!; try done. unfold narr. eauto. }
    eapply (np_reads_base _ w (write nplib "x" (narr (gam t)) c)); [exact Hv'| |done|].
    + unfold gexec. rewrite foldl_app. fold (gexec nplib l ∅). simpl. rewrite Hc, Hb. simpl. by rewrite lookup_insert.
    + simpl. by rewrite lookup_insert.
  - by eapply np_reads_base.
  - by apply amoves_at1.
  - intros x Hx Hxw. destruct (Hfine x Hx Hxw). split; [by apply fine_right|done].
Qed.

(* ------------------------------------------------------------------ *)
(** Checking by computation. *)
Definition np_sig (c : ncls) : list name * list name :=
  match c with NBase => (["x"%string], []) | NOp p => (np_dt p, np_tm p) end.
Definition np_good (c : ncls) : bool :=
  match c with
  | NBase => true
  | NOp p => bool_decide (NoDup (np_dt p)) && (negb (np_perm p) || bool_decide ("a"%string ∈ np_dt p))
  end.
Lemma np_sig_ok (c : Cls nplib) : np_good c = true → class_ok nplib c (np_sig c).1 (np_sig c).2.
Proof.
  destruct c as [|p]; simpl; [intros _; apply np_base_ok|].
  rewrite andb_true_iff, orb_true_iff, negb_true_iff, !bool_decide_eq_true. intros [H1 H2]. apply np_op_ok.
  split; [done|]. intros Hp. destruct H2; [congruence|done].
Qed.
Notation np_valid_b := (valid_b nplib np_sig np_good).
Lemma np_valid l : np_valid_b ∅ l ∅ = true → valid nplib l.
Proof. apply (valid_b_ok nplib np_sig np_good np_sig_ok). Qed.

Definition closed_points_b (g : graph) (X : list oid) : bool :=
  forallb (λ o, match g !! o with
    | None => true
    | Some c => forallb (λ k, match c_attr nplib c !! k with Some (ARef p) => bool_decide (p ∈ X) | _ => true end) (c_dt nplib c)
    end) X.
Lemma closed_points_ok g X o x : closed_points_b g X = true → o ∈ X → rtc (points nplib g) o x → x ∈ X.
Proof.
  intros H Ho Hr. induction Hr as [|o p x (c & k & Hc & Hk & Ha) Hr IH]; [done|]. apply IH.
  unfold closed_points_b in H. rewrite forallb_forall in H. specialize (H o). rewrite Hc in H.
  rewrite forallb_forall in H. specialize (H ltac:(by apply elem_of_list_In) k ltac:(by apply elem_of_list_In)).
  rewrite Ha in H. by apply bool_decide_eq_true in H.
Qed.
Definition no_views_b (g : graph) : bool :=
  forallb (λ oc : oid * core nplib, negb (is_permute nplib (c_cls nplib oc.2))) (map_to_list g).
Lemma no_views_b_ok g : no_views_b g = true → no_views g.
Proof.
  unfold no_views_b. rewrite forallb_forall. intros H x c Hc.
  specialize (H (x, c) ltac:(by apply elem_of_list_In, elem_of_map_to_list)). by apply negb_true_iff in H.
Qed.

Notation nnew o p := (ONew nplib o (NOp p) (np_dt p) (np_tm p)).
Notation nbase o := (ONew nplib o NBase ["x"%string] []).

(* ------------------------------------------------------------------ *)
(** x is a basic object, y = x ** 2 (square), z = y * x. *)
Definition cube (a : arr R) : list (op nplib) :=
  [nbase 1; nset 1 "x" (narr a) 101;
   nnew 2 (op_unary Usquare); OSetKw nplib 2 [("x"%string, nref 1, 102)];
   nnew 3 (op_binary Bmultiply); OSetKw nplib 3 [("a"%string, nref 2, 103); ("b"%string, nref 1, 104)]].

Lemma cube_valid a : valid nplib (cube a).
Proof. apply np_valid. vm_compute. reflexivity. Qed.
Lemma cube_views a : no_views (attrs (cube a)).
Proof. apply no_views_b_ok. vm_compute. reflexivity. Qed.
Lemma cube_1 a : attrs (cube a) !! 1 = Some (Core nplib NBase ["x"%string] [] {["x"%string := narr a]}).
Proof. vm_compute. reflexivity. Qed.
Lemma cube_2 a : attrs (cube a) !! 2 = Some (Core nplib (NOp (op_unary Usquare)) ["x"%string] [] {["x"%string := nref 1]}).
Proof. vm_compute. reflexivity. Qed.
Lemma cube_3 a : attrs (cube a) !! 3 = Some (Core nplib (NOp (op_binary Bmultiply)) ["a"%string; "b"%string] [] (<["b"%string := nref 1]> {["a"%string := nref 2]})).
Proof. vm_compute. reflexivity. Qed.

Lemma cube_den1 a : denotes nplib (attrs (cube a)) 1 QR (atleast_1d a).
Proof. by eapply denotes_base; [apply cube_1|..]. Qed.
Lemma cube_den2 a : denotes nplib (attrs (cube a)) 2 QR (unary Usquare (atleast_1d a)).
Proof.
  rewrite <- (at1_id (unary Usquare (atleast_1d a))) by apply at1_ne.
  eapply (denotes_op _ 2 _ (op_unary Usquare) [1] [_]); [apply cube_2|done|by repeat constructor| |done].
  constructor; [|constructor]. apply cube_den1.
Qed.
Lemma cube_fine a : unary_shape (sh (atleast_1d a)) → ∀ x, rtc (points nplib (attrs (cube a))) 3 x → x ≠ 1 →
  fine_at (attrs (cube a)) x ∧ no_repeat (attrs (cube a)) 1 x.
Proof.
  intros Hs x Hx Hne.
  assert (Hin : x ∈ [1; 2; 3]).
  { eapply closed_points_ok; [|apply elem_of_list_In; simpl; auto|exact Hx]. vm_compute. reflexivity. }
  apply elem_of_list_In in Hin. destruct Hin as [<-|[<-|[<-|[]]]]; [done| |]; split.
  - eapply fine_unary; [apply cube_2|done..|apply cube_den1|done|done].
  - intros c Hc. rewrite cube_2 in Hc. injection Hc as <-.
    assert (Ho : ∀ c0 : core nplib, c0 = Core nplib (NOp (op_unary Usquare)) ["x"%string] [] {["x"%string := nref 1]} → operands c0 = [1]).
    { intros c0 ->. unfold operands. simpl. done. }
    rewrite (Ho _ eq_refl). apply (bool_decide_eq_true_1 (NoDup (filter (λ p : oid, p ≠ 1) [1]))). vm_compute. reflexivity.
  - eapply (fine_binary _ _ _ Bmultiply "a" "b" 2 1); [apply cube_3|done..|apply cube_den2|apply cube_den1| |done|done].
    simpl. apply bshape_same.
  - intros c Hc. rewrite cube_3 in Hc. injection Hc as <-. 
    assert (Ho : ∀ c0 : core nplib, c0 = Core nplib (NOp (op_binary Bmultiply)) ["a"%string; "b"%string] [] (<["b"%string := nref 1]> {["a"%string := nref 2]}) → operands c0 = [2; 1]).
    { intros c0 ->. unfold operands. simpl. done. }
    rewrite (Ho _ eq_refl). apply (bool_decide_eq_true_1 (NoDup (filter (λ p : oid, p ≠ 1) [2; 1]))). vm_compute. reflexivity.
Qed.

Definition a12 : arr R := of_list 0%R [2] [1; 2]%R.
(** Non-trivial: the derivative 3 x^2 at (1, 2) in direction (1, 1). *)
Lemma cube_dr : ∃ j, reads_dr nplib (after (cube a12)) 3 1 (Some j) ∧
  mact j (λ i, if decide (i < 2) then 1%R else 0%R) 0 = 3%R ∧ mact j (λ i, if decide (i < 2) then 1%R else 0%R) 1 = 12%R.
Proof.
  assert (H : ∃ j, drval nplib 5 (attrs (cube a12)) 3 1 = Some (Some j) ∧
    mact j (λ i, if decide (i < 2) then 1%R else 0%R) 0 = 3%R ∧ mact j (λ i, if decide (i < 2) then 1%R else 0%R) 1 = 12%R).
  { eexists. split; [vm_compute; reflexivity|].
    unfold mact, rsum. simpl. split; ring_simplify; try lra. }
  destruct H as (j & Hj & H). exists j. split; [|done].
  apply (hist_reads_dr nplib); [apply np_lib_ok|apply cube_valid| |by exists 5].
  eexists. split; [apply cube_1|done].
Qed.

(* ------------------------------------------------------------------ *)
(** A shared operand: p = -x, t = p + p. *)
Definition twice (a : arr R) : list (op nplib) :=
  [nbase 1; nset 1 "x" (narr a) 101;
   nnew 2 (op_unary Unegative); OSetKw nplib 2 [("x"%string, nref 1, 102)];
   nnew 3 (op_binary Badd); OSetKw nplib 3 [("a"%string, nref 2, 103); ("b"%string, nref 2, 104)]].
Lemma twice_valid a : valid nplib (twice a).
Proof. apply np_valid. vm_compute. reflexivity. Qed.
Lemma twice_views a : no_views (attrs (twice a)).
Proof. apply no_views_b_ok. vm_compute. reflexivity. Qed.
Lemma twice_1 a : attrs (twice a) !! 1 = Some (Core nplib NBase ["x"%string] [] {["x"%string := narr a]}).
Proof. vm_compute. reflexivity. Qed.
Lemma twice_2 a : attrs (twice a) !! 2 = Some (Core nplib (NOp (op_unary Unegative)) ["x"%string] [] {["x"%string := nref 1]}).
Proof. vm_compute. reflexivity. Qed.
Lemma twice_3 a : attrs (twice a) !! 3 = Some (Core nplib (NOp (op_binary Badd)) ["a"%string; "b"%string] [] (<["b"%string := nref 2]> {["a"%string := nref 2]})).
Proof. vm_compute. reflexivity. Qed.
Lemma twice_den1 a : denotes nplib (attrs (twice a)) 1 QR (atleast_1d a).
Proof. by eapply denotes_base; [apply twice_1|..]. Qed.
Lemma twice_den2 a : denotes nplib (attrs (twice a)) 2 QR (unary Unegative (atleast_1d a)).
Proof.
  rewrite <- (at1_id (unary Unegative (atleast_1d a))) by apply at1_ne.
  eapply (denotes_op _ 2 _ (op_unary Unegative) [1] [_]); [apply twice_2|done|by repeat constructor| |done].
  constructor; [|constructor]. apply twice_den1.
Qed.
Lemma twice_fine a : unary_shape (sh (atleast_1d a)) → ∀ x, rtc (points nplib (attrs (twice a))) 3 x → x ≠ 1 →
  fine_at (attrs (twice a)) x.
Proof.
  intros Hs x Hx Hne.
  assert (Hin : x ∈ [1; 2; 3]).
  { eapply closed_points_ok; [|apply elem_of_list_In; simpl; auto|exact Hx]. vm_compute. reflexivity. }
  apply elem_of_list_In in Hin. destruct Hin as [<-|[<-|[<-|[]]]]; [done| |].
  - eapply fine_unary; [apply twice_2|done..|apply twice_den1|done|done].
  - eapply (fine_binary _ _ _ Badd "a" "b" 2 2); [apply twice_3|done..|apply twice_den2|apply twice_den2| |done|].
    + simpl. apply bshape_same.
    + intros _. eexists. split; [apply twice_2|done].
Qed.
Lemma twice_dr d : ∃ j, reads_dr nplib (after (twice (Arr_ [2] d))) 3 1 (Some j) ∧ ∀ v, mact j v 0 = (-4 * v 0%nat)%R.
Proof.
  assert (H : ∃ j, drval nplib 5 (attrs (twice (Arr_ [2] d))) 3 1 = Some (Some j) ∧ ∀ v, mact j v 0 = (-4 * v 0%nat)%R).
  { eexists. split; [vm_compute; reflexivity|]. intros v. unfold mact, rsum. simpl. lra. }
  destruct H as (j & Hj & H). exists j. split; [|done].
  apply (hist_reads_dr nplib); [apply np_lib_ok|apply twice_valid| |by exists 5].
  eexists. split; [apply twice_1|done].
Qed.
Lemma shared_operand : ∃ l o w c o' gam v j, valid nplib l ∧ no_views (attrs l) ∧
  attrs l !! w = Some c ∧ c_cls nplib c = NBase ∧ c_attr nplib c !! "x"%string = Some (narr (gam 0%R)) ∧
  o' ∉ dom (attrs l) ∧ amoves gam v ∧ o ≠ w ∧
  (∀ x, rtc (points nplib (attrs l)) o x → x ≠ w → fine_at (attrs l) x) ∧
  reads_dr nplib (after l) o w j ∧
  ¬ ∃ y, near (λ t, reads nplib (after (l ++ [nset w "x" (narr (gam t)) o'])) o QR (y t)) ∧ amoves y (jact' j v).
Proof.
  set (gam := λ t : R, Arr_ [2] (λ _ : nat, t)).
  set (v := λ i, if decide (i < 2) then 1%R else 0%R).
  destruct (twice_dr (λ _, 0%R)) as (j & Hj & Hjv).
  assert (Hm : amoves gam v).
  { apply (amoves_intro _ _ [2]); [by apply near_always| |].
    - intros i Hi. unfold v. simpl in Hi. rewrite decide_True by lia. apply derivable_pt_lim_id.
    - intros i Hi. unfold v. simpl in Hi. rewrite decide_False by lia. done. }
  exists (twice (gam 0%R)), 3, 1, (Core nplib NBase ["x"%string] [] {["x"%string := narr (gam 0%R)]}), 105, gam, v, (Some j).
  split_and!; [apply twice_valid|apply twice_views|apply twice_1|done|done| |exact Hm|done| |exact Hj|].
  - assert (Hd : attrs (twice (gam 0%R)) !! 105 = None) by (vm_compute; reflexivity).
    by apply not_elem_of_dom.
  - apply twice_fine. simpl. lia.
  - intros (y & Hy & Hmy).
    assert (Hval : ∀ t u, reads nplib (after (twice (gam 0%R) ++ [nset 1 "x" (narr (gam t)) 105])) 3 QR u →
      u = binary Badd (unary Unegative (gam t)) (unary Unegative (gam t))).
    { intros t u Hu. 
      assert (Hv' : valid nplib (twice (gam 0%R) ++ [nset 1 "x" (narr (gam t)) 105])).
      { apply np_valid. vm_compute. reflexivity. }
      apply (hist_reads nplib) in Hu; [|apply np_lib_ok|done].
      set (g := attrs (twice (gam 0%R) ++ [nset 1 "x" (narr (gam t)) 105])) in *.
      assert (H1 : denotes nplib g 1 QR (atleast_1d (gam t))).
      { eapply (denotes_base _ _ (write nplib "x" (narr (gam t)) (Core nplib NBase ["x"%string] [] {["x"%string := narr (gam 0%R)]}))); [|done|vm_compute; reflexivity].
        vm_compute. reflexivity. }
      assert (H2 : denotes nplib g 2 QR (atleast_1d (unary Unegative (gam t)))).
      { eapply (denotes_op _ 2 (Core nplib (NOp (op_unary Unegative)) ["x"%string] [] {["x"%string := nref 1]}) (op_unary Unegative) [1] [gam t]); [|done|by repeat constructor| |done].
        - vm_compute. reflexivity.
        - by repeat constructor. }
      eapply (denotes_det nplib); [exact Hu|].
      change (binary Badd (unary Unegative (gam t)) (unary Unegative (gam t))) with (atleast_1d (binary Badd (unary Unegative (gam t)) (unary Unegative (gam t)))).
      eapply (denotes_op _ 3 (Core nplib (NOp (op_binary Badd)) ["a"%string; "b"%string] [] (<["b"%string := nref 2]> {["a"%string := nref 2]})) (op_binary Badd) [2; 2] [_; _]);
        [|done|by repeat constructor|constructor; [exact H2|constructor; [exact H2|constructor]]|done].
      vm_compute. reflexivity. }
    pose proof (near_mono _ _ (λ t, Hval t (y t)) Hy) as Hy'. clear Hval Hy.
    destruct Hmy as [_ Hd]. specialize (Hd 0).
    assert (Hd' : derivable_pt_lim (λ t, - t + - t)%R 0%R (jact' (Some j) v 0)).
    { eapply deriv_near; [|exact Hd]. eapply near_mono; [|exact Hy']. intros t ->. 
      unfold elem. rewrite decide_True by (unfold asize; simpl; lia). done. }
    simpl in Hd'. rewrite Hjv in Hd'. unfold v in Hd'. rewrite decide_True in Hd' by lia.
    assert (H2 : derivable_pt_lim (λ t, - t + - t)%R 0%R (-2)%R).
    { eapply lim_eq; [|apply (derivable_pt_lim_plus (- id)%F (- id)%F); apply derivable_pt_lim_opp, derivable_pt_lim_id]. lra. }
    pose proof (deriv_unique _ _ _ Hd' H2). lra.
Qed.

Lemma shift_moves : amoves (λ t, amap (λ x, x + t)%R a12) (λ i, if decide (i < 2) then 1%R else 0%R).
Proof.
  apply (amoves_intro _ _ [2]); [by apply near_always| |].
  - intros i Hi. simpl in Hi. rewrite decide_True by lia. simpl.
    eapply lim_eq; [|apply (derivable_pt_lim_plus (fct_cte _) id); [apply derivable_pt_lim_const|apply derivable_pt_lim_id]]. ring.
  - intros i Hi. simpl in Hi. rewrite decide_False by lia. done.
Qed.
