(** Object graphs for RepProps.v. *)
From Coq Require Import Reals Lra.
From stdpp Require Import gmap list list_numbers.
From Verif Require Import ArrModel ArrThms ElemModel RepModel RepSpec RepThms RepSum RepGraph.

Lemma meq1 A B : A 0 0 = B 0 0 → meq 1 1 A B.
Proof. intros H i j Hi Hj. replace i with 0 by lia. by replace j with 0 by lia. Qed.
Definition nojac : nat → option rep := λ _, None.
Definition jac1 (p : nat) (r : rep) : nat → option rep := λ q, if decide (q = p) then Some r else None.
Definition jac2 (p : nat) (r : rep) (p' : nat) (r' : rep) : nat → option rep :=
  λ q, if decide (q = p) then Some r else if decide (q = p') then Some r' else None.

(** Two sums of two Jacobians as operators are right. *)
Lemma two_operators a b n m A B : is_mat a n m A → is_mat b n m B → existsb is_lin [a; b] = true →
  ∃ r, dsum [a; b] = Some (Some r) ∧ is_mat r n m (mplus A B).
Proof.
  intros Ha Hb Hl. unfold dsum. rewrite Hl. rewrite (is_mat_shape _ _ _ _ Ha). simpl. eexists. split; [done|].
  apply lin_is. intros v Hv. unfold lin_reduce, lin_step. simpl. rewrite (is_mat_apply _ _ _ _ v Hb Hv). simpl.
  rewrite (is_mat_apply _ _ _ _ v Ha Hv). simpl. unfold vadd. rewrite decide_True by by rewrite !mvec_length. simpl. f_equal.
  apply list_eq. intros i. rewrite lookup_zip_with. unfold mvec. rewrite !list_lookup_fmap.
  destruct (seq 0 n !! i) as [k|]; [|done]. simpl. f_equal. rewrite <- rsum_plus. apply rsum_ext. intros l _. unfold mplus. ring.
Qed.

(** A third one is added to an inner product. *)
Lemma three_operators a b c n A B C : is_mat a n n A → is_mat b n n B → is_mat c n n C →
  existsb is_lin [a; b; c] = true →
  ∃ f, dsum [a; b; c] = Some (Some (Lin n n f)) ∧ ∀ v, length v = n →
    f v = Some ((λ z, inner (mvec n n (mplus A B) v) v + z)%R <$> mvec n n C v).
Proof.
  intros Ha Hb Hc Hl. unfold dsum. rewrite Hl. rewrite (is_mat_shape _ _ _ _ Ha). simpl. eexists. split; [done|].
  intros v Hv. unfold lin_reduce, lin_step. simpl. rewrite (is_mat_apply _ _ _ _ v Hb Hv). simpl.
  rewrite (is_mat_apply _ _ _ _ v Ha Hv). simpl. unfold vadd. rewrite decide_True by by rewrite !mvec_length. simpl.
  rewrite (is_mat_apply _ _ _ _ v Hc Hv). simpl.
  rewrite decide_True by (rewrite zip_with_length, !mvec_length; lia). simpl. f_equal.
  assert (E : zip_with Rplus (mvec n n A v) (mvec n n B v) = mvec n n (mplus A B) v); [|by rewrite E].
  apply list_eq. intros i. rewrite lookup_zip_with. unfold mvec. rewrite !list_lookup_fmap.
  destruct (seq 0 n !! i) as [k|]; [|done]. simpl. f_equal. rewrite <- rsum_plus. apply rsum_ext. intros l _. unfold mplus. ring.
Qed.

(** A vector is taken for a row. *)
Lemma finish_vector a n : sh a = [n] → ∃ r, finish (Arr a) = Some r ∧ is_mat r 1 n (λ _ j, dat a j).
Proof.
  intros E. unfold finish. simpl. case_decide.
  - unfold to_sparse. rewrite E. eexists. split; [done|]. split_and!; try done.
  - unfold two_dims. rewrite E. eexists. split; [done|]. split; [done|]. intros i j Hi Hj. simpl. f_equal. lia.
Qed.

(** Jacobians of one element: UnaryElemwise returns np.atleast_2d (ch_ops.py:225-228),
    _broadcast_matrix returns np.array(data) (ch_ops.py:494-495), add passes the number
    1 (ch_ops.py:556-557). *)
Definition unary_one (f : ufun) (x : R) : rep := Arr (Arr_ [1; 1] (λ _, u_d f x)).
Definition add_one : rep := Arr (full [] 1%R).

(** y = square(x) + exp(x) at x = 0: objects x, square, exp, add *)
Definition g_zero : rgraph :=
  <[0 := RNode [] nojac]> (<[1 := RNode [0] (jac1 0 (unary_one Usquare 0))]>
  (<[2 := RNode [0] (jac1 0 (unary_one Uexp 0))]> {[3 := RNode [1; 2] (jac2 1 add_one 2 add_one)]})).
Definition J_zero (o p : nat) : mat := λ _ _,
  match o, p with 2, 0 => 1%R | 3, 1 => 1%R | 3, 2 => 1%R | _, _ => 0%R end.
Definition T_zero (o : nat) : mat := λ _ _,
  match o with 0 => 1%R | 2 => 1%R | 3 => 1%R | _ => 0%R end.

Ltac graph_cases g H := unfold g in H; repeat (apply lookup_insert_Some in H as [[<- <-]|[? H]]); try (apply lookup_singleton_Some in H as [<- <-]).

Lemma zero_sound : sound_graph g_zero.
Proof.
  split.
  - intros o nd H. graph_cases g_zero H; simpl.
    + split; [constructor|]. intros p Hp. by apply elem_of_nil in Hp.
    + split; [repeat constructor; set_solver|]. intros p Hp. apply elem_of_list_singleton in Hp as ->. by eexists.
    + split; [repeat constructor; set_solver|]. intros p Hp. apply elem_of_list_singleton in Hp as ->. by eexists.
    + split; [repeat constructor; set_solver|]. intros p Hp.
      apply elem_of_cons in Hp as [->|Hp]; [by eexists|]. apply elem_of_list_singleton in Hp as ->. by eexists.
  - exists (λ o, o). intros o nd p H Hp. graph_cases g_zero H; simpl in Hp; set_unfold; lia.
Qed.
Lemma zero_chain : chain_rule g_zero (λ _, 1) 0 J_zero T_zero.
Proof.
  split; [by apply meq1|]. intros o nd H Hne i j Hi Hj. unfold mmult, T_zero, J_zero.
  graph_cases g_zero H; [done|..]; simpl; ring.
Qed.
Lemma zero_proper o : proper g_zero (λ _, 1) J_zero no_lin o.
Proof.
  assert (Hu : ∀ f y, stores (unary_one f 0) 1 1 y ↔ u_d f 0 = y 0 0).
  { intros f y. split.
    - intros [[_ H]|(_ & _ & _ & _ & H)]; [by apply (H 0 0); lia|done].
    - intros H. left. split; [done|]. intros i j Hi Hj. replace i with 0 by lia. by replace j with 0 by lia. }
  intros nd H. graph_cases g_zero H; simpl.
  - split; [done|]. intros p Hp. by apply elem_of_nil in Hp.
  - split; [intros p Hp; unfold jac1; rewrite decide_False by set_solver; done|].
    intros p Hp. apply elem_of_list_singleton in Hp as ->. split; [|done]. apply Hu. unfold J_zero. simpl. ring.
  - split; [intros p Hp; unfold jac1; rewrite decide_False by set_solver; done|].
    intros p Hp. apply elem_of_list_singleton in Hp as ->. split; [|done]. apply Hu. unfold J_zero. simpl. apply exp_0.
  - split; [intros p Hp; unfold jac2; rewrite !decide_False by set_solver; done|].
    intros p Hp. apply elem_of_cons in Hp as [->|Hp]; [|apply elem_of_list_singleton in Hp as ->];
      (split; [|done]); right; (split; [done|]); (split; [done|]); (split; [done|]); (split; [simpl; lia|done]).
Qed.

Lemma finish_zero : finish (unary_one Usquare 0) = Some (Spr 1 1 (λ i j, u_d Usquare 0)).
Proof.
  unfold finish. simpl as_array. cbv match. rewrite decide_True; [done|]. left. unfold nonzeros. simpl.
  destruct (Req_EM_T (0 * 2) 0) as [_|H]; [done|]. exfalso. apply H. ring.
Qed.
Lemma finish_exp : finish (unary_one Uexp 0) = Some (unary_one Uexp 0).
Proof.
  unfold finish. simpl as_array. cbv match. rewrite decide_False; [done|]. unfold nonzeros. simpl.
  destruct (Req_EM_T (exp 0) 0) as [H|_]; [rewrite exp_0 in H; lra|]. simpl. unfold asize. simpl. lia.
Qed.
Lemma zero_raises : raises (λ n, rdr n g_zero 3 0).
Proof.
  intros [|[|n]]; [done|done|]. change (rdr (S (S n)) g_zero 3 0) with
    (l ← foldl (add_forward 0 (RNode [1; 2] (jac2 1 add_one 2 add_one)) (λ p, rdr (S n) g_zero p 0)) (Some []) [1; 2]; conclude l).
  assert (E1 : rdr (S n) g_zero 1 0 = Some (Some (Spr 1 1 (λ i j, u_d Usquare 0)))).
  { change (rdr (S n) g_zero 1 0) with (conclude [unary_one Usquare 0]). unfold conclude. cbn [dsum mbind option_bind]. by rewrite finish_zero. }
  assert (E2 : rdr (S n) g_zero 2 0 = Some (Some (unary_one Uexp 0))).
  { change (rdr (S n) g_zero 2 0) with (conclude [unary_one Uexp 0]). unfold conclude. cbn [dsum mbind option_bind]. by rewrite finish_exp. }
  set (f := λ p, rdr (S n) g_zero p 0). set (nd := RNode [1; 2] (jac2 1 add_one 2 add_one)).
  assert (H1 : add_forward 0 nd f (Some []) 1 = Some [scale 1 (Spr 1 1 (λ i j, u_d Usquare 0))]).
  { unfold add_forward. cbn [mbind option_bind]. rewrite decide_False by done. unfold f. rewrite E1. done. }
  assert (H2 : ∀ l, add_forward 0 nd f (Some l) 2 = Some (l ++ [Num (1 * u_d Uexp 0)])).
  { intros l. unfold add_forward. cbn [mbind option_bind]. rewrite decide_False by done. unfold f. rewrite E2. done. }
  cbn [foldl]. rewrite H1, H2. cbn [mbind option_bind app]. unfold conclude, dsum. cbn.
  destruct (Req_EM_T _ 0) as [H|H]; [|done]. exfalso. rewrite exp_0 in H. lra.
Qed.

(* ------------------------------------------------------------------ *)
(** ChHandle(x) for x with two elements (ch.py:1224-1233). *)
Definition g_handle : rgraph := <[0 := RNode [] nojac]> {[1 := RNode [0] (jac1 0 (Num 1))]}.
Lemma handle_returns : returns g_handle 1 0 (Some (Arr (Arr_ [1; 1] (λ _, 1%R)))).
Proof.
  exists 1. change (rdr 1 g_handle 1 0) with (conclude [Num 1]). unfold conclude. cbn [dsum mbind option_bind].
  unfold finish. simpl as_array. cbv match. rewrite decide_False; [done|]. unfold nonzeros. simpl.
  destruct (Req_EM_T 1 0) as [H|_]; [lra|]. simpl. unfold asize. simpl. lia.
Qed.
Lemma handle_sound : sound_graph g_handle.
Proof.
  split.
  - intros o nd H. graph_cases g_handle H; simpl.
    + split; [constructor|]. intros p Hp. by apply elem_of_nil in Hp.
    + split; [repeat constructor; set_solver|]. intros p Hp. apply elem_of_list_singleton in Hp as ->. by eexists.
  - exists (λ o, o). intros o nd p H Hp. graph_cases g_handle H; simpl in Hp; set_unfold; lia.
Qed.
Lemma handle_chain : chain_rule g_handle (λ _, 2) 0 (λ _ _, mscal 1) (λ _, mscal 1).
Proof.
  split; [by intros ? ? ? ?|]. intros o nd H Hne i j Hi Hj. graph_cases g_handle H; [done|]. simpl.
  rewrite (mmult_scal_l 2 2 1) by (done || by intros ? ? ? ?). ring.
Qed.
Lemma handle_fine o : proper g_handle (λ _, 2) (λ _ _, mscal 1) no_lin o ∨ handle g_handle (λ _, 2) (λ _ _, mscal 1) o.
Proof.
  destruct (decide (o = 1)) as [->|Hne].
  - right. exists (RNode [0] (jac1 0 (Num 1))), 0, (Num 1), 1%R. split_and!; try done.
    + by left.
    + intros q Hq. simpl. unfold jac1. by rewrite decide_False.
    + intros q Hq Hne. by apply elem_of_list_singleton in Hq.
  - left. intros nd H. graph_cases g_handle H; [|done]. split; [done|]. intros p Hp. by apply elem_of_nil in Hp.
Qed.
Lemma handle_wrong : ¬ result_is (Some (Arr (Arr_ [1; 1] (λ _, 1%R)))) 2 2 (mscal 1).
Proof. by intros [H _]. Qed.

(* ------------------------------------------------------------------ *)
(** y = square(sum(x)) for x = (1, 2): sum returns a dense row (ch_ops.py:324-325). *)
Definition g_sum : rgraph :=
  <[0 := RNode [] nojac]> (<[1 := RNode [0] (jac1 0 (Arr (full [1; 2] 1%R)))]>
  {[2 := RNode [1] (jac1 1 (unary_one Usquare 3))]}).
Definition n_sum (o : nat) : nat := match o with 0 => 2 | _ => 1 end.
Definition J_sum (o p : nat) : mat := λ _ _, match o with 1 => 1%R | _ => 6%R end.
Definition T_sum (o : nat) : mat := match o with 0 => mscal 1 | 1 => λ _ _, 1%R | _ => λ _ _, 6%R end.
Lemma sum_sound : sound_graph g_sum.
Proof.
  split.
  - intros o nd H. graph_cases g_sum H; simpl.
    + split; [constructor|]. intros p Hp. by apply elem_of_nil in Hp.
    + split; [repeat constructor; set_solver|]. intros p Hp. apply elem_of_list_singleton in Hp as ->. by eexists.
    + split; [repeat constructor; set_solver|]. intros p Hp. apply elem_of_list_singleton in Hp as ->. by eexists.
  - exists (λ o, o). intros o nd p H Hp. graph_cases g_sum H; simpl in Hp; set_unfold; lia.
Qed.
Lemma sum_chain : chain_rule g_sum n_sum 0 J_sum T_sum.
Proof.
  split; [by intros ? ? ? ?|]. intros o nd H Hne i j Hi Hj. graph_cases g_sum H; [done|..]; simpl.
  - unfold mmult. simpl. unfold mscal, T_sum, J_sum. simpl in Hj. destruct j as [|[|?]]; [| |lia]; repeat case_decide; try lia; ring.
  - unfold mmult. simpl. ring.
Qed.
Lemma sum_proper o : proper g_sum n_sum J_sum no_lin o.
Proof.
  intros nd H. graph_cases g_sum H; simpl.
  - split; [done|]. intros p Hp. by apply elem_of_nil in Hp.
  - split; [intros p Hp; unfold jac1; rewrite decide_False by set_solver; done|].
    intros p Hp. apply elem_of_list_singleton in Hp as ->. split; [|done]. left. by split.
  - split; [intros p Hp; unfold jac1; rewrite decide_False by set_solver; done|].
    intros p Hp. apply elem_of_list_singleton in Hp as ->. split; [|done]. left. split; [done|]. intros i j _ _. simpl. unfold J_sum. ring.
Qed.
Lemma sum_raises : raises (λ n, rdr_rev n g_sum 2 0).
Proof. by intros [|n]. Qed.

(* ------------------------------------------------------------------ *)
(** Three operands x with Jacobians given as operators. *)
Definition op_id : rep := Lin 2 2 (λ v, Some v).
Definition sp_id : rep := Spr 2 2 (mscal 1).
Definition g_ops : rgraph :=
  <[0 := RNode [] nojac]> (<[1 := RNode [0] (jac1 0 sp_id)]> (<[2 := RNode [0] (jac1 0 sp_id)]> (<[3 := RNode [0] (jac1 0 sp_id)]>
  {[4 := RNode [1; 2; 3] (λ p, if decide (p ∈ [1; 2; 3]) then Some op_id else None)]}))).
Definition T_ops (o : nat) : mat := if decide (o = 4) then mscal 3 else mscal 1.
Lemma id_is : is_mat op_id 2 2 (mscal 1).
Proof.
  apply lin_is. intros [|x [|y [|z v]]] Hv; simpl in Hv; try lia. unfold mvec. simpl. unfold mscal. simpl.
  rewrite !Rmult_0_l, !Rmult_1_l, !Rplus_0_r, Rplus_0_l. done.
Qed.
Lemma ops_sound : sound_graph g_ops.
Proof.
  split.
  - intros o nd H. graph_cases g_ops H; simpl.
    + split; [constructor|]. intros p Hp. by apply elem_of_nil in Hp.
    + split; [repeat constructor; set_solver|]. intros p Hp. apply elem_of_list_singleton in Hp as ->. by eexists.
    + split; [repeat constructor; set_solver|]. intros p Hp. apply elem_of_list_singleton in Hp as ->. by eexists.
    + split; [repeat constructor; set_solver|]. intros p Hp. apply elem_of_list_singleton in Hp as ->. by eexists.
    + split; [repeat constructor; set_solver|]. intros p Hp.
      apply elem_of_cons in Hp as [->|Hp]; [by eexists|]. apply elem_of_cons in Hp as [->|Hp]; [by eexists|]. apply elem_of_list_singleton in Hp as ->. by eexists.
  - exists (λ o, o). intros o nd p H Hp. graph_cases g_ops H; simpl in Hp; set_unfold; lia.
Qed.
Lemma ops_chain : chain_rule g_ops (λ _, 2) 0 (λ _ _, mscal 1) T_ops.
Proof.
  assert (Hid : ∀ B i j, i < 2 → j < 2 → mmult 2 (mscal 1) B i j = B i j).
  { intros B i j Hi Hj. rewrite (mmult_scal_l 2 2 1) by (done || by intros ? ? ? ?). ring. }
  split; [by intros ? ? ? ?|]. intros o nd H Hne i j Hi Hj.
  graph_cases g_ops H; [done|..]; simpl; rewrite !Hid by done; unfold T_ops; simpl; try ring.
  unfold mscal. destruct (decide _); ring.
Qed.
Lemma ops_proper o : proper g_ops (λ _, 2) (λ _ _, mscal 1) (λ _, true) o.
Proof.
  assert (Hs : stores sp_id 2 2 (mscal 1)) by (left; split_and!; by try intros ? ? ? ?).
  assert (Ho : stores op_id 2 2 (mscal 1)) by (left; apply id_is).
  intros nd H. graph_cases g_ops H; simpl.
  - split; [done|]. intros p Hp. by apply elem_of_nil in Hp.
  - split; [intros p Hp; unfold jac1; rewrite decide_False by set_solver; done|].
    intros p Hp. by apply elem_of_list_singleton in Hp as ->.
  - split; [intros p Hp; unfold jac1; rewrite decide_False by set_solver; done|].
    intros p Hp. by apply elem_of_list_singleton in Hp as ->.
  - split; [intros p Hp; unfold jac1; rewrite decide_False by set_solver; done|].
    intros p Hp. by apply elem_of_list_singleton in Hp as ->.
  - split; [intros p Hp; by rewrite decide_False|]. intros p Hp. by rewrite decide_True.
Qed.
Definition wrong_op : rep :=
  Lin 2 2 (λ v, match superdot op_id sp_id with Some a => lin_reduce a [a; a] v | None => None end).
Lemma ops_returns : returns g_ops 4 0 (Some wrong_op).
Proof. exists 2. done. Qed.
Lemma ops_wrong : ¬ result_is (Some wrong_op) 2 2 (T_ops 4).
Proof.
  intros (_ & _ & H). specialize (H [1%R; 0%R] eq_refl). cbv -[Rplus Rmult IZR] in H.
  injection H as H0 H1. lra.
Qed.

(* ------------------------------------------------------------------ *)
(** x with two elements, e sparse diag(2, 3), h = ChHandle(x), a = e + h, s = sum(a):
    numbers, sparse and dense Jacobians. *)
Definition d23 : mat := λ i j, if decide (i = j) then (2 + INR i)%R else 0%R.
Definition g_mix : rgraph :=
  <[0 := RNode [] nojac]> (<[1 := RNode [0] (jac1 0 (Spr 2 2 d23))]> (<[2 := RNode [0] (jac1 0 (Num 1))]>
  (<[3 := RNode [1; 2] (jac2 1 sp_id 2 sp_id)]> {[4 := RNode [3] (jac1 3 (Arr (full [1; 2] 1%R)))]}))).
Definition n_mix (o : nat) : nat := match o with 4 => 1 | _ => 2 end.
Definition J_mix (o p : nat) : mat := match o with 1 => d23 | 4 => λ _ _, 1%R | _ => mscal 1 end.
Definition T_mix (o : nat) : mat :=
  match o with 1 => d23 | 3 => mplus d23 (mscal 1) | 4 => λ _ j, (3 + INR j)%R | _ => mscal 1 end.
Lemma mix_sound : sound_graph g_mix.
Proof.
  split.
  - intros o nd H. graph_cases g_mix H; simpl.
    + split; [constructor|]. intros p Hp. by apply elem_of_nil in Hp.
    + split; [repeat constructor; set_solver|]. intros p Hp. apply elem_of_list_singleton in Hp as ->. by eexists.
    + split; [repeat constructor; set_solver|]. intros p Hp. apply elem_of_list_singleton in Hp as ->. by eexists.
    + split; [repeat constructor; set_solver|]. intros p Hp.
      apply elem_of_cons in Hp as [->|Hp]; [by eexists|]. apply elem_of_list_singleton in Hp as ->. by eexists.
    + split; [repeat constructor; set_solver|]. intros p Hp. apply elem_of_list_singleton in Hp as ->. by eexists.
  - exists (λ o, o). intros o nd p H Hp. graph_cases g_mix H; simpl in Hp; set_unfold; lia.
Qed.
Lemma mix_chain : chain_rule g_mix n_mix 0 J_mix T_mix.
Proof.
  assert (Hid : ∀ B i j, i < 2 → j < 2 → mmult 2 (mscal 1) B i j = B i j).
  { intros B i j Hi Hj. rewrite (mmult_scal_l 2 2 1) by (done || by intros ? ? ? ?). ring. }
  assert (Hid' : ∀ A i j, i < 2 → j < 2 → mmult 2 A (mscal 1) i j = A i j).
  { intros B i j Hi Hj. rewrite (mmult_scal_r 2 2 1) by (done || by intros ? ? ? ?). ring. }
  split; [by intros ? ? ? ?|]. intros o nd H Hne i j Hi Hj.
  graph_cases g_mix H; [done|..]; simpl; simpl in Hi, Hj.
  - rewrite Hid' by done. ring.
  - rewrite Hid by done. ring.
  - rewrite !Hid by done. unfold mplus. ring.
  - unfold mmult, mplus, d23, mscal. simpl. destruct j as [|[|?]]; [| |lia]; simpl; ring.
Qed.
Lemma mix_fine o : proper g_mix n_mix J_mix no_lin o ∨ handle g_mix n_mix J_mix o.
Proof.
  destruct (decide (o = 2)) as [->|Hne].
  - right. exists (RNode [0] (jac1 0 (Num 1))), 0, (Num 1), 1%R. split_and!; try done.
    + by left.
    + intros q Hq. simpl. unfold jac1. by rewrite decide_False.
    + intros q Hq Hne. by apply elem_of_list_singleton in Hq.
  - left. intros nd H. graph_cases g_mix H; simpl.
    + split; [done|]. intros p Hp. by apply elem_of_nil in Hp.
    + split; [intros p Hp; unfold jac1; rewrite decide_False by set_solver; done|].
      intros p Hp. apply elem_of_list_singleton in Hp as ->. split; [|done]. left. by split_and!; try intros ? ? ? ?.
    + done.
    + split; [intros p Hp; unfold jac2; rewrite !decide_False by set_solver; done|].
      intros p Hp. apply elem_of_cons in Hp as [->|Hp]; [|apply elem_of_list_singleton in Hp as ->];
        (split; [|done]); left; by split_and!; try intros ? ? ? ?.
    + split; [intros p Hp; unfold jac1; rewrite decide_False by set_solver; done|].
      intros p Hp. apply elem_of_list_singleton in Hp as ->. split; [|done]. left. by split.
Qed.
Lemma mix_sizes o nd : g_mix !! o = Some nd → n_mix o * n_mix 0 ≠ 1 ∨ length (ops nd) ≤ 1.
Proof. intros _. left. unfold n_mix. destruct o as [|[|[|[|[|o]]]]]; simpl; lia. Qed.
Lemma mix_alias : ¬ alias g_mix n_mix 0 J_mix 4.
Proof.
  intros H. inversion H as [|o p nd Hne (nd' & q & r & c & Ho & Eo & _ & _ & _ & _ & _ & Hn & _) Ho' Hp _]; subst.
  injection Ho as <-. apply elem_of_list_singleton in Eo as ->. done.
Qed.

(** e and a alone, with a = e + x: sparse Jacobians *)
Definition g_sp : rgraph :=
  <[0 := RNode [] nojac]> (<[1 := RNode [0] (jac1 0 (Spr 2 2 d23))]> {[3 := RNode [1; 0] (jac2 1 sp_id 0 sp_id)]}).
Lemma sp_sound : sound_graph g_sp.
Proof.
  split.
  - intros o nd H. graph_cases g_sp H; simpl.
    + split; [constructor|]. intros p Hp. by apply elem_of_nil in Hp.
    + split; [repeat constructor; set_solver|]. intros p Hp. apply elem_of_list_singleton in Hp as ->. by eexists.
    + split; [repeat constructor; set_solver|]. intros p Hp.
      apply elem_of_cons in Hp as [->|Hp]; [by eexists|]. apply elem_of_list_singleton in Hp as ->. by eexists.
  - exists (λ o, o). intros o nd p H Hp. graph_cases g_sp H; simpl in Hp; set_unfold; lia.
Qed.
Lemma sp_chain : chain_rule g_sp n_mix 0 J_mix T_mix.
Proof.
  assert (Hid : ∀ B i j, i < 2 → j < 2 → mmult 2 (mscal 1) B i j = B i j).
  { intros B i j Hi Hj. rewrite (mmult_scal_l 2 2 1) by (done || by intros ? ? ? ?). ring. }
  assert (Hid' : ∀ A i j, i < 2 → j < 2 → mmult 2 A (mscal 1) i j = A i j).
  { intros B i j Hi Hj. rewrite (mmult_scal_r 2 2 1) by (done || by intros ? ? ? ?). ring. }
  split; [by intros ? ? ? ?|]. intros o nd H Hne i j Hi Hj.
  graph_cases g_sp H; [done|..]; simpl; simpl in Hi, Hj.
  - rewrite Hid' by done. ring.
  - rewrite !Hid by done. unfold mplus. ring.
Qed.
Lemma sp_proper o : proper g_sp n_mix J_mix sparse_only o.
Proof.
  intros nd H. graph_cases g_sp H; simpl.
  - split; [done|]. intros p Hp. by apply elem_of_nil in Hp.
  - split; [intros p Hp; unfold jac1; rewrite decide_False by set_solver; done|].
    intros p Hp. apply elem_of_list_singleton in Hp as ->. split; [|done]. left. by split_and!; try intros ? ? ? ?.
  - split; [intros p Hp; unfold jac2; rewrite !decide_False by set_solver; done|].
    intros p Hp. apply elem_of_cons in Hp as [->|Hp]; [|apply elem_of_list_singleton in Hp as ->];
      (split; [|done]); left; by split_and!; try intros ? ? ? ?.
Qed.
