(** Object graphs and histories for GroupProps.v. *)
From Coq Require Import Reals Lra.
From stdpp Require Import gmap list list_numbers relations strings.
From Verif Require Import EngineModel EngineSpec LamModel LamSpec LamDemo.
From Verif Require Import ArrModel ArrThms RepModel RepSpec RepThms RepSum RepGraph RepDemo GroupModel GroupSpec GroupThms.

(** Objects of two elements: x, p = 3 * x, a handle for p, y, and r = 2 * handle + y; the
    group exposes p. *)
Definition times (c : R) : rep := Arr (arr2 2 2 (mscal c)).
Definition g_grp : rgraph :=
  <[0 := RNode [] nojac]> (<[1 := RNode [0] (jac1 0 (times 3))]> (<[2 := RNode [1] (jac1 1 (Num 1%R))]>
  (<[3 := RNode [2; 4] (jac2 2 (times 2) 4 (times 1))]> {[4 := RNode [] nojac]}))).
Definition two (o : nat) : nat := 2.
Definition J_grp (o p : nat) : mat :=
  match o, p with 1, 0 => mscal 3 | 2, 1 => mscal 1 | 3, 2 => mscal 2 | 3, 4 => mscal 1 | _, _ => mzero end.
Definition T_grp (v o : nat) : mat :=
  match v, o with
  | 0, 0 => mscal 1 | 0, 1 => mscal 3 | 0, 2 => mscal 3 | 0, 3 => mscal 6
  | 1, 1 => mscal 1 | 1, 2 => mscal 1 | 1, 3 => mscal 2
  | 4, 4 => mscal 1 | 4, 3 => mscal 1
  | _, _ => mzero
  end.
Lemma grp_sound : sound_graph g_grp.
Proof.
  split.
  - intros o nd H. graph_cases g_grp H; simpl.
    + split; [constructor|]. intros p Hp. by apply elem_of_nil in Hp.
    + split; [repeat constructor; set_solver|]. intros p Hp. apply elem_of_list_singleton in Hp as ->. by eexists.
    + split; [repeat constructor; set_solver|]. intros p Hp. apply elem_of_list_singleton in Hp as ->. by eexists.
    + split; [repeat constructor; set_solver|]. intros p Hp.
      apply elem_of_cons in Hp as [->|Hp]; [by eexists|]. apply elem_of_list_singleton in Hp as ->. by eexists.
    + split; [constructor|]. intros p Hp. by apply elem_of_nil in Hp.
  - exists (λ o, match o with 3 => 5 | _ => o end). intros o nd p H Hp. graph_cases g_grp H; simpl in Hp; set_unfold; destruct_or?; subst; lia.
Qed.
Lemma mscal_mul a b i j : i < 2 → j < 2 → mmult 2 (mscal a) (mscal b) i j = mscal (a * b) i j.
Proof.
  intros Hi Hj. rewrite (mmult_scal_l 2 2 a (mscal a) (mscal b)) by (done || by intros ? ? ? ?). unfold mscal. destruct (decide _); ring.
Qed.
Lemma mul_zero a i j : mmult 2 (mscal a) mzero i j = 0%R.
Proof. apply rsum_zero. intros l _. unfold mzero. ring. Qed.
Lemma grp_chain v : v ∈ [0; 1; 4] → chain_rule g_grp two v J_grp (T_grp v).
Proof.
  intros Hv. split.
  - intros i j _ _. repeat (apply elem_of_cons in Hv as [->|Hv]; [done|]). by apply elem_of_nil in Hv.
  - intros o nd H Hne i j Hi Hj. unfold two in Hi, Hj.
    repeat (apply elem_of_cons in Hv as [->|Hv]; [graph_cases g_grp H; simpl; unfold two;
      rewrite ?mscal_mul, ?mul_zero by done; unfold mscal, mzero; try destruct (decide (i = j)); done || ring|]).
    by apply elem_of_nil in Hv.
Qed.
Lemma times_stores c : stores (times c) 2 2 (mscal c).
Proof. left. by apply arr2_is. Qed.
Lemma grp_fine o : proper g_grp two J_grp no_lin o ∨ handle g_grp two J_grp o.
Proof.
  destruct (decide (o = 2)) as [->|Hne].
  - right. exists (RNode [1] (jac1 1 (Num 1))), 1, (Num 1), 1%R. split_and!; try done.
    + by left.
    + intros q Hq. simpl. unfold jac1. by rewrite decide_False.
    + intros q Hq Hne. by apply elem_of_list_singleton in Hq.
  - left. intros nd H. graph_cases g_grp H; simpl.
    + split; [done|]. intros p Hp. by apply elem_of_nil in Hp.
    + split; [intros p Hp; unfold jac1; rewrite decide_False by set_solver; done|].
      intros p Hp. apply elem_of_list_singleton in Hp as ->. split; [|done]. apply times_stores.
    + done.
    + split; [intros p Hp; unfold jac2; rewrite !decide_False by set_solver; done|].
      intros p Hp. apply elem_of_cons in Hp as [->|Hp]; [|apply elem_of_list_singleton in Hp as ->];
        (split; [|done]); apply times_stores.
    + split; [done|]. intros p Hp. by apply elem_of_nil in Hp.
Qed.
Lemma grp_alias v : v ∈ [0; 1; 4] → ¬ alias g_grp two v J_grp 3.
Proof.
  intros Hv H. inversion H as [Hv'|o p nd Hne (nd' & q & x & c & Ho & Eo & Ej & _ & _ & Hn & _) Ho' Hp _]; subst.
  - repeat (apply elem_of_cons in Hv as [Hv|Hv]; [done|]). by apply elem_of_nil in Hv.
  - injection Ho as <-. simpl in Eo, Ej. apply elem_of_cons in Eo as [->|Eo]; [|apply elem_of_list_singleton in Eo as ->];
      injection Ej as <-; destruct Hn as [Hn _]; unfold asize in Hn; simpl in Hn; lia.
Qed.
Lemma grp_there p : p ∈ [3; 1] → is_Some (g_grp !! p).
Proof. intros Hp. repeat (apply elem_of_cons in Hp as [->|Hp]; [by eexists|]). by apply elem_of_nil in Hp. Qed.
Lemma feeds_grp a b : feeds g_grp a b → (a, b) ∈ [(1, 0); (2, 1); (3, 2); (3, 4)].
Proof. intros (nd & H & Hb). graph_cases g_grp H; simpl in Hb; set_solver. Qed.
Lemma reach_grp a b : rtc (feeds g_grp) a b → a = 1 → b = 1 ∨ b = 0.
Proof.
  intros H ->. apply rtc_inv in H as [->|(c & H1 & H2)]; [by left|]. apply feeds_grp in H1.
  assert (c = 0) as -> by set_solver. apply rtc_inv in H2 as [->|(d & H1' & H2)]; [by right|].
  apply feeds_grp in H1'. set_solver.
Qed.
Lemma grp_around : ¬ around g_grp [1] 0 3.
Proof.
  intros H. inversion H as [|a b _ Hf Hb]; subst. apply feeds_grp in Hf.
  assert (b = 2 ∨ b = 4) as [->| ->] by set_solver.
  - inversion Hb as [|a b _ Hf' Hb']; subst. apply feeds_grp in Hf'. assert (b = 1) as -> by set_solver.
    inversion Hb' as [|a b Hn _ _]; subst. apply Hn. by left.
  - inversion Hb as [|a b _ Hf' Hb']; subst. apply feeds_grp in Hf'. set_solver.
Qed.
Lemma grp_sub v w : w ∈ [0; 1; 4] → v ∈ w :: [1] → v ∈ [0; 1; 4].
Proof. set_solver. Qed.
Lemma grp_returns w : w ∈ [0; 1; 4] → ∃ n res, group_dr n g_grp [1] 3 w = Some res.
Proof.
  intros Hw. apply (group_returns g_grp two J_grp T_grp [1] 3 w grp_sound grp_fine).
  - intros v Hv. apply grp_chain. by eapply grp_sub.
  - set_solver.
  - intros v Hv. apply grp_alias. by eapply grp_sub.
  - apply grp_there.
  - intros o nd v _ _. left. done.
  - done.
Qed.

(* ------------------------------------------------------------------ *)
(** A history: leaves 0, 1 and 4, handle 2 for leaf 0, result 3 = a + b over 0 and 1; the
    group 5 exposes a.  Then leaf 1, which is no argument, gets another value. *)
Definition l_grp : list (lop klib) := leaf 0 3%Z ++ leaf 1 4%Z ++ leaf 4 20%Z ++ holder 2 0 ++ node2 3 KAdd 0 1.
Lemma l_grp_valid : lvalid klib k_lam k_handle l_grp.
Proof. apply lvalidb_ok. vm_compute. reflexivity. Qed.
Definition grp_made : option (lstate klib) := make_group klib KLam 5 [("a"%string, 2)] 3 (lafter klib k_lam l_grp).
Definition grp_later (ls : lstate klib) : lstate klib :=
  lexec klib k_lam [LRead klib 20 5; LSet klib 1 "x" (@AVal klib 10%Z) 100] ls.
Definition grp_arg (ls : lstate klib) : lstate klib :=
  lexec klib k_lam [LRead klib 20 5; LSet klib 0 "x" (@AVal klib 10%Z) 100] ls.
Definition grp_other (ls : lstate klib) : lstate klib :=
  lexec klib k_lam [LRead klib 20 5; LSet klib 5 "a" (@ARef klib 4) 100] ls.
Definition kread (o : oid) (ls : lstate klib) : option Z := (read_l klib (ls_reg klib ls) 20 o (ls_st klib ls)).2.
Lemma grp_values : match grp_made with
  | Some ls => kread 5 ls = Some 7%Z ∧ kread 5 (grp_arg ls) = Some 14%Z ∧ kread 5 (grp_other ls) = Some 24%Z ∧
               kread 5 (grp_later ls) = Some 7%Z ∧ kread 3 (grp_later ls) = Some 13%Z
  | None => False
  end.
Proof. vm_compute. done. Qed.

(* ------------------------------------------------------------------ *)
(** x, a handle for x, 3 * handle, the lambda object over it, and twice that. *)
Definition g_lmb : rgraph :=
  <[0 := RNode [] nojac]> (<[1 := RNode [0] (jac1 0 (Num 1%R))]> (<[2 := RNode [1] (jac1 1 (times 3))]>
  (<[3 := lambda_node [0; 2] 2]> {[4 := RNode [3] (jac1 3 (times 2))]}))).
Definition J_lmb (o p : nat) : mat :=
  match o, p with 1, 0 => mscal 1 | 2, 1 => mscal 3 | 3, 2 => mscal 1 | 4, 3 => mscal 2 | _, _ => mzero end.
Definition T_lmb (o : nat) : mat :=
  match o with 0 | 1 => mscal 1 | 2 | 3 => mscal 3 | _ => mscal 6 end.
Lemma lmb_sound : sound_graph g_lmb.
Proof.
  split.
  - intros o nd H. graph_cases g_lmb H; simpl.
    + split; [constructor|]. intros p Hp. by apply elem_of_nil in Hp.
    + split; [repeat constructor; set_solver|]. intros p Hp. apply elem_of_list_singleton in Hp as ->. by eexists.
    + split; [repeat constructor; set_solver|]. intros p Hp. apply elem_of_list_singleton in Hp as ->. by eexists.
    + split; [repeat constructor; set_solver|]. intros p Hp.
      apply elem_of_cons in Hp as [->|Hp]; [by eexists|]. apply elem_of_list_singleton in Hp as ->. by eexists.
    + split; [repeat constructor; set_solver|]. intros p Hp. apply elem_of_list_singleton in Hp as ->. by eexists.
  - exists (λ o, o). intros o nd p H Hp. graph_cases g_lmb H; simpl in Hp; set_unfold; destruct_or?; subst; lia.
Qed.
Lemma zero_mul A i j : mmult 2 mzero A i j = 0%R.
Proof. apply rsum_zero. intros l _. unfold mzero. ring. Qed.
Lemma lmb_chain : chain_rule g_lmb two 0 J_lmb T_lmb.
Proof.
  split; [by intros i j _ _|]. intros o nd H Hne i j Hi Hj. unfold two in Hi, Hj.
  graph_cases g_lmb H; simpl; unfold two;
    rewrite ?mscal_mul, ?mul_zero, ?zero_mul by done; unfold mscal, mzero; try destruct (decide (i = j)); done || ring.
Qed.
Lemma lmb_fine o : proper g_lmb two J_lmb no_lin o ∨ handle g_lmb two J_lmb o ∨ lambda_obj lambda_node g_lmb two J_lmb o.
Proof.
  destruct (decide (o = 1)) as [->|Hne1]; [|destruct (decide (o = 3)) as [->|Hne3]].
  - right; left. exists (RNode [0] (jac1 0 (Num 1))), 0, (Num 1), 1%R. split_and!; try done.
    + by left.
    + intros q Hq. simpl. unfold jac1. by rewrite decide_False.
    + intros q Hq Hne. by apply elem_of_list_singleton in Hq.
  - right; right. exists [0; 2], 2. split_and!; try done; [set_solver|]. intros p Hp Hne.
    apply elem_of_cons in Hp as [->|Hp]; [done|]. by apply elem_of_list_singleton in Hp.
  - left. intros nd H. graph_cases g_lmb H; simpl; try done.
    + split; [intros p Hp; unfold jac1; rewrite decide_False by set_solver; done|].
      intros p Hp. apply elem_of_list_singleton in Hp as ->. split; [|done]. apply times_stores.
    + split; [intros p Hp; unfold jac1; rewrite decide_False by set_solver; done|].
      intros p Hp. apply elem_of_list_singleton in Hp as ->. split; [|done]. apply times_stores.
Qed.
Lemma lmb_fine' o : proper g_lmb two J_lmb no_lin o ∨ handle g_lmb two J_lmb o.
Proof.
  destruct (lmb_fine o) as [H|[H|(l & r & H1 & H2 & H3 & H4 & H5)]]; [by left|by right|]. right. by eapply lambda_handle.
Qed.
Lemma lmb_alias o : o ∈ [3; 4] → ¬ alias g_lmb two 0 J_lmb o.
Proof.
  assert (H2 : ¬ alias g_lmb two 0 J_lmb 2).
  { intros H. inversion H as [Hv'|o' p nd Hne (nd' & q & x & c & Ho & Eo & Ej & _ & _ & Hn & _) Ho' Hp _]; subst.
    injection Ho as <-. simpl in Eo, Ej. apply elem_of_list_singleton in Eo as ->.
    injection Ej as <-; destruct Hn as [Hn _]; unfold asize in Hn; simpl in Hn; lia. }
  intros Hv H. apply elem_of_cons in Hv as [->|Hv]; [|apply elem_of_list_singleton in Hv as ->].
  - inversion H as [Hv'|o' p nd Hne _ Ho' Hp Hs Hal]; subst. injection Ho' as <-. simpl in Hp, Hs.
    apply elem_of_cons in Hp as [->|Hp]; [by destruct Hs|]. by apply elem_of_list_singleton in Hp as ->.
  - inversion H as [Hv'|o' p nd Hne (nd' & q & x & c & Ho & Eo & Ej & _ & _ & Hn & _) Ho' Hp _]; subst.
    injection Ho as <-. simpl in Eo, Ej. apply elem_of_list_singleton in Eo as ->.
    injection Ej as <-; destruct Hn as [Hn _]; unfold asize in Hn; simpl in Hn; lia.
Qed.
Lemma lmb_returns o : o ∈ [3; 4] → ∃ res, returns g_lmb o 0 res.
Proof.
  intros Ho. apply (forward_returns g_lmb two 0 J_lmb T_lmb lmb_sound lmb_chain); [exact lmb_fine'| | |by intros; left].
  - repeat (apply elem_of_cons in Ho as [->|Ho]; [by eexists|]). by apply elem_of_nil in Ho.
  - intros ->. repeat (apply elem_of_cons in Ho as [Ho|Ho]; [done|]). by apply elem_of_nil in Ho.
Qed.
