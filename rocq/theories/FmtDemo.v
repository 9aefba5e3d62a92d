(** Object graphs for FmtProps.v. *)
From Coq Require Import Reals Lra.
From stdpp Require Import gmap list list_numbers relations.
From Verif Require Import ArrModel ArrThms RepModel RepSpec RepThms RepSum RepGraph RepDemo RepOpsSpec RepOps FmtModel FmtSpec FmtThms.

(** A graph with flags. *)
Definition flag (g : rgraph) (d s : nat → bool) : fgraph := map_imap (λ o nd, Some (FNode nd (d o) (s o))) g.
Lemma flag_lookup g d s o : flag g d s !! o = (λ nd, FNode nd (d o) (s o)) <$> (g !! o).
Proof. unfold flag. rewrite map_lookup_imap. by destruct (g !! o). Qed.
Lemma plain_flag g d s : plain (flag g d s) = g.
Proof. apply map_eq. intros o. unfold plain. rewrite lookup_fmap, flag_lookup. by destruct (g !! o) as [[]|]. Qed.
Lemma no_operators_fine g size w J : (∀ o, proper g size J no_lin o ∨ handle g size J o) → fine g size w J.
Proof.
  intros H o. destruct (H o) as [Hp|Hh]; [left|by right]. split.
  - intros nd Ho. destruct (Hp nd Ho) as [H1 H2]. split; [done|]. intros p Hin. specialize (H2 p Hin).
    destruct (jac nd p); [|done]. by split; [destruct H2|].
  - intros nd Ho. right; right. intros p _. apply H.
Qed.

(** s = sum(e + ChHandle(x)) with e made dense and the sum of e and the handle and s made
    sparse. *)
Definition m_dense (o : nat) : bool := bool_decide (o = 1).
Definition m_sparse (o : nat) : bool := bool_decide (o = 3 ∨ o = 4).
Definition g_flag : fgraph := flag g_mix m_dense m_sparse.
Lemma mix_alias3 : ¬ alias g_mix n_mix 0 J_mix 3.
Proof.
  intros H. inversion H as [|o p nd Hne (nd' & q & r & c & Ho & Eo & Ej & Hout & _ & _ & _ & _ & _) Ho' Hp _]; subst.
  injection Ho as <-. simpl in Eo. destruct (decide (q = 1)) as [->|Hq].
  - by specialize (Hout 2 ltac:(done)).
  - by specialize (Hout 1 ltac:(done)).
Qed.
Lemma mix_linked o : o = 3 ∨ o = 4 → linked g_mix 0 o.
Proof.
  assert (H1 : linked g_mix 0 1) by (eapply linked_here; [done|by eexists]).
  assert (H3 : linked g_mix 0 3) by (eapply (linked_below _ _ 3 _ 1); [done|set_solver|done|by eexists|done]).
  intros [->| ->]; [done|]. eapply (linked_below _ _ 4 _ 3); [done|set_solver|done|by eexists|done].
Qed.
Lemma flag_fit : flags_fit g_flag n_mix 0 J_mix.
Proof.
  intros o nd Ho Hs. unfold g_flag in *. rewrite plain_flag. rewrite flag_lookup in Ho. destruct (g_mix !! o); [|done].
  injection Ho as <-. simpl in Hs. apply bool_decide_eq_true in Hs. split; [by apply mix_linked|].
  destruct Hs as [->| ->]; [exact mix_alias3|exact mix_alias].
Qed.
Lemma flag_rank o nd p : g_flag !! o = Some nd → p ∈ ops (base nd) → p < o.
Proof.
  unfold g_flag. rewrite flag_lookup. destruct (g_mix !! o) as [nd0|] eqn:H; [|done]. intros [= <-]. simpl. intros Hp.
  graph_cases g_mix H; simpl in Hp; set_unfold; lia.
Qed.
Lemma flag_sizes o nd : g_flag !! o = Some nd → n_mix o * n_mix 0 ≠ 1 ∨ length (ops (base nd)) ≤ 1.
Proof.
  unfold g_flag. rewrite flag_lookup. destruct (g_mix !! o) as [nd0|] eqn:H; [|done]. intros [= <-]. by apply mix_sizes.
Qed.
Lemma flag_free o nd : g_flag !! o = Some nd → sparse nd = true → operator_free (plain g_flag) n_mix J_mix o.
Proof. intros _ _ p _. unfold g_flag. rewrite plain_flag. apply mix_fine. Qed.

(** One object over x with a local Jacobian. *)
Definition g_one (r : option rep) : rgraph := <[0 := RNode [] nojac]> {[1 := RNode [0] (λ p, if decide (p = 0) then r else None)]}.
Lemma one_sound r : sound_graph (g_one r).
Proof.
  split.
  - intros o nd H. graph_cases g_one H; simpl.
    + split; [constructor|]. intros p Hp. by apply elem_of_nil in Hp.
    + split; [repeat constructor; set_solver|]. intros p Hp. apply elem_of_list_singleton in Hp as ->. by eexists.
  - exists (λ o, o). intros o nd p H Hp. graph_cases g_one H; simpl in Hp; set_unfold; lia.
Qed.
Lemma one_chain r A : chain_rule (g_one r) (λ _, 2) 0 (λ _ _, A) (λ o, match o with 0 => mscal 1 | _ => A end).
Proof.
  split; [by intros ? ? ? ?|]. intros o nd H Hne i j Hi Hj. graph_cases g_one H; [done|]. simpl.
  rewrite (mmult_scal_r 2 2 1) by (done || by intros ? ? ? ?). ring.
Qed.
Lemma one_fine r A : match r with Some x => is_mat x 2 2 A | None => meq 2 2 A mzero end → fine (g_one r) (λ _, 2) 0 (λ _ _, A).
Proof.
  intros Hr o. left. split.
  - intros nd H. graph_cases g_one H; simpl.
    + split; [done|]. intros p Hp. by apply elem_of_nil in Hp.
    + split; [intros p Hp; by rewrite decide_False by set_solver|].
      intros p Hp. apply elem_of_list_singleton in Hp as ->. simpl. destruct r; [|done]. split; [by left|done].
  - intros nd H. left. graph_cases g_one H; simpl; lia.
Qed.
Lemma one_alias r A : (∀ x c, r = Some x → is_num x c → False) → ¬ alias (g_one r) (λ _, 2) 0 (λ _ _, A) 1.
Proof.
  intros Hn H. inversion H as [|o p nd Hne (nd' & q & x & c & Ho & Eo & Ej & Hout & _ & Hx & _) Ho' Hp _]; subst.
  assert (E : nd' = RNode [0] (λ p, if decide (p = 0) then r else None)) by (unfold g_one in Ho; rewrite lookup_insert_ne, lookup_singleton in Ho by done; congruence). subst nd'.
  apply elem_of_list_singleton in Eo as ->. by apply (Hn x c).
Qed.
Definition at1 (o : nat) : bool := bool_decide (o = 1).
Definition off (o : nat) : bool := false.
Lemma one_fit x A d : (∀ c, ¬ is_num x c) → flags_fit (flag (g_one (Some x)) d at1) (λ _, 2) 0 (λ _ _, A).
Proof.
  intros Hn o nd Ho Hs. rewrite plain_flag. rewrite flag_lookup in Ho. destruct (g_one (Some x) !! o); [|done].
  injection Ho as <-. simpl in Hs. apply bool_decide_eq_true in Hs as ->. split.
  - eapply linked_here; [done|]. by eexists.
  - apply one_alias. intros y c [= <-]. apply Hn.
Qed.
Lemma off_fit g d size w J : flags_fit (flag g d off) size w J.
Proof. intros o nd Ho Hs. rewrite flag_lookup in Ho. destruct (g !! o); [|done]. injection Ho as <-. done. Qed.

(** What the object returns first and afterwards, when it has no parent. *)
Definition top : nat → nat := λ _, 0.
Lemma one_round n blank r d s c : c !! 1 = None →
  fdr blank (S n) (flag (g_one r) d s) top 0 c 1 =
  match conclude (option_list r) with
  | None => (c, None)
  | Some res => (<[1 := res]> c, convert blank (FNode (RNode [0] (λ p, if decide (p = 0) then r else None)) (d 1) (s 1)) res)
  end.
Proof.
  intros Hc. cbn [fdr]. rewrite Hc. rewrite flag_lookup.
  change (g_one r !! 1) with (Some (RNode [0] (λ p, if decide (p = 0) then r else None))).
  cbn [fmap option_fmap option_map base ops foldl visit]. rewrite decide_True by done. cbn [mbind option_bind].
  unfold round. cbn [ops jac foldl add_forward mbind option_bind]. rewrite !decide_True by done. done.
Qed.
Lemma one_first n blank r d s :
  answer blank (S n) (flag (g_one r) d s) 0 [] top 1 =
  res ← conclude (option_list r); convert blank (FNode (RNode [0] (λ p, if decide (p = 0) then r else None)) (d 1) (s 1)) res.
Proof. unfold answer, after. simpl foldl. rewrite one_round by done. by destruct (conclude _). Qed.
Lemma one_second n blank r d s res : conclude (option_list r) = Some res →
  answer blank (S n) (flag (g_one r) d s) 0 [Ask top 1] top 1 = Some res.
Proof.
  intros E. unfold answer, after. cbn [foldl happen]. rewrite (one_round n blank r d s ∅) by done. rewrite E. cbn [fst fdr].
  by rewrite lookup_insert.
Qed.

Definition ones : rep := Arr (full [2; 2] 1%R).
Lemma ones_conclude : conclude [ones] = Some (Some ones).
Proof.
  unfold conclude. cbn [dsum mbind option_bind]. unfold finish. simpl as_array. cbv match. rewrite decide_False; [done|].
  unfold nonzeros. simpl. destruct (Req_EM_T 1 0) as [H|_]; [lra|]. simpl. unfold asize. simpl. lia.
Qed.

(** sp(ChHandle(x)), the handle made sparse. *)
Definition g_under : rgraph :=
  <[0 := RNode [] nojac]> (<[1 := RNode [0] (jac1 0 (Num 1))]> {[2 := RNode [1] (jac1 1 sp_id)]}).
Lemma under_sound : sound_graph g_under.
Proof.
  split.
  - intros o nd H. graph_cases g_under H; simpl.
    + split; [constructor|]. intros p Hp. by apply elem_of_nil in Hp.
    + split; [repeat constructor; set_solver|]. intros p Hp. apply elem_of_list_singleton in Hp as ->. by eexists.
    + split; [repeat constructor; set_solver|]. intros p Hp. apply elem_of_list_singleton in Hp as ->. by eexists.
  - exists (λ o, o). intros o nd p H Hp. graph_cases g_under H; simpl in Hp; set_unfold; lia.
Qed.
Lemma under_chain : chain_rule g_under (λ _, 2) 0 (λ _ _, mscal 1) (λ _, mscal 1).
Proof.
  split; [by intros ? ? ? ?|]. intros o nd H Hne i j Hi Hj. graph_cases g_under H; [done|..]; simpl;
  rewrite (mmult_scal_l 2 2 1) by (done || by intros ? ? ? ?); ring.
Qed.
Lemma under_fine : fine g_under (λ _, 2) 0 (λ _ _, mscal 1).
Proof.
  apply no_operators_fine. intros o. destruct (decide (o = 1)) as [->|Hne].
  - right. exists (RNode [0] (jac1 0 (Num 1))), 0, (Num 1), 1%R. split_and!; try done.
    + by left.
    + intros q Hq. simpl. unfold jac1. by rewrite decide_False.
    + intros q Hq Hne. by apply elem_of_list_singleton in Hq.
  - left. intros nd H. graph_cases g_under H; [|done|].
    + split; [done|]. intros p Hp. by apply elem_of_nil in Hp.
    + split; [intros p Hp; simpl; unfold jac1; rewrite decide_False by (simpl in Hp; set_solver); done|].
      intros p Hp. apply elem_of_list_singleton in Hp as ->. split; [|done]. left. by split_and!; try intros ? ? ? ?.
Qed.
Lemma under_linked o nd : flag g_under off at1 !! o = Some nd → sparse nd = true → linked g_under 0 o.
Proof.
  rewrite flag_lookup. destruct (g_under !! o); [|done]. intros [= <-]. simpl. intros Hs. apply bool_decide_eq_true in Hs as ->.
  eapply linked_here; [done|]. by eexists.
Qed.
Lemma under_alias : ¬ alias g_under (λ _, 2) 0 (λ _ _, mscal 1) 2.
Proof.
  intros H. inversion H as [|o p nd Hne (nd' & q & x & c & Ho & Eo & Ej & Hout & _ & Hx & _) Ho' Hp _]; subst.
  injection Ho as <-. apply elem_of_list_singleton in Eo as ->. simpl in Ej. injection Ej as <-. done.
Qed.
Lemma under_raises n blank par : answer blank n (flag g_under off at1) 0 [] par 2 = None.
Proof.
  unfold answer, after. simpl foldl. destruct n as [|n]; [done|]. cbn [fdr]. rewrite lookup_empty, flag_lookup.
  change (g_under !! 2) with (Some (RNode [1] (jac1 1 sp_id))). cbn [fmap option_fmap option_map base ops foldl visit].
  rewrite decide_False by done.
  destruct n as [|n]; [done|]. cbn [fdr]. rewrite lookup_empty, flag_lookup.
  change (g_under !! 1) with (Some (RNode [0] (jac1 0 (Num 1)))). cbn [fmap option_fmap option_map base ops foldl visit].
  rewrite decide_True by done. cbn [mbind option_bind].
  change (round 0 (RNode [0] (jac1 0 (Num 1))) (λ p, (∅ : gmap nat (option rep)) !! p)) with (conclude [Num 1]).
  unfold conclude. cbn [dsum mbind option_bind]. destruct (finish_num (Num 1) 1 eq_refl ltac:(lra)) as (a & -> & Sa & _).
  cbn [mbind option_bind]. unfold convert. simpl. unfold to_sparse. rewrite Sa. simpl.
  unfold round. simpl. done.
Qed.
Lemma under_returns : ∃ res, returns g_under 2 0 res.
Proof.
  apply (any_returns g_under (λ _, 2) 0 (λ _ _, mscal 1) (λ _, mscal 1) under_sound under_chain 2 under_fine); [by eexists|done|].
  intros o nd _. left. lia.
Qed.
Lemma sp_id_is : is_mat sp_id 2 2 (mscal 1).
Proof. split_and!; by try intros ? ? ? ?. Qed.
Lemma ones_is : is_mat ones 2 2 (λ _ _, 1%R).
Proof. by split. Qed.
Lemma mzero_is : meq 2 2 mzero mzero.
Proof. by intros ? ? ? ?. Qed.
Lemma ones_no_number c : ¬ is_num ones c.
Proof. intros (H & _). done. Qed.
Lemma op_no_number c : ¬ is_num op_id c.
Proof. intros []. Qed.
