(** Reordering views over real arrays: local Jacobians, chains of views, reading and
    writing through them. *)
From Coq Require Import Reals Lra.
From stdpp Require Import gmap strings list list_numbers numbers relations.
From Verif Require Import EngineModel EngineSpec EngineEval EngineInv EngineHist EngineThms GraphSpec RevModel RevSpec RevThms
  ArrModel Curve ArrThms AdSpec AdThms AdHist ElemModel ElemSpec ElemThms ReorderModel ReorderSpec ReorderThms ReorderCache IndexThms
  NpModel NpSpec NpThms ReorderOps ViewSpec NpDemo.

(* ------------------------------------------------------------------ *)
(** Operations with one operand. *)
Lemma one_op_right p tms q a J (f : arr R → arr R) : np_jac p tms [a] [true] = Some (Some J) →
  (∀ x, sh x = sh a → np_r p tms [x] = Some (f x)) → diff1 f J a → op_right p tms [q] [a].
Proof.
  intros HJ Hf Hd. exists (λ _, Some J). split.
  - intros r Hr. apply elem_of_list_singleton in Hr as ->. change ((λ r, bool_decide (r = q)) <$> [q]) with [bool_decide (q = q)].
    by rewrite bool_decide_eq_true_2.
  - intros rho V Ha Hm. simpl in Ha. injection Ha as Ha. specialize (Hm q (elem_of_list_here _ _)).
    exists (λ t, f (rho q t)). split.
    + eapply near_mono; [|exact (amoves_shape _ _ Hm)]. intros t Ht. simpl. apply Hf. by rewrite Ht, Ha.
    + change (remove_dups [q]) with (if decide_rel elem_of q [] then [] else [q]).
      destruct (decide_rel elem_of q []) as [Hc|_]; [by apply elem_of_nil in Hc|].
      eapply amoves_ext; [|apply (Hd (rho q) (V q) Ha Hm)]. intros i. simpl. ring.
Qed.
Lemma fine_one (g : graph) x c p k q a J (f : arr R → arr R) : g !! x = Some c → c_cls nplib c = NOp p →
  c_dt nplib c = np_dt p → c_tm nplib c = np_tm p → np_dt p = [k] → c_attr nplib c !! k = Some (@ARef nplib q) →
  denotes nplib g q QR a → np_jac p (terms_of p (plain nplib c)) [a] [true] = Some (Some J) →
  (∀ y, sh y = sh a → np_r p (terms_of p (plain nplib c)) [y] = Some (f y)) → diff1 f J a → fine_at g x.
Proof.
  intros Hc Hcls Hdt Htm Hk Ha Hden HJ Hf Hd. exists c. split; [done|]. rewrite Hcls. split_and!; [done..|].
  exists [q], [a]. rewrite Hk. split_and!; [by repeat constructor|by repeat constructor|apply NoDup_singleton|by eapply one_op_right|].
  intros r Hr. apply elem_of_list_singleton in Hr as ->. change ((λ r, bool_decide (r = q)) <$> [q]) with [bool_decide (q = q)].
  rewrite bool_decide_eq_true_2 by done. rewrite HJ. done.
Qed.

(* ------------------------------------------------------------------ *)
(** One view. *)
Lemma replicate_seq {A} n (x : A) : replicate n x = (λ _, x) <$> seq 0 n.
Proof. generalize 0. induction n as [|n IH]; intros k; [done|]. simpl. f_equal. apply IH. Qed.
Lemma view_class_wf p tms s : view_class p tms s → np_dt p = ["a"%string] ∧ np_perm p = true.
Proof. intros [->|[->|(c & r & -> & _)]]; done. Qed.
Lemma view_step p tms a b : view_class p tms (sh a) → np_r p tms [a] = Some b → ∃ col J,
  (∀ x, sh x = sh a → ∃ y, np_r p tms [x] = Some y ∧ sh y = sh b ∧ ∀ i, i < asize b → col i < asize a ∧ dat y i = dat x (col i)) ∧
  np_jac p tms [a] [true] = Some (Some J) ∧ rows_are J (asize b) (asize a) col (λ _, 1%R).
Proof.
  intros [->|[->|(c & r & -> & Hr & Hf)]] Hb.
  - exists (λ i, i), (reshape_jac a). simpl in Hb |- *. destruct tms as [|[[| |ns]|] [|]]; try done.
    destruct (reshaped_value _ _ _ Hb) as [Hs Hv]. split_and!; [|done|].
    + intros x Hx. unfold reshaped in *. apply fmap_Some in Hb as (s & Hfs & ->). unfold asize in Hfs. rewrite <- Hx in Hfs.
      unfold asize at 1. rewrite Hfs. eexists. split; [done|]. split; [done|]. intros i Hi. unfold asize in *. simpl in *. split; [lia|done].
    + rewrite Hs. split; [|].
      * pose proof (diags_fits (replicate (asize a) 1%R)) as H. by rewrite replicate_length in H.
      * unfold reshape_jac, diags, coo. cbn [trip]. rewrite replicate_length, replicate_seq.
        rewrite <- (list_fmap_id (seq 0 (asize a))) at 1 2. by rewrite !zip_fmap_same.
  - simpl in Hb |- *. destruct tms as [|[[|idxs|]|] [|pref [|]]]; try done; try (by destruct pref as [[]|]).
    assert (Hsel : ∃ ps, (∀ x, match pref with Some (NInts s) => select idxs (Some s) x | None => select idxs None x | _ => None end = select idxs ps x) ∧ select idxs ps a = Some b).
    { destruct pref as [[|s|]|]; try done; eauto. }
    destruct Hsel as (ps & Heq & Hb'). exists (λ i, nth i idxs 0), (select_jac idxs (asize a)).
    destruct (select_value _ _ _ _ Hb') as (Hsh & Hs & HF & Hv). destruct (select_right _ _ _ _ Hb') as [Hrows _].
    split_and!; [|done|done]. intros x Hx.
    destruct (select idxs ps x) as [y|] eqn:Ey; [|apply (select_sh _ _ a x Hx) in Ey; congruence].
    destruct (select_value _ _ _ _ Ey) as (Hsy & Hsz & HFx & Hvx). exists y. split_and!; [by rewrite <- Ey, <- Heq|congruence|].
    intros i Hi. rewrite Hs in Hi. split; [|by apply Hvx]. rewrite list.Forall_forall in HF. by apply HF, nth_in.
  - simpl in Hb |- *. rewrite Hr in *. simpl in *. unfold reorder in Hb. apply fmap_Some in Hb as (p & Hp & ->).
    destruct (plan_jac r a p Hp) as (J & HJ & Hrows); [done|]. exists (plan_col p (sh a)), J.
    split_and!; [|by rewrite HJ|done]. intros x Hx. unfold reorder. rewrite Hx, Hp. simpl. eexists. split; [done|]. split; [done|].
    intros i Hi. destruct (not_fills_some r (sh a) p i Hp Hf Hi) as (jx & E & Hin & _). unfold plan_col. simpl. rewrite E.
    split; [by apply ravel_lt|]. unfold at_. by rewrite Hx.
Qed.
Lemma view_diff p tms a b : view_class p tms (sh a) → np_r p tms [a] = Some b → ∃ J,
  np_jac p tms [a] [true] = Some (Some J) ∧ (∀ x, sh x = sh a → ∃ y, np_r p tms [x] = Some y) ∧
  diff1 (λ x, default x (np_r p tms [x])) J a.
Proof.
  intros Hc Hb. destruct (view_step p tms a b Hc Hb) as (col & J & Hx & HJ & Hrows). exists J. split_and!; [done| |].
  - intros x E. destruct (Hx x E) as (y & Hy & _). eauto.
  - eapply takes_diff; [|done|exact Hrows]. intros x E. destruct (Hx x E) as (y & -> & Hs & Hd). simpl. split; [done|exact Hd].
Qed.
Lemma denotes_one (g : graph) x c p k q a b : g !! x = Some c → c_cls nplib c = NOp p → np_dt p = [k] →
  c_attr nplib c !! k = Some (@ARef nplib q) → denotes nplib g q QR a → denotes nplib g x QR b →
  ∃ b0, np_r p (terms_of p (plain nplib c)) [a] = Some b0 ∧ b = atleast_1d b0.
Proof.
  intros Hc Hcls Hdt Ha Hq [n Hn]. destruct n as [|n]; [done|]. simpl in Hn. rewrite Hc, Hcls in Hn. simpl in Hn. rewrite Hdt in Hn.
  simpl in Hn. rewrite Ha in Hn. simpl in Hn. destruct (eval nplib n g q QR) as [a'|] eqn:E; [|done]. simpl in Hn.
  assert (a' = a) as -> by (eapply (denotes_det nplib); [by exists n|done]).
  destruct (np_r _ _ _) as [b0|]; [|done]. simpl in Hn. exists b0. split; [done|congruence].
Qed.
Lemma fine_view (g : graph) x c p q a b : g !! x = Some c → c_cls nplib c = NOp p → c_dt nplib c = np_dt p → c_tm nplib c = np_tm p →
  c_attr nplib c !! "a"%string = Some (@ARef nplib q) → denotes nplib g q QR a → denotes nplib g x QR b →
  view_class p (terms_of p (plain nplib c)) (sh a) → fine_at g x.
Proof.
  intros Hc Hcls Hdt Htm Ha Hq Hx Hv. destruct (view_class_wf _ _ _ Hv) as [Hp _].
  destruct (denotes_one _ _ _ _ _ _ _ _ Hc Hcls Hp Ha Hq Hx) as (b0 & Hb & _).
  destruct (view_diff _ _ _ _ Hv Hb) as (J & HJ & Hr & Hd).
  apply (fine_one g x c p "a"%string q a J (λ x, default x (np_r p (terms_of p (plain nplib c)) [x]))); try done.
  intros y Hy. destruct (Hr y Hy) as (z & ->). done.
Qed.

(* ------------------------------------------------------------------ *)
(** Chains. *)
Lemma mmul_range a b : in_range a → in_range b → in_range (mmul a b).
Proof.
  unfold in_range. rewrite !list.Forall_forall. intros Ha Hb e He. unfold mmul in He. cbn [trip] in He.
  apply elem_of_list_bind in He as (e1 & He & H1). apply elem_of_list_bind in He as (e2 & He & H2).
  apply elem_of_list_singleton in He as ->. apply elem_of_list_filter in H2 as [_ H2]. simpl. split; [by apply Ha|by apply Hb].
Qed.
Lemma rows_picks J n c col : rows_are J n c col (λ _, 1%R) → (∀ i, i < n → col i < c) → picks J n c col.
Proof.
  intros H Hc. split; [apply H|]. intros i Hi. split; [by apply Hc|]. intros j Hj. by rewrite (rows_entry_full _ _ _ _ _ _ _ H Hi).
Qed.
Lemma picks_mmul J K n m c f h : picks J n m f → picks K m c h → picks (mmul J K) n c (λ i, h (f i)).
Proof.
  intros HJ HK. split.
  - destruct HJ as [(HJ1 & HJ2 & HJ3) _], HK as [(HK1 & HK2 & HK3) _]. split_and!; [done|done|by apply mmul_range].
  - intros i Hi. destruct HJ as [HJ1 HJ2]. destruct (HJ2 i Hi) as [Hf _]. split; [by apply HK|].
    intros j Hj. rewrite <- mact_unit, mact_mmul. rewrite (picks_act J n m f) by done. rewrite (picks_act K m c h) by done. unfold unit_.
    destruct (decide (h (f i) = j)), (decide (j = h (f i))); congruence.
Qed.
Lemma picks_diags n : picks (diags (replicate n 1%R)) n n (λ i, i).
Proof.
  split; [pose proof (diags_fits (replicate n 1%R)) as H; by rewrite replicate_length in H|]. intros i Hi. split; [done|].
  intros j Hj. rewrite <- mact_unit, mact_diags, lookup_replicate_2 by done. unfold unit_.
  destruct (decide (i = j)), (decide (j = i)); try congruence; ring.
Qed.
Lemma views_map (g : graph) w c0 a0 o b : g !! w = Some c0 → c_cls nplib c0 = NBase → c_attr nplib c0 !! "x"%string = Some (narr a0) →
  c_dt nplib c0 = ["x"%string] → views g w o → denotes nplib g o QR b → ∃ col J,
  (∀ i, i < asize b → col i < asize a0 ∧ dat b i = dat a0 (col i)) ∧
  dr_denotes nplib g o w (Some J) ∧ picks J (asize b) (asize a0) col ∧
  ∀ x g', sh x = sh (atleast_1d a0) → denotes nplib g' w QR x → (∀ z, z ≠ w → g' !! z = g !! z) →
    ∃ y, denotes nplib g' o QR y ∧ sh y = sh b ∧ ∀ i, i < asize b → dat y i = dat x (col i).
Proof.
  intros Hw Hcw Haw Hdw Hv. 
  assert (Hnv : not_view nplib g w) by (exists c0; split; [done|by rewrite Hcw]).
  revert b. induction Hv as [|o c p q a b Hc Hcls Hdt Htm Ha Hq Ho Hcl Hne Hv IH]; intros b' Hb'.
  - pose proof (denotes_base g w c0 a0 Hw Hcw Haw) as Hd. rewrite (denotes_det nplib _ _ _ _ _ Hb' Hd).
    exists (λ i, i), (diags (replicate (asize a0) 1%R)). rewrite at1_size. split_and!; [intros i Hi; by rewrite at1_dat| |apply picks_diags|].
    + destruct Hd as [n Hn]. exists (S n). cbn [drval]. rewrite Hw.
      rewrite psliced_not_view by done. unfold pdirect. rewrite Hw, Hcw. rewrite bool_decide_eq_true_2 by done. simpl.
      change (Arr nplib) with (arr R) in *. rewrite Hn. simpl. rewrite Hdw. simpl. rewrite Haw. by rewrite at1_size.
    + intros x g' Hx Hden Hrest. exists x. done.
  - assert (b = b') as <- by exact (denotes_det nplib _ _ _ _ _ Ho Hb'). clear Hb'.
    destruct (IH a Hq) as (col & K & Hcol & HK & HKp & Hmap). destruct (view_class_wf _ _ _ Hcl) as [Hp _].
    destruct (denotes_one _ _ _ _ _ _ _ _ Hc Hcls Hp Ha Hq Ho) as (b0 & Hb & ->).
    destruct (view_step _ _ _ _ Hcl Hb) as (col' & J & Hstep & HJ & Hrows). rewrite at1_size. setoid_rewrite at1_dat.
    assert (Hcol' : ∀ i, i < asize b0 → col' i < asize a ∧ dat b0 i = dat a (col' i)).
    { destruct (Hstep a eq_refl) as (y & Hy & _ & Hd). intros i Hi. assert (Eyb : Some y = Some b0) by exact (eq_trans (eq_sym Hy) Hb). injection Eyb as ->. by apply Hd. }
    assert (HJp : picks J (asize b0) (asize a) col') by (apply rows_picks; [done|intros i Hi; by apply Hcol']).
    assert (Hdir : ∃ n, pdirect nplib n g o q = Some (Some J)).
    { destruct Hq as [n Hn]. exists n. unfold pdirect. rewrite Hc, Hcls. simpl.
      assert (Hm : matches nplib c q = ["a"%string]).
      { unfold matches. rewrite Hdt, Hp. change (filter ?P ["a"%string]) with (if decide (P "a"%string) then ["a"%string] else []).
        destruct (decide _) as [|Hno]; [done|]. destruct Hno. cbv beta. rewrite Ha. unfold is_ref. rewrite bool_decide_eq_true_2 by done. exact I. }
      rewrite Hm, Hp. simpl. rewrite Ha. change (Arr nplib) with (arr R) in *. rewrite Hn. simpl.
      change (reverse [a]) with [a]. by rewrite HJ. }
    destruct Hdir as [n Hn]. destruct (decide (q = w)) as [->|Hqw].
    + pose proof (denotes_base g w c0 a0 Hw Hcw Haw) as Hd. assert (a = atleast_1d a0) as -> by exact (denotes_det nplib _ _ _ _ _ Hq Hd). rewrite at1_size in *. setoid_rewrite at1_dat in Hcol'.
      exists col', J. split_and!; [done| |done|].
      * exists (S n). cbn [drval]. rewrite Hc. unfold psliced. rewrite Hn. rewrite Hdt, Hp. cbn [pdr_loop]. rewrite Ha.
        by rewrite decide_True by done.
      * intros x g' Hx Hden Hrest. destruct (Hstep x Hx) as (z & Hz & Hsz & Hdz). exists (atleast_1d z). split_and!; [|by apply at1_sh|].
        -- eapply (denotes_op g' o c p [w] [x]); [by rewrite Hrest|done|rewrite Hp; by repeat constructor|by repeat constructor|done].
        -- intros i Hi. rewrite at1_dat. by apply Hdz.
    + exists (λ i, col (col' i)), (mmul J K). split_and!; [| |exact (picks_mmul _ _ _ _ _ _ _ HJp HKp)|].
      { intros i Hi. destruct (Hcol' i Hi) as [Hlt ->]. by apply Hcol. }
      2: { intros x g' Hx Hden Hrest. destruct (Hmap x g' Hx Hden Hrest) as (y & Hy & Hsy & Hdy).
        destruct (Hstep y Hsy) as (z & Hz & Hsz & Hdz). exists (atleast_1d z). split_and!; [|by apply at1_sh|].
        - eapply (denotes_op g' o c p [q] [y]); [by rewrite Hrest|done|rewrite Hp; by repeat constructor|by repeat constructor|done].
        - intros i Hi. rewrite at1_dat. destruct (Hdz i Hi) as [Hlt ->]. by apply Hdy. }
      destruct HK as [m HK]. exists (S (S (n + m))). remember (S (n + m)) as N eqn:EN. cbn [drval]. rewrite Hc.
      rewrite psliced_not_view by done.
      assert (Hz : pdirect nplib N g o w = Some None).
      { unfold pdirect. rewrite Hc, Hcls. simpl.
        assert (Hm : matches nplib c w = []).
        { unfold matches. rewrite Hdt, Hp. change (filter ?P ["a"%string]) with (if decide (P "a"%string) then ["a"%string] else []).
          destruct (decide _) as [Hyes|]; [|done]. cbv beta in Hyes. rewrite Ha in Hyes. unfold is_ref in Hyes. by apply bool_decide_unpack in Hyes. }
        by rewrite Hm. }
      rewrite Hz. rewrite EN at 1. rewrite Hdt, Hp. cbn [pdr_loop]. rewrite Ha. rewrite decide_False by done.
      rewrite (drval_mono nplib m N g q w (Some K)) by (done || lia).
      unfold psliced. rewrite (pdirect_mono nplib n N g o q (Some J)) by (done || lia). done.
Qed.

(* ------------------------------------------------------------------ *)
(** Reading and writing through a view after any history. *)
Lemma base_assigned l w c0 v o' : valid nplib l → attrs l !! w = Some c0 → c_cls nplib c0 = NBase → o' ∉ dom (attrs l) →
  valid nplib (l ++ [nset w "x" (narr v) o']) ∧ denotes nplib (attrs (l ++ [nset w "x" (narr v) o'])) w QR (atleast_1d v) ∧
  ∀ z, z ≠ w → attrs (l ++ [nset w "x" (narr v) o']) !! z = attrs l !! z.
Proof.
  intros Hv Hc Hb Ho'. split_and!.
  - unfold valid. apply valid_app. split; [done|]. split; [|done]. exists c0. split_and!; try done. unfold narr; eauto.
  - eapply (denotes_base _ w (write nplib "x" (narr v) c0)); [|done|by simpl; rewrite lookup_insert].
    unfold gexec. rewrite foldl_app. fold (gexec nplib l ∅). simpl. rewrite Hc, Hb. simpl. by rewrite lookup_insert.
  - intros z Hz. unfold gexec. rewrite foldl_app. fold (gexec nplib l ∅). simpl. rewrite Hc, Hb. simpl. by rewrite lookup_insert_ne.
Qed.
Lemma view_assign l : valid nplib l → ∀ o w c0 x o' b,
  attrs l !! w = Some c0 → c_cls nplib c0 = NBase → c_attr nplib c0 !! "x"%string = Some (narr x) → o' ∉ dom (attrs l) →
  views (attrs l) w o → reads nplib (after l) o QR b → ∃ col J,
  (∀ i, i < asize b → col i < asize x ∧ dat b i = dat x (col i)) ∧
  reads_dr nplib (after l) o w (Some J) ∧ picks J (asize b) (asize x) col ∧
  ((∀ i i', i < asize b → i' < asize b → col i = col i' → i = i') → ∀ v, asize v = asize b →
    ∃ y b', setitem_view J x v = Some y ∧ sh y = sh (atleast_1d x) ∧
      reads nplib (after (l ++ [nset w "x" (narr y) o'])) o QR b' ∧ sh b' = sh b ∧ (∀ i, i < asize b → dat b' i = dat v i) ∧
      ∀ j, j < asize x → (∀ i, i < asize b → col i ≠ j) → dat y j = dat x j).
Proof.
  intros Hv o w c0 x o' b Hc Hb Ha Ho' Hviews Hr.
  apply (hist_reads nplib) in Hr; [|apply np_lib_ok|done].
  assert (Hdt : c_dt nplib c0 = ["x"%string]).
  { destruct (hist_graph_ok l np_lib_ok Hv w c0 Hc) as [Hok _]. rewrite Hb in Hok. destruct (co_base _ _ _ _ Hok eq_refl) as [? ?]. done. }
  destruct (views_map (attrs l) w c0 x o b Hc Hb Ha Hdt Hviews Hr) as (col & J & Hcol & HJ & Hp & Hmap).
  exists col, J. split_and!; [done| |done|].
  - apply (hist_reads_dr nplib); [apply np_lib_ok|done| |done]. exists c0. by rewrite Hb.
  - intros Hinj v Hsz. destruct (view_write_once J x v (asize b) col Hp Hsz Hinj) as (y & Hy & Hs & Hw & Hrest).
    destruct (base_assigned l w c0 y o' Hv Hc Hb Ho') as (Hv' & Hden & Hsame).
    rewrite at1_id in Hden by (rewrite Hs; apply at1_ne).
    destruct (Hmap y _ Hs Hden Hsame) as (b' & Hb' & Hsb & Hd). exists y, b'. split_and!; [done|done| |done| |done].
    + apply (hist_reads nplib); [apply np_lib_ok|done|done].
    + intros i Hi. rewrite Hd by done. by apply Hw.
Qed.

(* ------------------------------------------------------------------ *)
(** Reshaping a Reshape. *)
Lemma innermost_reads (g : graph) n x a ns b :
  (∀ y c p, g !! y = Some c → c_cls nplib c = NOp p → is_reshape c = true → p = op_reshape) →
  denotes nplib g x QR a → ∃ a', denotes nplib g (innermost n g x) QR a' ∧ asize a' = asize a ∧ (∀ i, dat a' i = dat a i) ∧
  (reshaped ns a = Some b → ∃ b', reshaped ns a' = Some b' ∧ sh b' = sh b ∧ ∀ i, dat b' i = dat b i).
Proof.
  intros Hcls. revert x a. induction n as [|n IH]; intros x a Hx; simpl.
  - exists a. split_and!; [done..|]. eauto.
  - destruct (g !! x) as [c|] eqn:Hc; [|exists a; split_and!; [done..|eauto]].
    destruct (is_reshape c) eqn:Hi; [|exists a; split_and!; [done..|eauto]].
    destruct (c_attr nplib c !! "a"%string) as [[|q]|] eqn:Ha; [exists a; split_and!; [done..|eauto]| |exists a; split_and!; [done..|eauto]].
    assert (Hp : c_cls nplib c = NOp op_reshape).
    { destruct (c_cls nplib c) as [|p] eqn:E; [unfold is_reshape in Hi; by rewrite E in Hi|]. by rewrite (Hcls x c p Hc E Hi). }
    assert (Hq : ∃ aq, denotes nplib g q QR aq).
    { destruct Hx as [[|m] Hm]; [done|]. simpl in Hm. rewrite Hc, Hp in Hm. simpl in Hm. rewrite Ha in Hm.
      destruct (eval nplib m g q QR) as [aq|] eqn:E; [|done]. exists aq. by exists m. }
    destruct Hq as [aq Hq]. destruct (denotes_one g x c op_reshape "a"%string q aq a Hc Hp eq_refl Ha Hq Hx) as (a1 & Hr & ->).
    cbn [np_r op_reshape] in Hr. destruct (terms_of op_reshape (plain nplib c)) as [|[[| |ns0]|] [|]]; try done. destruct (reshaped_value _ _ _ Hr) as [Hs Hd].
    destruct (IH q aq Hq) as (a' & Ha' & Hs' & Hd' & _). exists a'. split_and!; [done|rewrite at1_size; congruence|intros i; by rewrite at1_dat, Hd', Hd|].
    unfold reshaped. rewrite Hs', at1_size, Hs. intros (s & -> & ->)%fmap_Some. eexists. split; [done|]. split; [done|]. intros i. simpl. by rewrite Hd', at1_dat, Hd.
Qed.
Lemma innermost_ends (g : graph) x a : (∀ y c p, g !! y = Some c → c_cls nplib c = NOp p → is_reshape c = true → p = op_reshape) →
  denotes nplib g x QR a → ∃ N, ∀ n c, N ≤ n → g !! innermost n g x = Some c → is_reshape c = false.
Proof.
  intros Hcls [N HN]. exists N. revert x a HN. induction N as [|N IH]; intros x a HN n c Hn Hc; [done|].
  destruct n as [|n]; [lia|]. simpl in HN, Hc. destruct (g !! x) as [cx|] eqn:Hx; [|done].
  destruct (is_reshape cx) eqn:Hi; [|congruence].
  assert (Hp : c_cls nplib cx = NOp op_reshape).
  { destruct (c_cls nplib cx) as [|p] eqn:E; [unfold is_reshape in Hi; by rewrite E in Hi|]. by rewrite (Hcls x cx p Hx E Hi). }
  rewrite Hp in HN. simpl in HN. destruct (c_attr nplib cx !! "a"%string) as [[|q]|] eqn:Ha; try done.
  destruct (eval nplib N g q QR) as [aq|] eqn:E; [|done]. eapply (IH q aq E n c); [lia|done].
Qed.
Lemma reshape_collapses (g : graph) x a :
  (∀ y c p, g !! y = Some c → c_cls nplib c = NOp p → is_reshape c = true → p = op_reshape) → denotes nplib g x QR a →
  (∀ n ns b, reshaped ns a = Some b → ∃ a' b', denotes nplib g (innermost n g x) QR a' ∧
    reshaped ns a' = Some b' ∧ sh b' = sh b ∧ ∀ i, dat b' i = dat b i) ∧
  ∃ N, ∀ n c, N ≤ n → g !! innermost n g x = Some c → is_reshape c = false.
Proof.
  intros Hcls Hx. split; [|by eapply innermost_ends]. intros n ns b Hb.
  destruct (innermost_reads g n x a ns b Hcls Hx) as (a' & Ha' & _ & _ & H). destruct (H Hb) as (b' & Hb' & Hs & Hd). eauto 10.
Qed.
Lemma view_op_right p tms q a b : view_class p tms (sh a) → np_r p tms [a] = Some b → op_right p tms [q] [a].
Proof.
  intros Hv Hb. destruct (view_diff _ _ _ _ Hv Hb) as (J & HJ & Hr & Hd).
  apply (one_op_right p tms q a J (λ x, default x (np_r p tms [x]))); [done| |done].
  intros x Hx. by destruct (Hr x Hx) as (y & ->).
Qed.
