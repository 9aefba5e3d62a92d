(** Proofs about reports. *)
From Coq Require Import Reals String Sorted Lia.
From stdpp Require Import list gmap.
From Verif Require Import ReportModel ReportSpec.

Local Definition shown (g : graph) (i : nat) (x : list nat * nat) : Prop := leads g i x.1 x.2 ∧ is_Some (o_label (g x.2)).
Local Definition good (g : graph) (d i : nat) (ls : list piece) : Prop :=
  ∃ ps, StronglySorted before (ps.*1) ∧ (∀ x, x ∈ ps ↔ shown g i x) ∧ Forall2 (figure g d) ps ls.
Lemma sorted_app {A} (R : A → A → Prop) l1 l2 : StronglySorted R l1 → StronglySorted R l2 → (∀ x y, x ∈ l1 → y ∈ l2 → R x y) → StronglySorted R (l1 ++ l2).
Proof.
  intros H1 H2 H. induction H1 as [|a l1 H1 IH Ha]; [done|]. cbn. constructor.
  - apply IH. intros x y Hx Hy. apply H; [by right|done].
  - apply Forall_app. split; [done|]. apply Forall_forall. intros y Hy. apply H; [left|done].
Qed.
Lemma sorted_map {A B} (R : A → A → Prop) (S : B → B → Prop) (f : A → B) l : (∀ x y, R x y → S (f x) (f y)) → StronglySorted R l → StronglySorted S (map f l).
Proof.
  intros H. induction 1 as [|a l H1 IH Ha]; [constructor|]. cbn. constructor; [done|]. apply Forall_forall. intros y Hy.
  apply elem_of_list_fmap in Hy as (x & -> & Hx). apply H. by apply (proj1 (Forall_forall _ _) Ha).
Qed.
Lemma parts_good g (f : nat → option (list piece)) ks : ∀ n d, (∀ k, k ∈ ks → ∃ ls, f k = Some ls ∧ good g 2 k ls) →
  ∃ lss ps, mapM f ks = Some lss ∧ StronglySorted before (ps.*1) ∧
    (∀ x, x ∈ ps ↔ ∃ m k p, x.1 = (n + m) :: p ∧ ks !! m = Some k ∧ shown g k (p, x.2)) ∧ Forall2 (figure g d) ps (concat lss).
Proof.
  induction ks as [|k ks IH]; intros n d H.
  - exists [], []. split_and!; [done|constructor| |constructor]. intros x. split; [by intros ?%elem_of_nil|]. by intros (m & k & p & _ & ? & _).
  - destruct (H k) as (ls & E & ps & S1 & M1 & F1); [left|]. destruct (IH (S n) d) as (lss & qs & E2 & S2 & M2 & F2); [intros; apply H; by right|].
    exists (ls :: lss), (map (λ x, (n :: x.1, x.2)) ps ++ qs). split_and!.
    + cbn. by rewrite E, E2.
    + rewrite fmap_app. apply sorted_app.
      * replace ((map (λ x : list nat * nat, (n :: x.1, x.2)) ps).*1) with (map (cons n) (ps.*1)).
        { eapply sorted_map; [|exact S1]. intros x y Hx. by constructor. }
        clear. induction ps as [|? ? IH]; [done|]. cbn. f_equal. apply IH.
      * done.
      * intros x y Hx Hy. apply elem_of_list_fmap in Hx as (x' & -> & Hx). apply elem_of_list_fmap in Hx as (x'' & -> & Hx).
        apply elem_of_list_fmap in Hy as (y' & -> & Hy). apply M2 in Hy as (m & k' & p & -> & _). cbn. apply before_less. lia.
    + intros x. rewrite elem_of_app, M2. split.
      * intros [Hx|(m & k' & p & E' & Hk & Hs)].
        -- apply elem_of_list_fmap in Hx as (y & -> & Hy). exists 0, k, y.1. split_and!; [cbn; f_equal; lia|done|]. apply M1 in Hy. by destruct y.
        -- exists (S m), k', p. split_and!; [rewrite E'; f_equal; lia|done|done].
      * intros (m & k' & p & E' & Hk & Hs). destruct m as [|m].
        -- left. cbn in Hk. injection Hk as <-. apply elem_of_list_fmap. exists (p, x.2). split; [|by apply M1]. destruct x as [q j]. cbn in *. rewrite E'. do 2 f_equal. lia.
        -- right. exists m, k', p. split_and!; [rewrite E'; f_equal; lia|done|done].
    + cbn. apply Forall2_app; [|done]. clear -F1. induction F1 as [|x c ps ls Hx F1 IH]; [constructor|]. cbn. constructor; [|done].
      destruct Hx as (l & Hl & ->). exists l. split; [done|]. cbn. by destruct (x.1).
Qed.
Lemma print_good g rank nl d : well_founded_by g rank → ∀ fuel i, rank i < fuel →
  ∃ ls, print_labeled_residuals fuel g nl d i = Some (ls ++ if nl then [Total d (sumsq (o_r (g i)))] else []) ∧ good g d i ls.
Proof.
  intros Hw fuel. revert nl d. induction fuel as [|fuel IH]; intros nl d i Hf; [lia|]. cbn.
  destruct (parts_good g (λ k, print_labeled_residuals fuel g false 2 k) (o_terms (g i)) 0 d) as (lss & ps & E & S1 & M1 & F1).
  { intros k Hk. pose proof (Hw i k Hk). destruct (IH false 2 k) as (ls & El & Hg); [lia|]. exists ls. split; [|done]. by rewrite app_nil_r in El. }
  rewrite E. destruct (o_label (g i)) as [l|] eqn:El.
  - eexists ([Part l d (sumsq (o_r (g i)))] ++ concat lss). split; [by rewrite <- !app_assoc|]. exists (([], i) :: ps). split_and!.
    + cbn. constructor; [done|]. apply Forall_forall. intros y Hy. apply elem_of_list_fmap in Hy as (x & -> & Hx). apply M1 in Hx as (m & k & p & -> & _). constructor.
    + intros x. rewrite elem_of_cons, M1. unfold shown. split.
      * intros [->|(m & k & p & E' & Hk & Hl & Hs)]; [split; [constructor|cbn; by rewrite El]|]. split; [|done]. rewrite E'. by econstructor.
      * intros [Hl Hs]. destruct x as [p j]. cbn in *. inversion Hl as [|? n k q ? Hk Hq]; subst; [by left|]. right. by exists n, k, q.
    + cbn. constructor; [|done]. by exists l.
  - exists (concat lss). split; [done|]. exists ps. split_and!; [done| |done].
    intros x. rewrite M1. unfold shown. split.
    + intros (m & k & p & E' & Hk & Hl & Hs). split; [|done]. rewrite E'. by econstructor.
    + intros [Hl Hs]. destruct x as [p j]. cbn in *. inversion Hl as [|? n k q ? Hk Hq]; subst; [rewrite El in Hs; by destruct Hs|]. by exists n, k, q.
Qed.
Lemma print_lines g rank d i fuel : well_founded_by g rank → rank i < fuel →
  ∃ ps ls, print_labeled_residuals fuel g true d i = Some (ls ++ [Total d (sumsq (o_r (g i)))]) ∧ StronglySorted before (ps.*1) ∧
    (∀ p j, (p, j) ∈ ps ↔ leads g i p j ∧ is_Some (o_label (g j))) ∧ Forall2 (figure g d) ps ls.
Proof. intros Hw Hf. destruct (print_good g rank true d Hw fuel i Hf) as (ls & E & ps & S1 & M1 & F1). exists ps, ls. split_and!; try done. intros p j. apply (M1 (p, j)). Qed.
Lemma before_irrefl p : ¬ before p p.
Proof. induction p as [|a p IH]; inversion 1; subst; [lia|done]. Qed.
Lemma sorted_nodup ps : StronglySorted before ps → NoDup ps.
Proof. induction 1 as [|a l H IH Ha]; constructor; [|done]. intros Hin. apply (before_irrefl a). by apply (proj1 (Forall_forall _ _) Ha). Qed.
Lemma print_once g rank d i fuel : well_founded_by g rank → rank i < fuel → (∀ p q j, leads g i p j → leads g i q j → is_Some (o_label (g j)) → p = q) →
  ∃ js ls, print_labeled_residuals fuel g true d i = Some (ls ++ [Total d (sumsq (o_r (g i)))]) ∧ NoDup js ∧
    (∀ j, j ∈ js ↔ (∃ p, leads g i p j) ∧ is_Some (o_label (g j))) ∧
    Forall2 (λ j c, ∃ l d', o_label (g j) = Some l ∧ c = Part l d' (sumsq (o_r (g j)))) js ls.
Proof.
  intros Hw Hf Hu. destruct (print_lines g rank d i fuel Hw Hf) as (ps & ls & E & S1 & M1 & F1). exists (ps.*2), ls. split_and!; [done| | |].
  - apply sorted_nodup in S1. assert (Hin : ∀ p j, (p, j) ∈ ps → leads g i p j ∧ is_Some (o_label (g j))) by (intros; by apply M1). clear M1 F1 E. induction ps as [|[p j] ps IH]; [constructor|].
    cbn in *. inversion S1; subst. constructor; [|apply IH; [done|intros; apply Hin; by right]]. intros Hj. apply elem_of_list_fmap in Hj as ([q j'] & -> & Hq). cbn in *.
    destruct (Hin p j') as [Hp Hs]; [left|]. destruct (Hin q j') as [Hq' _]; [by right|]. rewrite (Hu p q j' Hp Hq' Hs) in *. apply H1. apply elem_of_list_fmap. by exists (q, j').
  - intros j. rewrite elem_of_list_fmap. split.
    + intros ([p j'] & -> & Hp). apply M1 in Hp as [Hp Hs]. split; [by exists p|done].
    + intros [[p Hp] Hs]. exists (p, j). split; [done|]. by apply M1.
  - clear -F1. induction F1 as [|x c ps ls Hx F1 IH]; [constructor|]. cbn. constructor; [|done]. destruct Hx as (l & Hl & ->). eauto.
Qed.

(** Depth first search. *)
Fixpoint size_ind (P : entry → Prop) (HI : ∀ i, P (Indirect i)) (HF : ∀ i cs, Forall P cs → P (Full i cs)) (e : entry) : P e :=
  match e with
  | Indirect i => HI i
  | Full i cs => HF i cs ((fix go l : Forall P l := match l with [] => Forall_nil_2 P | x :: l => Forall_cons_2 P x l (size_ind P HI HF x) (go l) end) cs)
  end.
Definition agrees (g : graph) (e : entry) : Prop := ∀ i cs, within e (Full i cs) → map about cs = o_terms (g i).
Definition ok (g : graph) (M : gset nat) (es : list entry) (M' : gset nat) : Prop :=
  let ds := concat (map described es) in
  NoDup ds ∧ (∀ i, i ∈ M' ↔ i ∈ M ∨ i ∈ ds) ∧ (∀ i, i ∈ ds → i ∉ M) ∧ (∀ i k, i ∈ ds → k ∈ o_terms (g i) → k ∈ M') ∧
  Forall (agrees g) es ∧ (∀ e i, e ∈ es → within e (Indirect i) → i ∈ M') ∧ (∀ e, e ∈ es → about e ∈ M').
Lemma each_ok g f ks : (∀ k M e M', f k M = Some (e, M') → about e = k ∧ ok g M [e] M') → ∀ M es M', each f ks M = Some (es, M') → map about es = ks ∧ ok g M es M'.
Proof.
  intros Hf. induction ks as [|k ks IH]; intros M es M' E; cbn in E.
  - injection E as <- <-. split; [done|]. unfold ok. cbn. split_and!; [constructor|set_solver|set_solver|set_solver|constructor|set_solver|set_solver].
  - destruct (f k M) as [[e M1]|] eqn:E1; [|done]. destruct (each f ks M1) as [[r M2]|] eqn:E2; [|done]. injection E as <- <-.
    apply Hf in E1 as (A1 & N1 & V1 & D1 & C1 & G1 & I1 & B1). apply IH in E2 as (A2 & N2 & V2 & D2 & C2 & G2 & I2 & B2). cbn in *. rewrite app_nil_r in *. split; [by rewrite A1, A2|].
    assert (Hup : ∀ i, i ∈ M1 → i ∈ M2) by (intros i Hi; apply V2; by left).
    unfold ok. cbn. split_and!.
    + apply NoDup_app. split_and!; [done| |done]. intros i Hi Hi'. apply (D2 i Hi'). apply V1. by right.
    + intros i. rewrite elem_of_app, V2, V1. tauto.
    + intros i Hi. apply elem_of_app in Hi as [Hi|Hi]; [by apply D1|]. intros Hm. apply (D2 i Hi). apply V1. by left.
    + intros i k' Hi Hk. apply elem_of_app in Hi as [Hi|Hi]; [apply Hup; by eapply C1|by eapply C2].
    + inversion G1; subst. by constructor.
    + intros e' i He Hw. apply elem_of_cons in He as [->|He]; [|by eapply I2]. apply Hup. eapply I1; [left|done].
    + intros e' He. apply elem_of_cons in He as [->|He]; [|by apply B2]. apply Hup. apply B1. left.
Qed.
Lemma dump_ok g fuel : ∀ i M e M', dump_tree fuel g i M = Some (e, M') → about e = i ∧ ok g M [e] M'.
Proof.
  induction fuel as [|fuel IH]; intros i M e M' E; cbn in E; [done|]. destruct (decide (i ∈ M)) as [Hi|Hi].
  - injection E as <- <-. split; [done|]. unfold ok. cbn. split_and!; [constructor|set_solver|set_solver|set_solver| | |].
    + constructor; [|done]. intros j cs Hw. inversion Hw.
    + intros e j He Hw. apply elem_of_list_singleton in He as ->. by inversion Hw; subst.
    + intros e He. by apply elem_of_list_singleton in He as ->.
  - destruct (each (dump_tree fuel g) (o_terms (g i)) ({[i]} ∪ M)) as [[cs M1]|] eqn:E1; [|done]. injection E as <- <-. split; [done|].
    apply (each_ok g) in E1 as (A & N1 & V1 & D1 & C1 & G1 & I1 & B1); [|done]. assert (HiM : i ∈ M1) by (apply V1; left; set_solver).
    unfold ok. cbn. rewrite app_nil_r. split_and!.
    + constructor; [|done]. intros Hd. apply (D1 i Hd). set_solver.
    + intros j. rewrite V1, elem_of_cons. set_solver.
    + intros j Hj. apply elem_of_cons in Hj as [->|Hj]; [done|]. pose proof (D1 j Hj). set_solver.
    + intros j k Hj Hk. apply elem_of_cons in Hj as [->|Hj]; [|by eapply C1]. rewrite <- A in Hk. apply elem_of_list_fmap in Hk as (e & -> & He). by apply B1.
    + constructor; [|done]. intros j ds Hw. inversion Hw as [|? ? c ? Hc Hcw]; subst; [done|]. apply (proj1 (Forall_forall _ _) G1 c Hc j ds Hcw).
    + intros e j He Hw. apply elem_of_list_singleton in He as ->. inversion Hw as [|? ? c ? Hc Hcw]; subst. by eapply I1.
    + intros e He. by apply elem_of_list_singleton in He as ->.
Qed.
Lemma within_described e i : i ∈ described e → ∃ cs, within e (Full i cs).
Proof.
  induction e as [j|j cs IH] using size_ind; cbn; [by intros ?%elem_of_nil|]. intros [->|H]%elem_of_cons; [eexists; constructor|].
  apply elem_of_list_In, in_concat in H as (l & Hl & Hi). apply in_map_iff in Hl as (c & <- & Hc). apply elem_of_list_In in Hc, Hi.
  destruct (proj1 (Forall_forall _ _) IH c Hc Hi) as (ds & Hw). exists ds. by econstructor.
Qed.
Lemma described_within e i cs : within e (Full i cs) → i ∈ described e.
Proof.
  remember (Full i cs) as f eqn:Ef. induction 1 as [e|j ds c f Hc Hw IH]; [subst; left|]. cbn. right. apply elem_of_list_In, in_concat. exists (described c).
  split; [apply in_map_iff; exists c; by rewrite <- elem_of_list_In|]. apply elem_of_list_In. by apply IH.
Qed.
Lemma dump_tree_ends g N : objects_below g N → ∀ fuel i M, i < N → size (set_seq 0 N ∖ M : gset nat) < fuel → ∃ e M', dump_tree fuel g i M = Some (e, M') ∧ M ⊆ M'.
Proof.
  intros HN fuel. induction fuel as [|fuel IH]; intros i M Hi Hs; [lia|]. cbn. destruct (decide (i ∈ M)) as [Hm|Hm]; [by eexists _, _|].
  assert (Hlt : size (set_seq 0 N ∖ ({[i]} ∪ M) : gset nat) < fuel).
  { apply Nat.lt_le_trans with (size (set_seq 0 N ∖ M : gset nat)); [|lia]. apply subset_size. split; [set_solver|]. intros Hsub. specialize (Hsub i). rewrite !elem_of_difference, elem_of_set_seq in Hsub. set_solver by lia. }
  assert (Hk : ∀ k, k ∈ o_terms (g i) → k < N) by (intros; by eapply HN). assert (He : ∀ ks M0, (∀ k, k ∈ ks → k < N) → {[i]} ∪ M ⊆ M0 → ∃ es M', each (dump_tree fuel g) ks M0 = Some (es, M') ∧ M0 ⊆ M').
  { intros ks. induction ks as [|k ks IHk]; intros M0 Hks HM0; cbn; [by eexists _, _|].
    destruct (IH k M0) as (e & M1 & E1 & S1); [apply Hks; left| |].
    { eapply Nat.le_lt_trans; [|exact Hlt]. apply subseteq_size. set_solver. }
    rewrite E1. destruct (IHk M1) as (es & M2 & E2 & S2); [intros; apply Hks; by right|set_solver|]. rewrite E2. eexists _, _. split; [done|set_solver]. }
  destruct (He _ _ Hk (reflexivity _)) as (es & M' & E & S). rewrite E. eexists _, _. split; [done|set_solver].
Qed.
Lemma within_trans e f h : within e f → within f h → within e h.
Proof. induction 1 as [|i cs c f Hc Hw IH]; [done|]. intros Hf. econstructor; [done|]. by apply IH. Qed.
Lemma within_parent e f : within e f → e = f ∨ ∃ i cs, within e (Full i cs) ∧ f ∈ cs.
Proof.
  induction 1 as [|i cs c f Hc Hw IH]; [by left|]. right. destruct IH as [->|(j & ds & Hj & Hin)]; [exists i, cs; split; [constructor|done]|].
  exists j, ds. split; [by econstructor|done].
Qed.
Lemma leads_snoc g i p j n k : leads g i p j → o_terms (g j) !! n = Some k → leads g i (p ++ [n]) k.
Proof. induction 1 as [i|i m l p j Hm Hp IH]; intros Hn; cbn; econstructor; try done; [constructor|by apply IH]. Qed.
Lemma dump_describes g N fuel i M : objects_below g N → i < N → N < fuel → i ∉ M → ∃ e M', dump_tree fuel g i M = Some (e, M') ∧
  NoDup (described e) ∧ (∀ j, j ∈ described e ↔ clear g M i j) ∧ (∀ j cs, within e (Full j cs) → map about cs = o_terms (g j)) ∧
  (∀ j, within e (Indirect j) → j ∈ M ∨ j ∈ described e) ∧ (∀ j, j ∈ M' ↔ j ∈ M ∨ clear g M i j).
Proof.
  intros HN Hi Hf HM. destruct (dump_tree_ends g N HN fuel i M Hi) as (e & M' & E & _).
  { eapply Nat.le_lt_trans; [|exact Hf]. transitivity (size (set_seq 0 N : gset nat)); [apply subseteq_size; set_solver|]. rewrite size_set_seq. done. }
  exists e, M'. destruct (dump_ok g fuel i M e M' E) as (A & N1 & V1 & D1 & C1 & G1 & I1 & B1). cbn in *. rewrite app_nil_r in *.
  assert (Hk : ∀ j k, j ∈ described e → clear g M j k → k ∈ described e).
  { intros j k Hj Hc. induction Hc as [j Hm|j k l Hm Hk Hc IH]; [done|]. apply IH. pose proof (C1 j k Hj Hk) as Hin. apply V1 in Hin as [Hin|Hin]; [|done]. exfalso. inversion Hc; subst; contradiction. }
  assert (H0 : i ∈ described e). { assert (Hm : i ∈ M') by (rewrite <- A; apply B1; left). apply V1 in Hm. tauto. }
  assert (Hd : ∀ j, j ∈ described e → clear g M i j).
  { rewrite <- A. assert (Hx : ∀ j, j ∈ described e → j ∉ M) by done. inversion G1 as [|? ? Hg _]; subst. clear -Hx Hg. intros j Hj. 
    assert (Hgen : ∀ f, within e f → (∀ j, j ∈ described f → j ∉ M) → (∀ j, j ∈ described f → clear g M (about f) j)).
    { intros f. induction f as [l|l cs IH] using size_ind; intros Hw Hn h Hh; cbn in Hh; [by apply elem_of_nil in Hh|].
      assert (Hl : l ∉ M) by (apply Hn; left). apply elem_of_cons in Hh as [->|Hh]; [by constructor|].
      apply elem_of_list_In, in_concat in Hh as (q & Hq & Hi). apply in_map_iff in Hq as (c & <- & Hc). apply elem_of_list_In in Hc, Hi.
      eapply clear_step; [done| |eapply (proj1 (Forall_forall _ _) IH c Hc)]; [| |intros h' Hh'; apply Hn|done].
      - cbn [about]. rewrite <- (Hg l cs Hw). apply elem_of_list_fmap. by exists c.
      - eapply within_trans; [exact Hw|]. econstructor; [done|constructor].
      - cbn. right. apply elem_of_list_In, in_concat. exists (described c). split; [apply in_map_iff; exists c; by rewrite <- elem_of_list_In|by apply elem_of_list_In]. }
    apply Hgen; [constructor|done|done]. }
  assert (Hiff : ∀ j, j ∈ described e ↔ clear g M i j) by (intros j; split; [apply Hd|by apply Hk]).
  split_and!; [done|done|done| | |].
  - intros j cs. inversion G1 as [|? ? Hg _]; subst. apply Hg.
  - intros j Hj. apply V1. eapply I1; [left|done].
  - intros j. by rewrite V1, Hiff.
Qed.
Lemma clear_reach g M i j : (∀ p k, leads g i p k → k ∉ M) → clear g M i j ↔ ∃ p, leads g i p j.
Proof.
  intros H. split.
  - clear H. induction 1 as [i Hi|i k j Hi Hk Hc [p IH]]; [exists []; constructor|]. apply elem_of_list_lookup in Hk as [n Hn]. exists (n :: p). by econstructor.
  - intros [p Hp]. induction Hp as [i|i n k p j Hn Hp IH]; [constructor; apply (H []); constructor|]. eapply clear_step; [apply (H []); constructor|by eapply elem_of_list_lookup_2|].
    apply IH. intros q l Hl. apply (H (n :: q)). by econstructor.
Qed.
Lemma dump_whole g N fuel i M : objects_below g N → i < N → N < fuel → (∀ p k, leads g i p k → k ∉ M) → ∃ e M', dump_tree fuel g i M = Some (e, M') ∧
  NoDup (described e) ∧ (∀ j, j ∈ described e ↔ ∃ p, leads g i p j) ∧ (∀ j cs, within e (Full j cs) → map about cs = o_terms (g j)) ∧
  (∀ j, within e (Indirect j) → j ∈ described e).
Proof.
  intros HN Hi Hf HM. destruct (dump_describes g N fuel i M HN Hi Hf) as (e & M' & E & D1 & D2 & D3 & D4 & _); [apply (HM []); constructor|].
  assert (HD : ∀ j, j ∈ described e ↔ ∃ p, leads g i p j) by (intros j; by rewrite D2, clear_reach).
  exists e, M'. split_and!; [done..|]. intros j Hj. destruct (D4 j Hj) as [Hm|]; [|done]. exfalso.
  destruct (within_parent _ _ Hj) as [->|(k & cs & Hw & Hin)].
  - destruct fuel as [|fuel]; [lia|]. cbn in E. destruct (decide (i ∈ M)); [by apply (HM [] i); [constructor|]|]. destruct (each _ _ _) as [[? ?]|]; [|done]. by injection E.
  - destruct (proj1 (HD k)) as [p Hp]; [by eapply described_within|]. assert (Hk : j ∈ o_terms (g k)) by (rewrite <- (D3 k cs Hw); apply elem_of_list_fmap; by exists (Indirect j)).
    apply elem_of_list_lookup in Hk as [n Hn]. apply (HM (p ++ [n]) j); [|done]. eapply leads_snoc; done.
Qed.
Lemma dump_rebuild g g' N N' fuel i e M1 M2 : objects_below g N → objects_below g' N' → i < N → i < N' → N < fuel → N' < fuel →
  dump_tree fuel g i ∅ = Some (e, M1) → dump_tree fuel g' i ∅ = Some (e, M2) → ∀ p j, leads g i p j → leads g' i p j ∧ o_terms (g j) = o_terms (g' j).
Proof.
  intros H H' Hi Hi' Hf Hf' E E'. destruct (dump_whole g N fuel i ∅) as (e1 & M & E1 & _ & D1 & D2 & _); [set_solver..|]. destruct (dump_whole g' N' fuel i ∅) as (e2 & M' & E2 & _ & D1' & D2' & _); [set_solver..|].
  rewrite E in E1. injection E1 as <- <-. rewrite E' in E2. injection E2 as <- <-.
  assert (Ht : ∀ j, (∃ p, leads g i p j) → o_terms (g j) = o_terms (g' j)).
  { intros j Hj. apply D1 in Hj. apply within_described in Hj as (cs & Hw). rewrite <- (D2 j cs Hw). by apply D2'. }
  intros p j Hp. split; [|apply Ht; by exists p]. revert Ht. clear -Hp. induction Hp as [i|i n k p j Hn Hp IH]; intros Ht; [constructor|].
  econstructor; [rewrite <- Ht; [done|exists []; constructor]|]. apply IH. intros l [q Hq]. apply Ht. exists (n :: q). by econstructor.
Qed.
