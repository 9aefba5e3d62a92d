(** Bounds on the work. *)
From stdpp Require Import gmap list list_numbers.
From Verif Require Import ArrModel RepModel FmtModel CostModel CostSpec.

Notation cnt l x := (count_occ Nat.eq_dec l x).

Lemma cnt_in (l : list nat) x : x ∈ l ↔ 1 ≤ cnt l x.
Proof. rewrite elem_of_list_In, (count_occ_In Nat.eq_dec). lia. Qed.
Lemma cnt_nodup (l : list nat) : NoDup l ↔ ∀ x, cnt l x ≤ 1.
Proof. rewrite NoDup_ListNoDup. apply NoDup_count_occ. Qed.
Lemma cnt_one (x o : nat) : cnt [o] x = if decide (o = x) then 1 else 0.
Proof. simpl. destruct (Nat.eq_dec o x), (decide (o = x)); congruence. Qed.

(** At most one occurrence of each, when an object comes once per occurrence of a parent. *)
Section unique.
Context (ops : nat → list nat) (rank : nat → nat) (r : nat) (l : list nat) (P : nat → Prop).
Hypothesis Hrank : ranked ops rank.
Hypothesis Honce : ∀ x o, x ∈ l → cnt (ops x) o ≤ 1.
Hypothesis Hin : ∀ x, x ∈ l → rank x ≤ rank r.
Hypothesis Hshare : ∀ x, cnt l x ≤ 1 ∨ ∀ p q, x ∈ ops p → x ∈ ops q → p = q.
Hypothesis Hcnt : ∀ x, cnt l x ≤ cnt [r] x + cnt (flat_map ops l) x.

Lemma flat_unique k x p : (∀ q, x ∈ ops q → q = p) → (∀ y, y ∈ k → y ∈ l) → cnt (flat_map ops k) x ≤ cnt k p.
Proof.
  intros Hp. induction k as [|y k IH]; intros Hk; [done|]. cbn [flat_map]. rewrite count_occ_app.
  specialize (IH ltac:(intros; apply Hk; by right)). change (cnt (y :: k) p) with (cnt ([y] ++ k) p). rewrite count_occ_app, cnt_one.
  destruct (decide (y = p)) as [->|Hy]; [pose proof (Honce p x (Hk p ltac:(left))); lia|].
  destruct (decide (x ∈ ops y)) as [Hx|Hx]; [by apply Hp in Hx|]. rewrite cnt_in in Hx. lia.
Qed.
Lemma flat_in k x : x ∈ flat_map ops k → ∃ y, y ∈ k ∧ x ∈ ops y.
Proof. rewrite elem_of_list_In, in_flat_map. setoid_rewrite <- elem_of_list_In. done. Qed.
Lemma root_once : cnt (flat_map ops l) r = 0.
Proof.
  destruct (decide (r ∈ flat_map ops l)) as [H|H]; [|rewrite cnt_in in H; lia].
  apply flat_in in H as (y & Hy & Hr). apply Hin in Hy. apply Hrank in Hr. lia.
Qed.
Lemma all_once : NoDup l.
Proof.
  apply cnt_nodup.
  assert (H : ∀ d x, rank r - rank x < d → cnt l x ≤ 1); [|intros x; by apply (H (S (rank r - rank x))); lia].
  induction d as [|d IH]; intros x Hd; [lia|]. destruct (Hshare x) as [|Hp]; [done|].
  specialize (Hcnt x). rewrite cnt_one in Hcnt. destruct (decide (r = x)) as [<-|Hrx].
  - pose proof root_once. lia.
  - destruct (decide (x ∈ flat_map ops l)) as [H|H]; [|rewrite cnt_in in H; lia].
    apply flat_in in H as (p & Hpl & Hx).
    pose proof (flat_unique l x p (λ q Hq, Hp q p Hq Hx) (λ y Hy, Hy)) as Hu.
    assert (cnt l p ≤ 1); [|lia]. apply IH. pose proof (Hrank p x Hx). pose proof (Hin p Hpl). lia.
Qed.
End unique.

Section work.
Context (ops : nat → list nat) (par : nat → nat) (w : nat) (rank : nat → nat).
Hypothesis Hrank : ranked ops rank.

Record did (c : gset nat) (o : nat) (c' : gset nat) (l : list nat) : Prop := Did {
  d_sub : c ⊆ c';
  d_new : ∀ x, x ∈ l → x ∉ c;
  d_kept : ∀ x, x ∈ l → par x ≠ 1 → x ∈ c';
  d_many : ∀ x, par x ≠ 1 → cnt l x ≤ 1;
  d_below : ∀ x, x ∈ l → below ops o x ∧ rank x ≤ rank o;
  d_cnt : ∀ x, cnt l x ≤ cnt [o] x + cnt (flat_map ops l) x;
}.
Lemma below_trans a b x : below ops a b → below ops b x → below ops a x.
Proof. intros Hab H. induction H; [done|]. by eapply below_op. Qed.

Lemma ask_none f ps : foldl (ask w f) None ps = None.
Proof. by induction ps. Qed.
Lemma work_did n : ∀ c o c' l, work n ops par w c o = Some (c', l) → did c o c' l.
Proof.
  induction n as [|n IH]; intros c o c' l; [done|]. cbn [work].
  destruct (decide (o ∈ c)) as [Ho|Ho].
  { intros [= <- <-]. split; try done; try (by intros x Hx%elem_of_nil); intros x; simpl; lia. }
  assert (Hfold : ∀ ps dn c1 l1 c2 l2, (∀ p, p ∈ dn ++ ps → p ∈ ops o) →
    c ⊆ c1 → (∀ x, x ∈ l1 → x ∉ c) → (∀ x, x ∈ l1 → par x ≠ 1 → x ∈ c1) → (∀ x, par x ≠ 1 → cnt l1 x ≤ 1) →
    (∀ x, x ∈ l1 → below ops o x ∧ rank x < rank o) → (∀ x, cnt l1 x ≤ cnt dn x + cnt (flat_map ops l1) x) →
    foldl (ask w (work n ops par w)) (Some (c1, l1)) ps = Some (c2, l2) →
    c ⊆ c2 ∧ (∀ x, x ∈ l2 → x ∉ c) ∧ (∀ x, x ∈ l2 → par x ≠ 1 → x ∈ c2) ∧ (∀ x, par x ≠ 1 → cnt l2 x ≤ 1) ∧
    (∀ x, x ∈ l2 → below ops o x ∧ rank x < rank o) ∧ (∀ x, cnt l2 x ≤ cnt (dn ++ ps) x + cnt (flat_map ops l2) x)).
  { induction ps as [|p ps IHp]; intros dn c1 l1 c2 l2 Hps H1 H2 H3 H4 H5 H6; cbn [foldl].
    - intros [= <- <-]. rewrite app_nil_r. by split_and!.
    - destruct (ask w (work n ops par w) (Some (c1, l1)) p) as [[c3 l3]|] eqn:E; [|by rewrite ask_none].
      intros Hf. replace (dn ++ p :: ps) with ((dn ++ [p]) ++ ps) in * by (by rewrite <- app_assoc).
      apply (IHp (dn ++ [p]) c3 l3 c2 l2); try done.
      all: unfold ask in E; simpl in E; destruct (decide (p = w)) as [Hw|Hw].
      all: try (injection E as <- <-; try done).
      + destruct (work n ops par w c1 p) as [[c4 l4]|] eqn:Ew; [|done]. injection E as <- <-. destruct (IH _ _ _ _ Ew) as [D1 _ _ _ _ _]. by transitivity c1.
      + destruct (work n ops par w c1 p) as [[c4 l4]|] eqn:Ew; [|done]. injection E as <- <-. destruct (IH _ _ _ _ Ew) as [D1 D2 _ _ _ _].
        intros x [Hx|Hx]%elem_of_app; [by apply H2|]. intros Hc. by apply (D2 x Hx), H1.
      + destruct (work n ops par w c1 p) as [[c4 l4]|] eqn:Ew; [|done]. injection E as <- <-. destruct (IH _ _ _ _ Ew) as [D1 _ D3 _ _ _].
        intros x [Hx|Hx]%elem_of_app Hpar; [|by apply D3]. by apply D1, H3.
      + destruct (work n ops par w c1 p) as [[c4 l4]|] eqn:Ew; [|done]. injection E as <- <-. destruct (IH _ _ _ _ Ew) as [_ D2 _ D4 _ _].
        intros x Hpar. rewrite count_occ_app. specialize (H4 x Hpar). specialize (D4 x Hpar).
        destruct (decide (x ∈ l1)) as [Hx|Hx]; [|rewrite cnt_in in Hx; lia].
        specialize (H3 x Hx Hpar). destruct (decide (x ∈ l4)) as [Hx'|Hx']; [by specialize (D2 x Hx')|]. rewrite cnt_in in Hx'. lia.
      + destruct (work n ops par w c1 p) as [[c4 l4]|] eqn:Ew; [|done]. injection E as <- <-. destruct (IH _ _ _ _ Ew) as [_ _ _ _ D5 _].
        intros x [Hx|Hx]%elem_of_app; [by apply H5|]. destruct (D5 x Hx) as [Hb Hr].
        assert (Hp : p ∈ ops o) by (apply Hps; rewrite !elem_of_app; left; right; by left). pose proof (Hrank o p Hp). split; [|lia].
        eapply below_trans; [|done]. eapply below_op; [constructor|done].
      + intros x. rewrite count_occ_app. specialize (H6 x). lia.
      + destruct (work n ops par w c1 p) as [[c4 l4]|] eqn:Ew; [|done]. injection E as <- <-. destruct (IH _ _ _ _ Ew) as [_ _ _ _ _ D6].
        intros x. rewrite flat_map_app, !count_occ_app. specialize (H6 x). specialize (D6 x). lia. }
  destruct (foldl _ _ _) as [[c1 l1]|] eqn:Ef; [|done]. simpl. intros [= <- <-].
  destruct (Hfold (ops o) [] c [] c1 l1) as (F1 & F2 & F3 & F4 & F5 & F6); try done; try (by intros x Hx%elem_of_nil).
  { intros x _. simpl. lia. }
  assert (Hol : o ∉ l1) by (intros H; apply F5 in H as [_ H]; lia).
  split.
  - destruct (decide _); [done|]. by apply union_subseteq_r'.
  - intros x [Hx|Hx]%elem_of_app; [by apply F2|]. by apply elem_of_list_singleton in Hx as ->.
  - intros x [Hx|Hx]%elem_of_app Hpar; [specialize (F3 x Hx Hpar); destruct (decide _); [done|]; apply elem_of_union; by right|].
    apply elem_of_list_singleton in Hx as ->. rewrite decide_False by done. apply elem_of_union; left. by apply elem_of_singleton.
  - intros x Hpar. rewrite count_occ_app, cnt_one. destruct (decide (o = x)) as [<-|]; [|specialize (F4 x Hpar); lia].
    rewrite cnt_in in Hol. lia.
  - intros x [Hx|Hx]%elem_of_app; [destruct (F5 x Hx); split; [done|lia]|].
    apply elem_of_list_singleton in Hx as ->. split; [constructor|done].
  - intros x. rewrite flat_map_app, !count_occ_app. specialize (F6 x). cbn [app flat_map] in *. rewrite app_nil_r. lia.
Qed.

Lemma work_once n c o c' l : parents_are ops par → operands_once ops → work n ops par w c o = Some (c', l) →
  NoDup l ∧ (∀ x, x ∈ l → below ops o x ∧ x ∉ c).
Proof.
  intros Hpar Hops Hw. destruct (work_did _ _ _ _ _ Hw) as [D1 D2 D3 D4 D5 D6]. split.
  - apply (all_once ops rank o l); [done| |by intros x Hx; apply D5| |done].
    + intros x y _. by apply cnt_nodup, Hops.
    + intros x. destruct (decide (par x = 1)) as [H|H]; [right|left; by apply D4].
      destruct (Hpar x) as (ps & _ & Hl & Hps). rewrite H in Hl. destruct ps as [|a [|b ps]]; try done.
      intros p q Hp%Hps Hq%Hps. apply elem_of_list_singleton in Hp, Hq. congruence.
  - intros x Hx. split; [by apply D5|by apply D2].
Qed.
Lemma work_total n : ∀ c o, rank o < n → is_Some (work n ops par w c o).
Proof.
  induction n as [|n IH]; intros c o Hn; [lia|]. cbn [work]. destruct (decide _); [by eexists|].
  assert (H : ∀ ps a, (∀ p, p ∈ ps → p ∈ ops o) → is_Some (foldl (ask w (work n ops par w)) (Some a) ps)).
  { induction ps as [|p ps IHp]; intros [c1 l1] Hps; [by eexists|]. cbn [foldl]. unfold ask at 2. simpl.
    destruct (decide (p = w)); [apply IHp; set_solver|].
    destruct (IH c1 p) as [[c2 l2] ->]; [pose proof (Hrank o p ltac:(set_solver)); lia|]. apply IHp. set_solver. }
  destruct (H (ops o) (c, [])) as [[c1 l1] ->]; [done|]. by eexists.
Qed.
Lemma work_again n c o c' l m : par o ≠ 1 → work n ops par w c o = Some (c', l) → work (S m) ops par w c' o = Some (c', []).
Proof.
  intros Hp Hw. assert (Ho : o ∈ c').
  { destruct n as [|n]; [done|]. cbn [work] in Hw. destruct (decide (o ∈ c)); [by injection Hw as <- <-|].
    destruct (foldl _ _ _) as [[c1 l1]|]; [|done]. injection Hw as <- <-. rewrite decide_False by done. set_solver. }
  cbn [work]. by rewrite decide_True.
Qed.
End work.

(** Functions that keep nothing. *)
Section walk.
Context (use : nat → list nat) (rank : nat → nat).
Hypothesis Hrank : ranked use rank.
Lemma walk_props n : ∀ o l, walk n use o = Some l →
  (∀ x, x ∈ l → below use o x ∧ rank x ≤ rank o) ∧ (∀ x, cnt l x ≤ cnt [o] x + cnt (flat_map use l) x).
Proof.
  induction n as [|n IH]; intros o l; [done|]. cbn [walk]. destruct (mapM _ _) as [ls|] eqn:E; [|done]. simpl. intros [= <-].
  apply mapM_Some_1 in E.
  assert (H : ∀ ps, (∀ p, p ∈ ps → p ∈ use o) → ∀ ls, Forall2 (λ p l, walk n use p = Some l) ps ls →
    (∀ x, x ∈ concat ls → below use o x ∧ rank x ≤ rank o) ∧ (∀ x, cnt (concat ls) x ≤ cnt ps x + cnt (flat_map use (concat ls)) x)).
  { intros ps Hps ls'. induction 1 as [|p l ps ls' Hp _ IHp].
    - split; [by intros x Hx%elem_of_nil|]. intros x. simpl. lia.
    - cbn [concat]. destruct (IH p l Hp) as [H1 H2]. destruct IHp as [H3 H4]; [set_solver|].
      assert (Hpo : p ∈ use o) by set_solver. split.
      + intros x [Hx|Hx]%elem_of_app; [|by apply H3]. destruct (H1 x Hx) as [Hb Hr]. pose proof (Hrank o p Hpo). split; [|lia].
        eapply below_trans; [|done]. eapply below_op; [constructor|done].
      + intros x. rewrite flat_map_app, !count_occ_app. specialize (H2 x). specialize (H4 x).
        change (cnt (p :: ps) x) with (cnt ([p] ++ ps) x). rewrite count_occ_app. lia. }
  destruct (H (use o) (λ p Hp, Hp) ls E) as [H1 H2]. split.
  - intros x [->|Hx]%elem_of_cons; [split; [constructor|done]|by apply H1].
  - intros x. change (o :: concat ls) with ([o] ++ concat ls). rewrite flat_map_app, !count_occ_app. specialize (H2 x).
    assert (E1 : flat_map use [o] = use o) by (cbn [flat_map]; apply app_nil_r). rewrite E1. cbn [count_occ]. destruct (Nat.eq_dec o x); lia.
Qed.
Lemma walk_once n o l : tree use → operands_once use → walk n use o = Some l → NoDup l.
Proof.
  intros Ht Hops Hw. destruct (walk_props n o l Hw) as [H1 H2].
  apply (all_once use rank o l); [done| |by intros x Hx; apply H1| |done].
  - intros x y _. by apply cnt_nodup, Hops.
  - intros x. right. intros p q Hp Hq. by apply (Ht x).
Qed.
End walk.
Lemma below_more (use ops : nat → list nat) o x : (∀ o, use o ⊆ ops o) → below use o x → below ops o x.
Proof. intros Hs. induction 1 as [|a b H IH Hb]; [constructor|]. eapply below_op; [done|]. by apply Hs. Qed.
