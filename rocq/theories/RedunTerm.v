(** Redundancy removal terminates: every sweep either settles a new object or operand for good, or moves
    operands from settled objects to others, which lowers a weight. *)
From stdpp Require Import gmap strings list relations sorting.
From Verif Require Import EngineModel EngineSpec EngineClear EngineEval EngineSet EngineInv EngineOps
  EngineRead EngineHist EngineThms GraphModel GraphSpec GraphThms RevSpec RedunModel RedunSpec RedunThms.

Section term.
Context (L : lib) `{EqDecision (Cls L), EqDecision (Val L)}.
Notation graph := (gmap oid (core L)).
Notation heap := (gmap oid (node L)).
Notation cores := (cores L).
Notation expr_of := (expr_of L).
Implicit Types (g : graph) (c : core L) (h : heap) (m : memo L).

(* ------------------------------------------------------------------ *)
(** Expressions that are not cut off, and their depth. *)
Fixpoint uncut (e : expr L) : Prop :=
  match e with
  | XCut _ => False
  | XVal _ _ => True
  | XObj _ _ l => (fix go (l : list (name * expr L)) : Prop :=
      match l with [] => True | x :: l' => uncut x.2 ∧ go l' end) l
  end.
Fixpoint xdepth (e : expr L) : nat :=
  match e with
  | XCut _ => 0
  | XVal _ _ => 0
  | XObj _ _ l => S ((fix go (l : list (name * expr L)) : nat :=
      match l with [] => 0 | x :: l' => xdepth x.2 `max` go l' end) l)
  end.
Lemma uncut_obj cl l : uncut (XObj L cl l) ↔ Forall (λ x, uncut x.2) l.
Proof.
  simpl. induction l as [|x l IH]; [by split; [constructor|]|]. rewrite Forall_cons. naive_solver.
Qed.
Lemma xdepth_obj cl l b : xdepth (XObj L cl l) ≤ S b ↔ Forall (λ x, xdepth x.2 ≤ b) l.
Proof.
  simpl. induction l as [|x l IH]; [by split; [constructor|lia]|]. rewrite Forall_cons, <- IH. lia.
Qed.
Lemma xdepth_in cl l x : x ∈ l → xdepth x.2 < xdepth (XObj L cl l).
Proof.
  simpl. induction l as [|y l IH]; [by intros ?%elem_of_nil|]. intros [->|Hx]%elem_of_cons; [lia|].
  specialize (IH Hx). lia.
Qed.

Lemma xdepth_le n g o : xdepth (expr_of n g o) ≤ n.
Proof.
  revert o. induction n as [|n IH]; intros o; [simpl; lia|].
  destruct (g !! o) as [c|] eqn:Hc; [|simpl; rewrite Hc; simpl; lia].
  rewrite (expr_of_S L n g o c Hc). apply xdepth_obj. apply list.Forall_forall.
  intros x ([k a] & -> & _)%elem_of_list_fmap. simpl. destruct a; simpl; [lia|apply IH].
Qed.
Lemma uncut_S n g o : uncut (expr_of n g o) → expr_of (S n) g o = expr_of n g o.
Proof.
  revert o. induction n as [|n IH]; intros o Hu; [done|].
  destruct (g !! o) as [c|] eqn:Hc; [|simpl; by rewrite Hc].
  rewrite (expr_of_S L _ g o c Hc). rewrite (expr_of_S L _ g o c Hc) in Hu |- *.
  apply uncut_obj in Hu. unfold xsid. f_equal. apply list_fmap_ext. intros i [k a] Hi. unfold prod_map. simpl.
  f_equal. destruct a as [t|p]; simpl; [done|]. apply IH.
  rewrite list.Forall_forall in Hu. apply (Hu (k, expr_of n g p)). apply elem_of_list_fmap. exists (k, ARef p).
  split; [done|]. by eapply elem_of_list_lookup_2.
Qed.

Lemma uncut_child n g o c k p : g !! o = Some c → k ∈ c_dt L c → c_attr L c !! k = Some (ARef p) →
  uncut (expr_of (S n) g o) → uncut (expr_of n g p).
Proof.
  intros Hc Hk Ha Hu. rewrite (expr_of_S L n g o c Hc) in Hu. apply uncut_obj in Hu.
  rewrite list.Forall_forall in Hu. apply (Hu (k, expr_of n g p)). apply elem_of_list_fmap. exists (k, ARef p).
  split; [done|]. apply sid_in. split; [|done]. unfold tracked. rewrite elem_of_union, elem_of_list_to_set. by left.
Qed.
Lemma xdepth_child n g o c k p : g !! o = Some c → k ∈ c_dt L c → c_attr L c !! k = Some (ARef p) →
  uncut (expr_of n g o) → uncut (expr_of n g p) → xdepth (expr_of n g p) < xdepth (expr_of n g o).
Proof.
  intros Hc Hk Ha Hu Hp. rewrite <- (uncut_S n g o Hu). rewrite (expr_of_S L n g o c Hc).
  apply (xdepth_in _ _ (k, expr_of n g p)). apply elem_of_list_fmap. exists (k, ARef p). split; [done|].
  apply sid_in. split; [|done]. unfold tracked. rewrite elem_of_union, elem_of_list_to_set. by left.
Qed.

(** Without cycles nothing is cut off at a depth of the number of objects. *)
Lemma uncut_acyclic g D : acyclic (points L g) → closed_under L g D → all_set L g D →
  ∀ o, o ∈ D → uncut (expr_of (size D) g o).
Proof.
  intros Hac Hcl Hset o Ho.
  apply (depth_ind D (points L g) (λ n x, uncut (expr_of n g x)) Hac) with (n := size D); try done.
  intros n x Hx IH. destruct (Hset x Hx) as (c & Hc & _ & Htm). rewrite (expr_of_S L n g x c Hc).
  apply uncut_obj. apply list.Forall_forall. intros y ([k a] & -> & [Hk Ha]%sid_in)%elem_of_list_fmap. simpl.
  destruct a as [t|p]; simpl; [done|]. apply IH. exists c, k. split; [done|]. split; [|done].
  unfold tracked in Hk. rewrite elem_of_union, !elem_of_list_to_set in Hk. destruct Hk as [?|Hk]; [done|].
  by destruct (Htm k p Hk).
Qed.

(* ------------------------------------------------------------------ *)
(** Sums over lists. *)
Lemma sum_change {A} `{EqDecision A} (f f' : A → nat) (l : list A) e : NoDup l → e ∈ l →
  (∀ x, x ≠ e → f' x = f x) → sum_list_with f' l + f e = sum_list_with f l + f' e.
Proof.
  intros Hnd He Hx. induction Hnd as [|y l Hy Hnd IH]; [by apply elem_of_nil in He|]. simpl.
  destruct (decide (y = e)) as [->|Hne].
  - assert (E : sum_list_with f' l = sum_list_with f l); [|lia]. clear -Hy Hx.
    induction l as [|z l IH]; [done|]. apply not_elem_of_cons in Hy as [Hz Hy]. simpl. rewrite IH by done.
    rewrite (Hx z); done.
  - apply elem_of_cons in He as [?|He]; [done|]. rewrite (Hx y) by done. specialize (IH He). lia.
Qed.

(* ------------------------------------------------------------------ *)
Section sweep.
Context (h0 : heap) (D : gset oid) (N : nat).
Hypothesis Hun : ∀ o, o ∈ D → uncut (expr_of N (cores h0) o).
Hypothesis Hset : all_set L (cores h0) D.

Definition terms_of (x : oid) : list name := match h0 !! x with Some nd => c_dt L (n_core L nd) | None => [] end.
Definition edges : gset (oid * name) := list_to_set (x ← elements D; (λ k, (x, k)) <$> terms_of x).
Lemma elem_of_edges x k : (x, k) ∈ edges ↔ x ∈ D ∧ k ∈ terms_of x.
Proof.
  unfold edges. rewrite elem_of_list_to_set, elem_of_list_bind. split.
  - intros (y & (k' & [= -> ->] & Hk)%elem_of_list_fmap & Hy). by rewrite <- elem_of_elements.
  - intros [Hx Hk]. exists x. rewrite elem_of_elements, elem_of_list_fmap. split; [|done]. by exists k.
Qed.

Definition canon h m (p : oid) : Prop := ∃ np, h !! p = Some np ∧ known L (sid L (n_core L np)) m = Some p.

Record tidy h m (X : gset oid) (E : gset (oid * name)) : Prop := {
  td_merged : merged L h0 h m;
  td_memo : ∀ s q, (s, q) ∈ m → q ∈ D;
  td_closed : ∀ o k p, o ∈ D → k ∈ terms_of o → attr_of L h o k = Some (ARef p) → p ∈ D;
  td_X : X ⊆ D;
  td_Xe : ∀ x k p, x ∈ X → k ∈ terms_of x → attr_of L h x k = Some (ARef p) → (x, k) ∈ E;
  td_E : ∀ x k, (x, k) ∈ E → x ∈ D ∧ k ∈ terms_of x ∧
    ∃ p, attr_of L h x k = Some (ARef p) ∧ p ∈ X ∧ canon h m p
}.

Lemma tidy_E h m X E : tidy h m X E → E ⊆ edges.
Proof. intros T [x k] Hin. apply elem_of_edges. by destruct (td_E _ _ _ _ T x k Hin) as (? & ? & _). Qed.

Lemma merged_node h m x nd : merged L h0 h m → h !! x = Some nd → ∃ n0, h0 !! x = Some n0 ∧
  retied L (n_core L n0) (n_core L nd).
Proof.
  intros Hm Hx. pose proof (mg_node _ _ _ _ Hm x) as F. rewrite Hx in F.
  inversion F as [n0 ? (c & -> & Hr) E0|]; subst. by exists n0.
Qed.
Lemma merged_terms h m x nd : merged L h0 h m → h !! x = Some nd → c_dt L (n_core L nd) = terms_of x.
Proof.
  intros Hm Hx. destruct (merged_node h m x nd Hm Hx) as (n0 & Hn & Hr). unfold terms_of. rewrite Hn. apply Hr.
Qed.
Lemma merged_dom h m x : merged L h0 h m → x ∈ D → ∃ nd, h !! x = Some nd ∧
  (∀ k, k ∈ terms_of x → is_Some (c_attr L (n_core L nd) !! k)) ∧
  (∀ k p, k ∈ c_tm L (n_core L nd) → c_attr L (n_core L nd) !! k ≠ Some (ARef p)).
Proof.
  intros Hm Hx. destruct (Hset x Hx) as (c0 & Hc0 & H1 & H2). apply cores_Some_inv in Hc0 as (n0 & Hn & <-).
  pose proof (mg_node _ _ _ _ Hm x) as F. rewrite Hn in F. inversion F as [? nd (c & -> & Hr) E0|]; subst.
  exists (map_core L (λ _, c) n0). split; [done|]. simpl. destruct Hr as [R1 R2 R3 R4]. split.
  - intros k. unfold terms_of. rewrite Hn. intros Hk. destruct (R4 k) as [->|(p & q & _ & ->)]; eauto.
  - intros k p. rewrite R3. intros Hk Ha. destruct (R4 k) as [Ek|(p' & q & Ek & _)].
    + rewrite Ek in Ha. by apply (H2 k p).
    + by apply (H2 k p').
Qed.
Lemma tidy_uncut h m x : merged L h0 h m → x ∈ D → uncut (expr_of N (cores h) x).
Proof. intros Hm Hx. rewrite (mg_expr _ _ _ _ Hm). by apply Hun. Qed.

(** Two settled objects with the same expression have the same semantic id. *)
Lemma settled_sid h m X E : tidy h m X E → ∀ n p q np nq, p ∈ X → q ∈ X → h !! p = Some np → h !! q = Some nq →
  twins L (cores h) p q → uncut (expr_of n (cores h) p) → sid L (n_core L np) = sid L (n_core L nq).
Proof.
  intros T n. induction n as [|n IH]; intros p q np nq Hp Hq Enp Enq Htw Hu; [done|].
  pose proof (cores_Some L _ _ _ Enp) as Cp. pose proof (cores_Some L _ _ _ Enq) as Cq.
  assert (Hl : ∀ i, prod_map (@id name) (xattr L (expr_of i (cores h))) <$> (sid L (n_core L np)).2 =
     prod_map (@id name) (xattr L (expr_of i (cores h))) <$> (sid L (n_core L nq)).2).
  { intros i. pose proof (Htw (S i)) as Hi. rewrite (expr_of_S L i _ _ _ Cp), (expr_of_S L i _ _ _ Cq) in Hi.
    unfold xsid in Hi. congruence. }
  assert (Hcl : (sid L (n_core L np)).1 = (sid L (n_core L nq)).1) by (by apply (expr_cls L 0 _ _ p q _ _ Cp Cq)).
  assert (Hll : (sid L (n_core L np)).2 = (sid L (n_core L nq)).2).
  2:{ destruct (sid L (n_core L np)), (sid L (n_core L nq)). simpl in *. congruence. }
  assert (Hlen : length (sid L (n_core L np)).2 = length (sid L (n_core L nq)).2).
  { pose proof (f_equal length (Hl 0)) as Hlen. by rewrite !fmap_length in Hlen. }
  assert (Hsp : ∀ x nx k r, x ∈ X → h !! x = Some nx → (k, ARef r) ∈ (sid L (n_core L nx)).2 →
    k ∈ c_dt L (n_core L nx) ∧ r ∈ X ∧ canon h m r ∧ c_attr L (n_core L nx) !! k = Some (ARef r)).
  { intros x nx k r Hx Enx [Hk Ha]%sid_in. destruct (merged_dom h m x (td_merged _ _ _ _ T)) as (nx' & Enx' & _ & Htm).
    { by apply (td_X _ _ _ _ T). } rewrite Enx in Enx'. injection Enx' as <-.
    assert (Hdt : k ∈ c_dt L (n_core L nx)).
    { unfold tracked in Hk. rewrite elem_of_union, !elem_of_list_to_set in Hk. destruct Hk as [?|Hk]; [done|].
      by destruct (Htm k r Hk). }
    split; [done|]. rewrite (merged_terms h m x nx (td_merged _ _ _ _ T) Enx) in Hdt.
    assert (Hat : attr_of L h x k = Some (ARef r)) by (unfold attr_of; by rewrite Enx).
    destruct (td_E _ _ _ _ T x k) as (_ & _ & r' & Er & Hr & Hc).
    { by apply (td_Xe _ _ _ _ T x k r). }
    rewrite Hat in Er. injection Er as <-. done. }
  apply list_eq_same_length with (n := length (sid L (n_core L np)).2); [done..|].
  intros i [k1 a1] [k2 a2] _ H1 H2.
  assert (HX : ∀ j, k1 = k2 ∧ xattr L (expr_of j (cores h)) a1 = xattr L (expr_of j (cores h)) a2).
  { intros j. pose proof (f_equal (.!! i) (Hl j)) as Hj. rewrite !list_lookup_fmap, H1, H2 in Hj. simpl in Hj.
    injection Hj as E1 E2. split; [exact E1|exact E2]. }
  destruct (HX 0) as [<- HX0]. f_equal. destruct a1 as [t1|p1], a2 as [t2|p2]; simpl in *; try done; [congruence|].
  apply elem_of_list_lookup_2 in H1. apply elem_of_list_lookup_2 in H2.
  destruct (Hsp p np k1 p1 Hp Enp H1) as (K1 & X1 & (n1 & En1 & Kn1) & A1).
  destruct (Hsp q nq k1 p2 Hq Enq H2) as (K2 & X2 & (n2 & En2 & Kn2) & A2).
  assert (Es : sid L (n_core L n1) = sid L (n_core L n2)).
  { apply (IH p1 p2); [done..| |].
    - intros j. apply (HX j).
    - by apply (uncut_child n (cores h) p (n_core L np) k1). }
  rewrite Es in Kn1. congruence.
Qed.

(* ------------------------------------------------------------------ *)
(** The weight of a graph: edges to settled objects, lower sources weighing more. *)
Definition rank (x : oid) : nat := xdepth (expr_of N (cores h0) x).
Definition tgt h (e : oid * name) : option oid := match attr_of L h e.1 e.2 with Some (ARef p) => Some p | _ => None end.
Definition wt (X : gset oid) h (e : oid * name) : nat :=
  match tgt h e with Some p => if decide (p ∈ X) then 2 ^ (N - rank e.1) else 0 | None => 0 end.
Definition weight (X : gset oid) h : nat := sum_list_with (wt X h) (elements edges).

Lemma rank_le x : rank x ≤ N.
Proof. apply xdepth_le. Qed.
Lemma rank_child h m o k p : merged L h0 h m → o ∈ D → p ∈ D → k ∈ terms_of o → attr_of L h o k = Some (ARef p) →
  rank p < rank o.
Proof.
  intros Hm Ho Hp Hk (nd & Hnd & Ha)%attr_of_core. unfold rank. rewrite <- !(mg_expr _ _ _ _ Hm).
  apply (xdepth_child N (cores h) o (n_core L nd) k p); [by apply cores_Some| |done|by eapply tidy_uncut..].
  by rewrite (merged_terms h m o nd Hm Hnd).
Qed.
Lemma pow_child (a b : nat) : a < b → b ≤ N → 2 * 2 ^ (N - b) ≤ 2 ^ (N - a).
Proof.
  intros Hab Hb. rewrite <- Nat.pow_succ_r'. apply Nat.pow_le_mono_r; lia.
Qed.

(** The outcome of a piece of work that started in [h], [X], [E]: something new is
    settled, or the weight went down ([b]), or nothing happened. *)
Definition grown h' m' (X : gset oid) (E : gset (oid * name)) : Prop :=
  ∃ X' E', tidy h' m' X' E' ∧ X ⊆ X' ∧ E ⊆ E' ∧ size X + size E < size X' + size E'.

Lemma grown_trans h' m' X E X' E' : X ⊆ X' → E ⊆ E' → grown h' m' X' E' → grown h' m' X E.
Proof.
  intros HX HE (X2 & E2 & T & H1 & H2 & H3). exists X2, E2. split; [done|]. split; [set_solver|]. split; [set_solver|].
  apply subseteq_size in HX, HE. lia.
Qed.
Lemma grown_edge h m X E x k : tidy h m X E → x ∈ D → k ∈ terms_of x → (x, k) ∉ E →
  (∃ p, attr_of L h x k = Some (ARef p) ∧ p ∈ X ∧ canon h m p) → grown h m X E.
Proof.
  intros T Hx Hk Hn Hp. exists X, ({[(x, k)]} ∪ E). split; [|split; [done|split; [set_solver|]]].
  - destruct T as [T1 T2 T3 T4 T5 T6]. split; try done.
    + intros x' k' p' Hx' Hk' Ha. apply elem_of_union_r. by eapply T5.
    + intros x' k' [[= -> ->]%elem_of_singleton|Hin]%elem_of_union; [done|by apply T6].
  - rewrite size_union by set_solver. rewrite size_singleton. lia.
Qed.
Lemma grown_object h m X E x : tidy h m X E → x ∈ D → x ∉ X →
  (∀ k p, k ∈ terms_of x → attr_of L h x k = Some (ARef p) → (x, k) ∈ E) → grown h m X E.
Proof.
  intros T Hx Hn Hp. exists ({[x]} ∪ X), E. split; [|split; [set_solver|split; [done|]]].
  - destruct T as [T1 T2 T3 T4 T5 T6]. split; try done.
    + set_solver.
    + intros x' k' p' [->%elem_of_singleton|Hx']%elem_of_union Hk' Ha; [by eapply Hp|by eapply T5].
    + intros x' k' Hin. destruct (T6 x' k' Hin) as (? & ? & p & ? & ? & ?). split; [done|]. split; [done|].
      exists p. split; [done|]. split; [set_solver|done].
  - rewrite size_union by set_solver. rewrite size_singleton. lia.
Qed.

Lemma known_app s m s' q p : known L s m = Some p → known L s (m ++ [(s', q)]) = Some p.
Proof. induction m as [|[s2 p2] m IH]; simpl; [done|]. by destruct (decide (s2 = s)). Qed.
Lemma known_new s m q : known L s m = None → known L s (m ++ [(s, q)]) = Some q.
Proof.
  induction m as [|[s2 p2] m IH]; simpl; [by rewrite decide_True|]. by destruct (decide (s2 = s)).
Qed.

Lemma attr_rewire h o k q x k' : h !! o = Some q.1 → attr_of L (rewire L h o k q.2) x k' =
  if decide (x = o ∧ k' = k) then Some (ARef q.2) else attr_of L h x k'.
Proof.
  intros Ho. unfold attr_of, rewire. destruct (decide (x = o)) as [->|Hne].
  - rewrite lookup_alter, Ho. simpl. destruct (decide (k' = k)) as [->|].
    + rewrite decide_True by done. by rewrite lookup_insert.
    + rewrite decide_False by naive_solver. by rewrite lookup_insert_ne.
  - rewrite lookup_alter_ne by done. by rewrite decide_False by naive_solver.
Qed.

(** One operand. *)
Lemma merge1_tidy o k p np h m h1 m1 b X E : tidy h m X E → o ∈ D → k ∈ terms_of o →
  attr_of L h o k = Some (ARef p) → h !! p = Some np → merge1 L o k p np h m = (h1, m1, b) →
  grown h1 m1 X E ∨
  (tidy h1 m1 X E ∧
    if decide (p ∈ X) then
      if b then weight X h1 + 2 ^ (N - rank o) ≤ weight X h
      else weight X h1 = weight X h ∧ (o, k) ∈ E ∧ h1 = h
    else weight X h1 ≤ weight X h + 2 ^ (N - rank o)).
Proof.
  intros T Ho Hk Ha Hp Hm1.
  pose proof (merge1_merged L h0 o k p np h m h1 m1 b (td_merged _ _ _ _ T) Ha Hp Hm1) as Hmg.
  revert Hm1. unfold merge1. destruct (known L _ m) as [q|] eqn:Hkn.
  - destruct (decide (p = q)) as [<-|Hne]; intros [= <- <- <-].
    + (* already canonical *)
      destruct (decide (p ∈ X)) as [HX|HX]; [|right; split; [done|lia]].
      destruct (decide ((o, k) ∈ E)) as [HE|HE]; [by right|]. left.
      apply (grown_edge h m X E o k); [done..|]. exists p. split; [done|]. split; [done|]. by exists np.
    + (* replaced by q *)
      pose proof (merge1_twins L h0 h m p np q (td_merged _ _ _ _ T) Hp Hkn) as Htw.
      pose proof (td_memo _ _ _ _ T _ _ (known_in L _ _ _ Hkn)) as HqD.
      destruct (attr_of_core _ _ _ _ _ Ha) as (nd & Hnd & Hat).
      assert (HoX : o ∈ X → (o, k) ∈ E) by (intros HoX; by apply (td_Xe _ _ _ _ T o k p)).
      assert (HnE : (o, k) ∉ E).
      { intros HE. destruct (td_E _ _ _ _ T o k HE) as (_ & _ & p' & Ep & _ & np' & Enp & Hc).
        rewrite Ha in Ep. injection Ep as <-. rewrite Hp in Enp. injection Enp as <-. congruence. }
      assert (HnX : o ∉ X) by (intros ?; by apply HnE, HoX).
      assert (Hattr : ∀ x k', attr_of L (rewire L h o k q) x k' =
        if decide (x = o ∧ k' = k) then Some (ARef q) else attr_of L h x k').
      { intros x k'. by apply (attr_rewire h o k (nd, q)). }
      assert (T' : tidy (rewire L h o k q) m X E).
      { split; [done|apply T| |apply T| |].
        - intros x k' r Hx Hk'. rewrite Hattr. destruct (decide _) as [[-> ->]|]; [congruence|].
          by apply (td_closed _ _ _ _ T).
        - intros x k' r Hx Hk'. rewrite Hattr. destruct (decide _) as [[-> ->]|]; [done|].
          by apply (td_Xe _ _ _ _ T).
        - intros x k' HE. destruct (td_E _ _ _ _ T x k' HE) as (H1 & H2 & r & Hr & HrX & nr & Enr & Hc).
          split; [done|]. split; [done|]. exists r. rewrite Hattr. rewrite decide_False by naive_solver.
          split; [done|]. split; [done|]. exists nr. split; [|done]. unfold rewire. rewrite lookup_alter_ne; [done|].
          naive_solver. }
      assert (Hw : weight X (rewire L h o k q) + (if decide (p ∈ X) then 2 ^ (N - rank o) else 0) =
        weight X h + (if decide (q ∈ X) then 2 ^ (N - rank o) else 0)).
      { pose proof (sum_change (wt X h) (wt X (rewire L h o k q)) (elements edges) (o, k)) as Hs.
        assert (W1 : wt X h (o, k) = if decide (p ∈ X) then 2 ^ (N - rank o) else 0).
        { unfold wt, tgt. simpl. by rewrite Ha. }
        assert (W2 : wt X (rewire L h o k q) (o, k) = if decide (q ∈ X) then 2 ^ (N - rank o) else 0).
        { unfold wt, tgt. simpl. by rewrite Hattr, decide_True. }
        rewrite W1, W2 in Hs. unfold weight. apply Hs.
        - apply NoDup_elements.
        - apply elem_of_elements, elem_of_edges. done.
        - intros [x k'] Hx. unfold wt, tgt. simpl. rewrite Hattr. rewrite decide_False; [done|]. naive_solver. }
      destruct (decide (q ∈ X)) as [HqX|HqX].
      * destruct (decide (p ∈ X)) as [HpX|HpX]; [|right; split; [done|]; lia].
        (* both settled: the new edge is settled *)
        left. apply (grown_edge _ m X E o k); [done..|]. exists q. rewrite Hattr, decide_True by done.
        split; [done|]. split; [done|].
        destruct (merged_dom _ _ q (td_merged _ _ _ _ T) HqD) as (nq & Enq & _).
        exists nq. split.
        { unfold rewire. rewrite lookup_alter_ne; [done|]. naive_solver. }
        rewrite (settled_sid h m X E T N q p nq np HqX HpX Enq Hp Htw); [done|].
        by eapply tidy_uncut; [apply T|].
      * right. split; [done|]. destruct (decide (p ∈ X)); lia.
  - (* first of its kind *)
    intros [= <- <- <-].
    assert (HpD : p ∈ D) by (by apply (td_closed _ _ _ _ T o k p)).
    assert (T' : tidy h (m ++ [(sid L (n_core L np), p)]) X E).
    { split; [done| |apply T|apply T|apply T|].
      - intros s q [Hin|[= -> ->]%elem_of_list_singleton]%elem_of_app; [by eapply (td_memo _ _ _ _ T)|done].
      - intros x k' HE. destruct (td_E _ _ _ _ T x k' HE) as (H1 & H2 & r & Hr & HrX & nr & Enr & Hc).
        split; [done|]. split; [done|]. exists r. split; [done|]. split; [done|]. exists nr. split; [done|].
        by apply known_app. }
    destruct (decide (p ∈ X)) as [HX|HX]; [|right; split; [done|lia]]. left.
    apply (grown_edge _ _ X E o k T'); [done..| |].
    + intros HE. destruct (td_E _ _ _ _ T o k HE) as (_ & _ & p' & Ep & _ & np' & Enp & Hc).
      rewrite Ha in Ep. injection Ep as <-. rewrite Hp in Enp. injection Enp as <-. congruence.
    + exists p. split; [done|]. split; [done|]. exists np. split; [done|]. by apply known_new.
Qed.

(** A visit. *)
Definition worked (o : oid) (ks : list name) (h : heap) (out : heap * memo L * option bool) (occ : bool) X E : Prop :=
  ∃ h' m' b, out = (h', m', Some (occ || b)) ∧
    (grown h' m' X E ∨
     (tidy h' m' X E ∧
       if b then weight X h' + 2 ^ (N - rank o) ≤ weight X h
       else weight X h' ≤ weight X h ∧ ∀ k p, k ∈ ks → attr_of L h' o k = Some (ARef p) → (o, k) ∈ E)).
Lemma orb_comb (a b c d : bool) : (a || b || c) || d = a || (b || c || d).
Proof. by destruct a, b, c, d. Qed.

Lemma visit_loop n o : o ∈ D →
  (∀ p h m X E, tidy h m X E → p ∈ D → uncut (expr_of n (cores h) p) →
     worked p (terms_of p) h (sweep L n p h m) false X E) →
  ∀ ks h m occ X E, tidy h m X E → (∀ k, k ∈ ks → k ∈ terms_of o) → uncut (expr_of (S n) (cores h) o) →
  worked o ks h (merge_loop L (sweep L n) o ks h m occ) occ X E.
Proof.
  intros Ho IHn. induction ks as [|k ks IH]; intros h m occ X E T Hks Hu; simpl.
  { exists h, m, false. rewrite orb_false_r. split; [done|]. right. split; [done|]. split; [done|].
    by intros k p Hk%elem_of_nil. }
  assert (Hk : k ∈ terms_of o) by (apply Hks; left).
  destruct (merged_dom h m o (td_merged _ _ _ _ T) Ho) as (nd & Hnd & Hall & _).
  destruct (Hall k Hk) as [a Ha]. assert (Hat : attr_of L h o k = Some a) by (unfold attr_of; by rewrite Hnd).
  rewrite Hat. destruct a as [t|p].
  { (* a plain value *)
    destruct (IH h m occ X E T) as (h' & m' & b & -> & Hw); [intros; apply Hks; by right|done|].
    exists h', m', b. split; [done|]. destruct Hw as [?|[T' Hw]]; [by left|]. right. split; [done|].
    destruct b; [done|]. destruct Hw as [Hw He]. split; [done|]. intros k' p' [->|Hk']%elem_of_cons; [|by apply He].
    intros Ha'. exfalso. destruct (merged_dom h' m' o (td_merged _ _ _ _ T') Ho) as (nd' & Hnd' & _).
    destruct (merged_node h m o nd (td_merged _ _ _ _ T) Hnd) as (n0 & Hn0 & Hr).
    destruct (merged_node h' m' o nd' (td_merged _ _ _ _ T') Hnd') as (n0' & Hn0' & Hr').
    rewrite Hn0 in Hn0'. injection Hn0' as <-. unfold attr_of in Ha'. rewrite Hnd' in Ha'.
    destruct (rt_attr _ _ _ Hr k) as [E1|(? & ? & ? & ?)], (rt_attr _ _ _ Hr' k) as [E2|(? & ? & ? & ?)]; congruence. }
  assert (HpD : p ∈ D) by (by apply (td_closed _ _ _ _ T o k p)).
  destruct (merged_dom h m p (td_merged _ _ _ _ T) HpD) as (np & Hp & _). rewrite Hp.
  destruct (merge1 L o k p np h m) as [[h1 m1] b1] eqn:E1.
  assert (Hup : uncut (expr_of n (cores h) p)).
  { apply (uncut_child n (cores h) o (n_core L nd) k p); [by apply cores_Some| |done|done].
    by rewrite (merged_terms h m o nd (td_merged _ _ _ _ T) Hnd). }
  pose proof (merge1_merged L h0 o k p np h m h1 m1 b1 (td_merged _ _ _ _ T) Hat Hp E1) as Hmg1.
  assert (Hx1 : ∀ i x, expr_of i (cores h1) x = expr_of i (cores h) x).
  { intros i x. rewrite (mg_expr _ _ _ _ Hmg1), (mg_expr _ _ _ _ (td_merged _ _ _ _ T)). done. }
  assert (Hrk : rank p < rank o) by (by apply (rank_child h m o k p (td_merged _ _ _ _ T))).
  pose proof (pow_child _ _ Hrk (rank_le o)) as Hpow.
  (* the visit of p and the rest of the loop, from any settled sets *)
  assert (Hrest : ∀ X1 E1, tidy h1 m1 X1 E1 → ∃ h2 m2 b2 h3 m3 b3, sweep L n p h1 m1 = (h2, m2, Some b2) ∧
    merge_loop L (sweep L n) o ks h2 m2 (occ || b1 || b2) = (h3, m3, Some (occ || (b1 || b2 || b3))) ∧
    (grown h3 m3 X1 E1 ∨ (tidy h2 m2 X1 E1 ∧ tidy h3 m3 X1 E1 ∧
      (if b2 then weight X1 h2 + 2 ^ (N - rank p) ≤ weight X1 h1
       else weight X1 h2 ≤ weight X1 h1 ∧ ∀ k p', k ∈ terms_of p → attr_of L h2 p k = Some (ARef p') → (p, k) ∈ E1) ∧
      (if b3 then weight X1 h3 + 2 ^ (N - rank o) ≤ weight X1 h2
       else weight X1 h3 ≤ weight X1 h2 ∧ ∀ k p', k ∈ ks → attr_of L h3 o k = Some (ARef p') → (o, k) ∈ E1)))).
  { intros X1 E1' T1. destruct (IHn p h1 m1 X1 E1' T1 HpD) as (h2 & m2 & b2 & -> & Hw2); [by rewrite Hx1|].
    simpl. exists h2, m2, b2.
    assert (Hx2 : ∀ h m X E, tidy h m X E → uncut (expr_of (S n) (cores h) o)).
    { intros h' m' X' E' T'. rewrite (mg_expr _ _ _ _ (td_merged _ _ _ _ T')). rewrite <- (mg_expr _ _ _ _ (td_merged _ _ _ _ T)).
      done. }
    destruct Hw2 as [(X2 & E2 & T2 & HX2 & HE2 & Hsz)|[T2 Hw2]].
    - destruct (IH h2 m2 (occ || b1 || b2) X2 E2 T2) as (h3 & m3 & b3 & -> & Hw3).
      { intros; apply Hks; by right. } { by eapply Hx2. }
      exists h3, m3, b3. split; [done|]. split; [by rewrite orb_comb|]. left. destruct Hw3 as [Hg|[T3 _]].
      + by apply (grown_trans h3 m3 X1 E1' X2 E2).
      + by exists X2, E2.
    - destruct (IH h2 m2 (occ || b1 || b2) X1 E1' T2) as (h3 & m3 & b3 & -> & Hw3).
      { intros; apply Hks; by right. } { by eapply Hx2. }
      exists h3, m3, b3. split; [done|]. split; [by rewrite orb_comb|]. destruct Hw3 as [Hg|[T3 Hw3]]; [by left|].
      right. done. }
  destruct (merge1_tidy o k p np h m h1 m1 b1 X E T Ho Hk Hat Hp E1) as [(X1 & E1' & T1 & HX1 & HE1 & Hsz)|[T1 Hw1]].
  { destruct (Hrest X1 E1' T1) as (h2 & m2 & b2 & h3 & m3 & b3 & -> & -> & Hr).
    exists h3, m3, (b1 || b2 || b3). split; [done|]. left. destruct Hr as [Hg|(_ & T3 & _)].
    - by apply (grown_trans h3 m3 X E X1 E1').
    - by exists X1, E1'. }
  destruct (Hrest X E T1) as (h2 & m2 & b2 & h3 & m3 & b3 & -> & -> & Hr).
  exists h3, m3, (b1 || b2 || b3). split; [done|]. destruct Hr as [Hg|(T2 & T3 & Hw2 & Hw3)]; [by left|].
  destruct (decide (p ∈ X)) as [HpX|HpX].
  - (* a settled operand *)
    right. split; [done|]. destruct b1; simpl.
    + destruct b2, b3; simpl; lia.
    + destruct Hw1 as (Hw1 & HE & ->). destruct b2; simpl; [destruct b3; lia|]. destruct b3; [lia|].
      split; [lia|]. destruct Hw3 as [_ Hw3]. intros k' p' [->|Hk']%elem_of_cons; [done|]. by apply Hw3.
  - destruct b2.
    + right. split; [done|]. rewrite orb_true_r. simpl. destruct b3; lia.
    + (* all operands of p are settled now, so p is *)
      left. destruct Hw2 as [_ Hw2].
      apply (grown_object h3 m3 X E p T3 HpD HpX). intros k' p' Hk' Ha'.
      (* edges in E are not touched: look at p in h2 *)
      destruct (merged_dom h2 m2 p (td_merged _ _ _ _ T2) HpD) as (np2 & Hp2 & Hall2 & _).
      destruct (Hall2 k' Hk') as [a2 Ha2].
      assert (Hat2 : attr_of L h2 p k' = Some a2) by (unfold attr_of; by rewrite Hp2).
      destruct a2 as [t|p2]; [|by apply (Hw2 k' p2)]. exfalso.
      destruct (attr_of_core _ _ _ _ _ Ha') as (np3 & Hp3 & Ha3).
      destruct (merged_node h2 m2 p np2 (td_merged _ _ _ _ T2) Hp2) as (n0 & Hn0 & Hr).
      destruct (merged_node h3 m3 p np3 (td_merged _ _ _ _ T3) Hp3) as (n0' & Hn0' & Hr').
      rewrite Hn0 in Hn0'. injection Hn0' as <-.
      destruct (rt_attr _ _ _ Hr k') as [F1|(? & ? & ? & ?)], (rt_attr _ _ _ Hr' k') as [F2|(? & ? & ? & ?)]; congruence.
Qed.

Lemma visit n : ∀ o h m X E, tidy h m X E → o ∈ D → uncut (expr_of n (cores h) o) →
  worked o (terms_of o) h (sweep L n o h m) false X E.
Proof.
  induction n as [|n IH]; intros o h m X E T Ho Hu; [done|]. simpl.
  destruct (merged_dom h m o (td_merged _ _ _ _ T) Ho) as (nd & Hnd & _). rewrite Hnd.
  rewrite (merged_terms h m o nd (td_merged _ _ _ _ T) Hnd). by apply visit_loop.
Qed.

Lemma sweeps_end n o : N ≤ n → o ∈ D → ∀ a w h m X E, tidy h m X E →
  size D + size edges - (size X + size E) = a → weight X h = w → ∃ r, (sweeps L r n o h m).2 = Some tt.
Proof.
  intros Hn Ho a. induction a as [a IHa] using lt_wf_ind. intros w. induction w as [w IHw] using lt_wf_ind.
  intros h m X E T Ea Ew.
  assert (Hun' : ∀ i, N ≤ i → uncut (expr_of i (cores h) o)).
  { induction 1 as [|i Hi IHi]; [by eapply tidy_uncut; [apply T|]|]. by rewrite uncut_S. }
  destruct (visit n o h m X E T Ho (Hun' n Hn)) as (h' & m' & b & E1 & Hw). simpl in E1.
  destruct b.
  2:{ exists 1. simpl. by rewrite E1. }
  assert (∃ r, (sweeps L r n o h' m').2 = Some tt) as [r Hr].
  { destruct Hw as [(X' & E' & T' & HX & HE & Hsz)|[T' Hw]].
    - assert (Hb : ∀ X E, tidy h' m' X E → size X + size E ≤ size D + size edges).
      { intros X2 E2 T2. pose proof (subseteq_size _ _ (td_X _ _ _ _ T2)). pose proof (subseteq_size _ _ (tidy_E _ _ _ _ T2)). lia. }
      specialize (Hb X' E' T'). apply (IHa (size D + size edges - (size X' + size E'))) with (w := weight X' h') (X := X') (E := E'); try done. lia.
    - apply (IHw (weight X h')) with (X := X) (E := E); try done. assert (0 < 2 ^ (N - rank o)); [|lia].
      apply Nat.neq_0_lt_0, Nat.pow_nonzero. lia. }
  exists (S r). simpl. by rewrite E1.
Qed.
End sweep.

Lemma sweeps_total h D n o : acyclic (points L (cores h)) → closed_under L (cores h) D → all_set L (cores h) D →
  o ∈ D → size D ≤ n → ∃ r, (sweeps L r n o h []).2 = Some tt.
Proof.
  intros Hac Hcl Hset Ho Hn.
  eapply (sweeps_end h D (size D) (uncut_acyclic _ _ Hac Hcl Hset) Hset n o Hn Ho) with (h := h) (m := []) (X := ∅) (E := ∅);
    [|reflexivity..].
  split.
  - apply merged_refl.
  - by intros s q ?%elem_of_nil.
  - intros x k p Hx Hk (nd & Hnd & Ha)%attr_of_core. apply (Hcl x p Hx). exists (n_core L nd), k.
    split; [by apply cores_Some|]. split; [|done]. unfold terms_of in Hk. by rewrite Hnd in Hk.
  - apply empty_subseteq.
  - intros x k p Hx. by apply elem_of_empty in Hx.
  - intros x k Hx. by apply elem_of_empty in Hx.
Qed.
(* ------------------------------------------------------------------ *)
(** What is left: no two operands with the same expression. *)
Lemma known_merge1 o k p np h m h1 m1 : merge1 L o k p np h m = (h1, m1, false) →
  h1 = h ∧ known L (sid L (n_core L np)) m1 = Some p ∧ (∀ s q, known L s m = Some q → known L s m1 = Some q).
Proof.
  unfold merge1. destruct (known L _ m) as [q|] eqn:E.
  - destruct (decide (p = q)) as [<-|]; intros [= <- <-]. done.
  - intros [= <- <-]. split; [done|]. split; [by apply known_new|]. intros. by apply known_app.
Qed.

Definition clean (h : heap) m (o : oid) : Prop := ∀ x k p np, rtc (points L (cores h)) o x →
  (∃ nx, h !! x = Some nx ∧ k ∈ c_dt L (n_core L nx)) → attr_of L h x k = Some (ARef p) → h !! p = Some np →
  known L (sid L (n_core L np)) m = Some p.

Lemma clean_loop rec o : (∀ p h m h' m', rec p h m = (h', m', Some false) → h' = h ∧ clean h m' p ∧
    ∀ s q, known L s m = Some q → known L s m' = Some q) →
  ∀ ks h m h' m' occ, merge_loop L rec o ks h m occ = (h', m', Some false) →
  occ = false ∧ h' = h ∧ (∀ s q, known L s m = Some q → known L s m' = Some q) ∧
  ∀ k p np, k ∈ ks → attr_of L h o k = Some (ARef p) → h !! p = Some np →
    known L (sid L (n_core L np)) m' = Some p ∧ clean h m' p.
Proof.
  intros Hrec. induction ks as [|k ks IH]; intros h m h' m' occ; simpl.
  { intros [= <- <- <-]. split_and!; try done. by intros k p np ?%elem_of_nil. }
  destruct (attr_of L h o k) as [[t|p]|] eqn:Ea; [| |done].
  { intros (-> & -> & H1 & H2)%IH. split_and!; try done. intros k' p np [->|Hk]%elem_of_cons; [congruence|].
    by apply H2. }
  destruct (h !! p) as [np|] eqn:Ep; [|done]. destruct (merge1 L o k p np h m) as [[h1 m1] b1] eqn:E1.
  destruct (rec p h1 m1) as [[h2 m2] [b2|]] eqn:E2; [|done].
  intros (Eb & E & H1 & H2)%IH. apply orb_false_iff in Eb as [[-> ->]%orb_false_iff ->].
  apply known_merge1 in E1 as (-> & Hk1 & Hm1). apply Hrec in E2 as (-> & Hc & Hm2). subst h'.
  split_and!; try done.
  - intros s q Hq. by apply H1, Hm2, Hm1.
  - intros k' p' np' [->|Hk']%elem_of_cons Ha' Hp'; [|by apply (H2 k')].
    rewrite Ea in Ha'. injection Ha' as <-. rewrite Ep in Hp'. injection Hp' as <-. split; [by apply H1, Hm2|].
    intros x k2 p2 np2 Hx Hnx Ha2 Hp2. by apply H1, (Hc x k2 p2 np2).
Qed.

Lemma sweep_clean n : ∀ o h m h' m', sweep L n o h m = (h', m', Some false) →
  h' = h ∧ clean h m' o ∧ ∀ s q, known L s m = Some q → known L s m' = Some q.
Proof.
  induction n as [|n IH]; intros o h m h' m'; simpl; [done|].
  destruct (h !! o) as [nd|] eqn:Ho; [|done].
  intros (_ & -> & H1 & H2)%(clean_loop (sweep L n) o IH). split; [done|]. split; [|done].
  intros x k p np Hx (nx & Hnx & Hk) Ha Hp. inversion Hx as [|? y ? (c & k1 & Hc & Hk1 & Hy) Hyx]; subst.
  - rewrite Ho in Hnx. injection Hnx as <-. by apply (H2 k p np Hk Ha Hp).
  - apply cores_Some_inv in Hc as (nd' & Hn' & <-). rewrite Ho in Hn'. injection Hn' as <-.
    assert (Hat : attr_of L h o k1 = Some (ARef y)) by (unfold attr_of; by rewrite Ho).
    destruct (h !! y) as [ny|] eqn:Ey.
    + destruct (H2 k1 y ny Hk1 Hat Ey) as [_ Hcl]. apply (Hcl x k p np); eauto.
    + exfalso. inversion Hyx as [|? z ? (c & ? & Hz & _) _]; subst.
      * congruence.
      * apply cores_Some_inv in Hz as (? & ? & _). congruence.
Qed.

Lemma clean_sid h m o : clean h m o → (∀ x nx k p, rtc (points L (cores h)) o x → h !! x = Some nx →
    k ∈ c_tm L (n_core L nx) → c_attr L (n_core L nx) !! k ≠ Some (ARef p)) →
  ∀ n p q np nq, rtc (points L (cores h)) o p → rtc (points L (cores h)) o q →
  h !! p = Some np → h !! q = Some nq → twins L (cores h) p q → uncut (expr_of n (cores h) p) →
  sid L (n_core L np) = sid L (n_core L nq).
Proof.
  intros Hcl Htm n. induction n as [|n IH]; intros p q np nq Hp Hq Enp Enq Htw Hu; [done|].
  pose proof (cores_Some L _ _ _ Enp) as Cp. pose proof (cores_Some L _ _ _ Enq) as Cq.
  assert (Hl : ∀ i, prod_map (@id name) (xattr L (expr_of i (cores h))) <$> (sid L (n_core L np)).2 =
     prod_map (@id name) (xattr L (expr_of i (cores h))) <$> (sid L (n_core L nq)).2).
  { intros i. pose proof (Htw (S i)) as Hi. rewrite (expr_of_S L i _ _ _ Cp), (expr_of_S L i _ _ _ Cq) in Hi.
    unfold xsid in Hi. congruence. }
  assert (Hcls : (sid L (n_core L np)).1 = (sid L (n_core L nq)).1) by (by apply (expr_cls L 0 _ _ p q _ _ Cp Cq)).
  assert (Hll : (sid L (n_core L np)).2 = (sid L (n_core L nq)).2).
  2:{ destruct (sid L (n_core L np)), (sid L (n_core L nq)). simpl in *. congruence. }
  assert (Hlen : length (sid L (n_core L np)).2 = length (sid L (n_core L nq)).2).
  { pose proof (f_equal length (Hl 0)) as Hlen. by rewrite !fmap_length in Hlen. }
  assert (Hsp : ∀ x nx k r, rtc (points L (cores h)) o x → h !! x = Some nx → (k, ARef r) ∈ (sid L (n_core L nx)).2 →
    k ∈ c_dt L (n_core L nx) ∧ rtc (points L (cores h)) o r ∧ c_attr L (n_core L nx) !! k = Some (ARef r)).
  { intros x nx k r Hx Enx [Hk Ha]%sid_in.
    assert (Hdt : k ∈ c_dt L (n_core L nx)).
    { unfold tracked in Hk. rewrite elem_of_union, !elem_of_list_to_set in Hk. destruct Hk as [?|Hk]; [done|].
      by destruct (Htm x nx k r Hx Enx Hk). }
    split; [done|]. split; [|done]. eapply rtc_r; [exact Hx|]. exists (n_core L nx), k.
    split; [by apply cores_Some|done]. }
  apply list_eq_same_length with (n := length (sid L (n_core L np)).2); [done..|].
  intros i [k1 a1] [k2 a2] _ H1 H2.
  assert (HX : ∀ j, k1 = k2 ∧ xattr L (expr_of j (cores h)) a1 = xattr L (expr_of j (cores h)) a2).
  { intros j. pose proof (f_equal (.!! i) (Hl j)) as Hj. rewrite !list_lookup_fmap, H1, H2 in Hj. simpl in Hj.
    injection Hj as E1 E2. split; [exact E1|exact E2]. }
  destruct (HX 0) as [<- HX0]. f_equal. destruct a1 as [t1|p1], a2 as [t2|p2]; simpl in *; try done; [congruence|].
  apply elem_of_list_lookup_2 in H1. apply elem_of_list_lookup_2 in H2.
  destruct (Hsp p np k1 p1 Hp Enp H1) as (K1 & X1 & A1).
  destruct (Hsp q nq k1 p2 Hq Enq H2) as (K2 & X2 & A2).
  assert (Hup1 : uncut (expr_of n (cores h) p1)) by (by apply (uncut_child n (cores h) p (n_core L np) k1)).
  assert (Hex : ∀ r, uncut (expr_of n (cores h) r) → is_Some (h !! r)).
  { intros r Hr. destruct (h !! r) as [nr|] eqn:Er; [eauto|]. exfalso. destruct n as [|n']; [done|]. simpl in Hr.
    rewrite cores_lookup, Er in Hr. done. }
  destruct (Hex p1 Hup1) as [n1 En1].
  destruct (Hex p2) as [n2 En2]; [by rewrite <- (proj2 (HX n))|].
  assert (Es : sid L (n_core L n1) = sid L (n_core L n2)) by (apply (IH p1 p2); try done; intros j; apply (HX j)).
  assert (Kn1 : known L (sid L (n_core L n1)) m = Some p1).
  { apply (Hcl p k1 p1 n1 Hp); [by exists np| |done]. unfold attr_of. by rewrite Enp. }
  assert (Kn2 : known L (sid L (n_core L n2)) m = Some p2).
  { apply (Hcl q k1 p2 n2 Hq); [by exists nq| |done]. unfold attr_of. by rewrite Enq. }
  rewrite Es in Kn1. congruence.
Qed.

Lemma sweeps_clean n o : ∀ r h m, (sweeps L r n o h m).2 = Some tt → ∃ m', clean (sweeps L r n o h m).1 m' o.
Proof.
  induction r as [|r IH]; intros h m; simpl; [done|]. destruct (sweep L n o h m) as [[h' m'] [[|]|]] eqn:E; [..|done].
  - apply IH.
  - intros _. simpl. apply sweep_clean in E as (-> & Hc & _). by exists m'.
Qed.


Lemma sweeps_shared h n o r : acyclic (points L (cores h)) → closed_under L (cores h) (dom (cores h)) →
  all_set L (cores h) (dom (cores h)) → is_Some (h !! o) → (sweeps L r n o h []).2 = Some tt →
  shared_all L (cores (sweeps L r n o h []).1) o.
Proof.
  intros Hac Hcl Hset [no Ho] Hr. destruct (sweeps_clean n o r h [] Hr) as [m' Hclean].
  destruct (sweeps_merged L r n o h) as [m Hm]. set (h' := (sweeps L r n o h []).1) in *.
  set (N := size (dom (cores h))). clearbody h'.
  assert (Hun : ∀ x, rtc (points L (cores h')) o x → uncut (expr_of N (cores h') x)).
  { intros x Hx. assert (Hy : uncut (expr_of N (cores h') o)).
    { rewrite (mg_expr _ _ _ _ Hm). apply uncut_acyclic; try done. apply elem_of_dom. rewrite cores_lookup, Ho. by eexists. }
    clear -Hx Hy. induction Hx as [|y z x (c & k & Hc & Hk & Hz) _ IH]; [done|]. apply IH.
    apply (uncut_child N (cores h') y c k z Hc Hk Hz). by rewrite uncut_S. }
  clearbody N.
  assert (Hex : ∀ q, rtc (points L (cores h')) o q → ∃ nq, h' !! q = Some nq).
  { intros q Hq. apply Hun in Hq. destruct (h' !! q) as [nq|] eqn:Eq; [eauto|]. exfalso.
    destruct N as [|i]; [done|]. simpl in Hq. by rewrite cores_lookup, Eq in Hq. }
  intros x1 x2 p1 p2 Hx1 Hx2 Hp1 Hp2 Ht.
  pose proof (rtc_r _ _ _ Hx1 Hp1) as Hr1.
  pose proof (rtc_r _ _ _ Hx2 Hp2) as Hr2.
  destruct Hp1 as (c1 & k1 & Hc1 & Hk1 & Hp1). destruct Hp2 as (c2 & k2 & Hc2 & Hk2 & Hp2).
  apply cores_Some_inv in Hc1 as (n1 & Hn1 & <-). apply cores_Some_inv in Hc2 as (n2 & Hn2 & <-).
  destruct (Hex p1 Hr1) as [np1 En1]. destruct (Hex p2 Hr2) as [np2 En2].
  assert (Es : sid L (n_core L np1) = sid L (n_core L np2)).
  { apply (clean_sid h' m' o Hclean) with (n := N) (p := p1) (q := p2); try done; [|by apply Hun].
    intros x nx k p Hx Enx Hk Hp. pose proof (merged_framed L h h' m Hm x) as F. rewrite (cores_Some L _ _ _ Enx) in F.
    inversion F as [c0 ? [R1 R2 R3 R4] Ecy|]; subst.
    destruct (Hset x) as (c & Hc & _ & Htm); [apply elem_of_dom; eauto|]. rewrite Hc in Ecy. injection Ecy as ->.
    rewrite R3 in Hk. destruct (R4 k) as [Ek|(p' & q & Ek & _)]; [|by apply (Htm k p')].
    apply (Htm k p Hk). by rewrite <- Ek. }
  assert (A1 : attr_of L h' x1 k1 = Some (ARef p1)) by (unfold attr_of; by rewrite Hn1).
  assert (A2 : attr_of L h' x2 k2 = Some (ARef p2)) by (unfold attr_of; by rewrite Hn2).
  pose proof (Hclean x1 k1 p1 np1 Hx1 (ex_intro _ n1 (conj Hn1 Hk1)) A1 En1) as Kn1.
  pose proof (Hclean x2 k2 p2 np2 Hx2 (ex_intro _ n2 (conj Hn2 Hk2)) A2 En2) as Kn2.
  congruence.
Qed.
End term.
