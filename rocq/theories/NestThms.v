(** Looking through operands keeps values and dependence. *)
From Coq Require Import Reals.
From stdpp Require Import list list_numbers numbers.
From Verif Require Import ArrModel Curve ArrThms ElemModel ReorderModel ReorderSpec ReorderThms ConcModel ConcSpec ConcThms ConcJac NestModel NestSpec.

(* ------------------------------------------------------------------ *)
(** Arrays that are equal. *)
Lemma aeq_refl' {T} (a : arr T) : aeq a a. Proof. by split. Qed.
Lemma aeq_sym' {T} (a b : arr T) : aeq a b → aeq b a.
Proof. intros [H1 H2]. split; [done|]. intros i Hi. symmetry. apply H2. unfold asize in *. by rewrite H1. Qed.
Lemma aeq_trans' {T} (a b c : arr T) : aeq a b → aeq b c → aeq a c.
Proof. intros [H1 H2] [H3 H4]. split; [congruence|]. intros i Hi. rewrite H2 by done. apply H4. unfold asize in *. by rewrite <- H1. Qed.
Lemma at1_aeq {T} (a b : arr T) : aeq a b → aeq (atleast_1d a) (atleast_1d b).
Proof.
  intros [H1 H2]. unfold atleast_1d. destruct (sh a) as [|d s] eqn:Ea; rewrite <- H1; [|by split; [congruence|]].
  split; [done|]. intros i Hi. simpl. apply H2. unfold asize. rewrite Ea. exact Hi.
Qed.
Lemma at1_size {T} (a : arr T) : asize (atleast_1d a) = asize a.
Proof. unfold atleast_1d, asize. destruct (sh a) eqn:E; [done|by rewrite E]. Qed.
Lemma at1_dat' {T} (a : arr T) i : dat (atleast_1d a) i = dat a i.
Proof. unfold atleast_1d. by destruct (sh a). Qed.
Lemma resh_aeq ns (a b y : arr R) : asize a = asize b → (∀ i, i < asize a → dat a i = dat b i) → reshaped ns a = Some y →
  ∃ z, reshaped ns b = Some z ∧ aeq y z ∧ asize y = asize a ∧ ∀ i, dat y i = dat a i.
Proof.
  unfold reshaped. intros Hs Hd (s & Hf & ->)%fmap_Some. rewrite <- Hs, Hf. eexists. split; [done|].
  assert (He : size s = asize a) by (unfold fill_shape in Hf; destruct (decide _) as [(_ & _ & H & _)|]; [by injection Hf as <-|done]).
  split; [|split; [exact He|done]]. split; [done|]. intros i Hi. simpl. apply Hd. unfold asize in Hi. simpl in Hi. lia.
Qed.
Lemma concat_at1 ax vs y : concat ax vs = Some y → atleast_1d y = y.
Proof.
  intros H. destruct (concat_inv _ _ _ H) as (k & n & _ & _ & _ & _ & Hk & _). unfold atleast_1d. by destruct (sh y).
Qed.
(** Operands equal as arrays. *)
Lemma is_concat_operands k vs ws y : Forall2 aeq vs ws → is_concat k vs y → is_concat k ws y.
Proof.
  intros HF ((n & Ht & Hy) & Hsb & Hat).
  assert (Hsh : sh <$> vs = sh <$> ws) by (clear -HF; induction HF as [|v w vs ws [Hs _] _ IH]; [done|]; rewrite !fmap_cons, Hs; by f_equal).
  split_and!.
  - exists n. split; [|done]. clear -HF Ht. revert n Ht. induction HF as [|v w vs ws [Hs _] _ IH]; intros n Ht; inversion Ht; subst; constructor; [by rewrite <- Hs|by apply IH].
  - intros w (t & Hw)%elem_of_list_lookup_1. destruct (Forall2_lookup_r _ _ _ _ _ HF Hw) as (v & Hv & [Hs _]). rewrite <- Hs. apply Hsb. by eapply elem_of_list_lookup_2.
  - intros t w jx ix Hw Hin Hst. destruct (Forall2_lookup_r _ _ _ _ _ HF Hw) as (v & Hv & [Hs Hd]).
    rewrite (Hat t v jx ix Hv); [|by rewrite Hs|eapply stands_shapes; [symmetry; exact Hsh|done]].
    unfold at_. rewrite Hs. apply Hd. unfold asize. rewrite Hs. by apply ravel_lt.
Qed.
Lemma is_concat_defined ax k ws y : ws ≠ [] → axis_is (length (sh y)) ax k → is_concat k ws y → ∃ z, concat ax ws = Some z ∧ aeq y z.
Proof.
  intros Hne Hk Hc. destruct (concat_some ax ws (sh y) k Hne Hk) as [z Hz]; [intros v Hv; by apply Hc|]. exists z. split; [done|].
  destruct (concat_is _ _ _ Hz) as (k' & Hk' & Hc'). destruct (concat_inv _ _ _ Hz) as (k2 & n2 & Hk2 & Hn2 & _ & Hsb & _).
  assert (length (sh y) = length (sh z)) as El.
  { destruct ws as [|w ws]; [done|]. destruct Hc as (_ & Hsw & _). rewrite <- (proj1 (Hsw w (elem_of_list_here _ _))). apply (Hsb w). by left. }
  rewrite <- El in Hk'. rewrite (axis_is_unique _ _ _ _ Hk' Hk) in Hc'. by eapply is_concat_unique.
Qed.

(* ------------------------------------------------------------------ *)
(** More fuel changes nothing. *)
Lemma mapM_more {A B} (f g : A → option B) l vs : (∀ x y, f x = Some y → g x = Some y) → mapM f l = Some vs → mapM g l = Some vs.
Proof. intros H. rewrite !mapM_Some. intros HF. eapply Forall2_impl; [done|]. simpl. auto. Qed.
Lemma nval_S n h : ∀ o y, nval n h o = Some y → nval (S n) h o = Some y.
Proof.
  induction n as [|n IH]; intros o y; [done|]. intros H. cbn [nval] in H. change (nval (S (S n)) h o) with
    (x ← h !! o; vs ← mapM (nval (S n) h) (nops x); atleast_1d <$> match x with
      | NLeaf a => Some a | NCat ax _ => concat ax vs | NResh ns _ => v ← head vs; reshaped ns v | NFun f _ => f vs end).
  apply bind_Some in H as (x & Hx & (vs & Hvs & Hy)%bind_Some). rewrite Hx. cbn [mbind option_bind].
  rewrite (mapM_more _ _ _ _ (IH) Hvs). done.
Qed.

(* ------------------------------------------------------------------ *)
(** What expand_concatenates and reshape look through. *)
Inductive flat (h : nheap) (ax : Z) : list nat → list nat → Prop :=
  | flat_nil : flat h ax [] []
  | flat_keep t ts ts' : flat h ax ts ts' → flat h ax (t :: ts) (t :: ts')
  | flat_open t us us' ts ts' : h !! t = Some (NCat ax us) → flat h ax us us' → flat h ax ts ts' → flat h ax (t :: ts) (us' ++ ts').
Inductive strip (h : nheap) : nat → nat → Prop :=
  | strip_here t : strip h t t
  | strip_open t ns u t' : h !! t = Some (NResh ns u) → strip h u t' → strip h t t'.
Lemma flat_app_inv h ax us ts l : flat h ax (us ++ ts) l → ∃ us' ts', l = us' ++ ts' ∧ flat h ax us us' ∧ flat h ax ts ts'.
Proof.
  revert l. induction us as [|u us IH]; intros l H; [exists [], l; by repeat constructor|]. simpl in H. inversion H as [|? ? l' H'|? vs vs' ? l' Hu Hv H']; subst.
  - destruct (IH _ H') as (us' & ts' & -> & H1 & H2). exists (u :: us'), ts'. by repeat constructor.
  - destruct (IH _ H') as (us' & ts' & -> & H1 & H2). exists (vs' ++ us'), ts'. rewrite app_assoc. split; [done|]. split; [by eapply flat_open|done].
Qed.
Lemma hexpand_flat n h ax : ∀ todo dn l, hexpand n h ax todo dn = Some l → ∃ l', l = dn ++ l' ∧ flat h ax todo l'.
Proof.
  induction n as [|n IH]; intros todo dn l; [done|]. cbn [hexpand]. destruct todo as [|t todo].
  { intros [= <-]. exists []. rewrite app_nil_r. by repeat constructor. }
  assert (Hkeep : hexpand n h ax todo (dn ++ [t]) = Some l → ∃ l', l = dn ++ l' ∧ flat h ax (t :: todo) l').
  { intros (l' & -> & H)%IH. exists (t :: l'). rewrite <- app_assoc. by repeat constructor. }
  destruct (h !! t) as [[a|ax' us|ns u|f us]|] eqn:Et; [done| |done..]. destruct (decide (ax' = ax)) as [->|]; [|done].
  intros (l' & -> & H)%IH. destruct (flat_app_inv _ _ _ _ _ H) as (us' & ts' & -> & H1 & H2). exists (us' ++ ts'). split; [done|]. by eapply flat_open.
Qed.
Lemma hstrip_strip n h : ∀ t t', hstrip n h t = Some t' → strip h t t'.
Proof.
  induction n as [|n IH]; intros t t'; [done|]. cbn [hstrip]. destruct (h !! t) as [[a|ax' us|ns u|f us]|] eqn:Et; try (intros [= <-]; constructor).
  intros H. eapply strip_open; [done|]. by apply IH.
Qed.

(** Values. *)
Lemma flat_val n h ax ts ts' k z : flat h ax ts ts' → axis_is (length (sh z)) ax k → ∀ pre vs post,
  mapM (nval n h) ts = Some vs → is_concat k (pre ++ vs ++ post) z →
  ∃ vs', mapM (nval n h) ts' = Some vs' ∧ is_concat k (pre ++ vs' ++ post) z ∧ (vs ≠ [] → vs' ≠ []).
Proof.
  intros HF Hk. revert n. induction HF as [|t ts ts' _ IH|t us us' ts ts' Ht HF1 IH1 HF2 IH2]; intros n pre vs post Hvs Hz.
  - apply mapM_Some in Hvs. inversion Hvs; subst. exists []. done.
  - apply mapM_Some in Hvs. inversion Hvs as [|? v ? vs2 Hv Hvs2]; subst. apply mapM_Some in Hvs2.
    destruct (IH n (pre ++ [v]) vs2 post) as (vs' & H1 & H2 & _); [done|by rewrite <- app_assoc|]. exists (v :: vs'). split_and!; [|by rewrite <- app_assoc in H2|done].
    apply mapM_Some. constructor; [done|]. by apply mapM_Some.
  - apply mapM_Some in Hvs. inversion Hvs as [|? v ? vs2 Hv Hvs2]; subst. apply mapM_Some in Hvs2.
    destruct n as [|n]; [done|]. cbn [nval] in Hv. rewrite Ht in Hv. cbn [mbind option_bind nops] in Hv.
    apply bind_Some in Hv as (ws & Hws & Hv). apply fmap_Some in Hv as (y & Hy & ->). rewrite (concat_at1 _ _ _ Hy) in *.
    apply (mapM_more _ (nval (S n) h)) in Hws; [|intros; by apply nval_S].
    destruct (concat_is _ _ _ Hy) as (k' & Hk' & Hc). destruct (concat_inv _ _ _ Hy) as (_ & _ & _ & _ & Hne & _).
    assert (El : length (sh y) = length (sh z)) by (destruct Hz as (_ & Hsb & _); apply (Hsb y); rewrite !elem_of_app, elem_of_cons; auto).
    rewrite El in Hk'. rewrite (axis_is_unique _ _ _ _ Hk' Hk) in Hc.
    assert (Hz1 : is_concat k (pre ++ ws ++ vs2 ++ post) z) by (by apply (is_concat_flat k pre ws (vs2 ++ post) y z)).
    destruct (IH1 (S n) pre ws (vs2 ++ post) Hws Hz1) as (ws' & Hw1 & Hz2 & Hn1).
    destruct (IH2 (S n) (pre ++ ws') vs2 post Hvs2) as (vs' & Hv1 & Hz3 & _); [by rewrite <- app_assoc|].
    exists (ws' ++ vs'). split_and!.
    + apply mapM_Some. apply Forall2_app; by apply mapM_Some.
    + rewrite <- !app_assoc in *. done.
    + intros _ [E _]%app_eq_nil. by apply Hn1.
Qed.
Lemma strip_val n h t t' : strip h t t' → ∀ v, nval n h t = Some v → ∃ v', nval n h t' = Some v' ∧ asize v = asize v' ∧ ∀ i, dat v i = dat v' i.
Proof.
  intros HS. induction HS as [t|t ns u t' Ht HS IH]; intros v Hv; [by exists v|].
  destruct n as [|n]; [done|]. pose proof Hv as Hv0. cbn [nval] in Hv. rewrite Ht in Hv. cbn [mbind option_bind nops] in Hv.
  apply bind_Some in Hv as (ws & Hws & Hv). apply fmap_Some in Hv as (y & Hy & ->).
  apply mapM_Some in Hws. inversion Hws as [|? w ? ? Hw Hnil]; subst. inversion Hnil; subst. simpl in Hy.
  destruct (IH w) as (v' & Hv' & Hs & Hd); [by apply nval_S|]. exists v'. split; [done|].
  destruct (resh_aeq ns w w y) as (_ & _ & _ & Hs2 & Hd2); [done|done|done|]. rewrite at1_size. split; [congruence|].
  intros i. by rewrite at1_dat', Hd2, Hd.
Qed.

(* ------------------------------------------------------------------ *)
(** The objects as written, and as they are. *)
Definition stands_for (h : nheap) (x y : nobj) : Prop :=
  match x with
  | NLeaf a => y = NLeaf a
  | NFun f ts => y = NFun f ts ∧ of_arrays f
  | NCat ax ts => ∃ ts', y = NCat ax ts' ∧ flat h ax ts ts'
  | NResh ns t => ∃ t', y = NResh ns t' ∧ strip h t t'
  end.
Definition same_program (w h : nheap) : Prop := Forall2 (stands_for h) w h.
Lemma same_val w h n : same_program w h → ∀ o y, nval n w o = Some y → ∃ z, nval n h o = Some z ∧ aeq y z.
Proof.
  intros HP. induction n as [|n IH]; intros o y; [done|]. cbn [nval].
  intros (x & Hx & (vs & Hvs & (v & Hv & ->)%fmap_Some)%bind_Some)%bind_Some.
  destruct (Forall2_lookup_l _ _ _ _ _ HP Hx) as (x' & Hx' & Hxx). rewrite Hx'. cbn [mbind option_bind].
  assert (Hops : ∃ ws, mapM (nval n h) (nops x) = Some ws ∧ Forall2 aeq vs ws).
  { clear Hv Hxx Hx. revert vs Hvs. induction (nops x) as [|t ts IHt]; intros vs Hvs; apply mapM_Some in Hvs; inversion Hvs as [|? u ? us Hu Hus]; subst; [by exists []|].
    apply mapM_Some in Hus. destruct (IHt _ Hus) as (ws & H1 & H2). destruct (IH _ _ Hu) as (u' & Hu' & He). exists (u' :: ws). split; [|by constructor].
    apply mapM_Some. constructor; [done|]. by apply mapM_Some. }
  destruct Hops as (ws & Hws & HF). destruct x as [a|ax ts|ns t|f ts]; simpl in Hxx.
  - subst x'. simpl. injection Hv as <-. eexists. split; [done|]. apply aeq_refl'.
  - destruct Hxx as (ts' & -> & Hfl). cbn [nops] in *.
    destruct (concat_is _ _ _ Hv) as (k & Hk & Hc). destruct (concat_inv _ _ _ Hv) as (_ & _ & _ & _ & Hne & _).
    pose proof (is_concat_operands _ _ _ _ HF Hc) as Hc2.
    destruct (flat_val n h ax ts ts' k v Hfl Hk [] ws []) as (ws' & H1 & H2 & H3); [done|by rewrite app_nil_r|].
    rewrite app_nil_r in H2. simpl in H2. rewrite H1. cbn [mbind option_bind].
    destruct (is_concat_defined ax k ws' v) as (z & Hz & Hyz); [|done|done|].
    { apply H3. intros ->. apply Forall2_nil_inv_r in HF. done. }
    rewrite Hz. eexists. split; [done|]. by apply at1_aeq.
  - destruct Hxx as (t' & -> & Hst). cbn [nops] in *. apply mapM_Some in Hvs, Hws.
    inversion Hvs as [|? a ? ? Ha Hn1]; subst. inversion Hn1; subst. inversion Hws as [|? b ? ? Hb Hn2]; subst. inversion Hn2; subst.
    apply Forall2_cons_1 in HF as [[Hab1 Hab2] _]. simpl in Hv.
    destruct (strip_val _ _ _ _ Hst _ Hb) as (c & Hc & Hs & Hd). simpl. rewrite Hc. simpl.
    destruct (resh_aeq ns a c v) as (z & Hz & Haz & _); [unfold asize in *; congruence| |done|].
    { intros i Hi. rewrite Hab2 by done. apply Hd. }
    rewrite Hz. eexists. split; [done|]. by apply at1_aeq.
  - destruct Hxx as [-> Hf]. cbn [nops] in *. rewrite Hws. cbn [mbind option_bind]. destruct (Hf _ _ _ HF Hv) as (z & Hz & Hyz). rewrite Hz.
    eexists. split; [done|]. by apply at1_aeq.
Qed.

(** Steps. *)
Definition keeps (h h' : nheap) : Prop := ∀ t x, h !! t = Some x → may_be_looked_through x → h' !! t = Some x.
Lemma flat_keeps h h' ax ts ts' : keeps h h' → flat h ax ts ts' → flat h' ax ts ts'.
Proof. intros K. induction 1; [constructor|by constructor|]. eapply flat_open; [|done..]. by apply K. Qed.
Lemma strip_keeps h h' t t' : keeps h h' → strip h t t' → strip h' t t'.
Proof. intros K. induction 1; [constructor|]. eapply strip_open; [|done]. by apply K. Qed.
Lemma stands_keeps h h' x y : keeps h h' → stands_for h x y → stands_for h' x y.
Proof.
  intros K. destruct x as [a|ax ts|ns t|f ts]; simpl; [done|..|done].
  - intros (ts' & -> & H). exists ts'. split; [done|]. by eapply flat_keeps.
  - intros (t' & -> & H). exists t'. split; [done|]. by eapply strip_keeps.
Qed.
Lemma keeps_snoc h x : keeps h (h ++ [x]).
Proof. intros t y Hy _. by apply lookup_app_l_Some. Qed.
Lemma same_snoc w h x y : same_program w h → stands_for h x y → same_program (w ++ [x]) (h ++ [y]).
Proof.
  intros HP Hxy. apply Forall2_app; [|constructor; [|constructor]]; [eapply Forall2_impl; [exact HP|]; intros; eapply stands_keeps; [apply keeps_snoc|done]|].
  eapply stands_keeps; [apply keeps_snoc|done].
Qed.
Lemma same_alter w h o f : same_program w h → (∀ x y, w !! o = Some x → h !! o = Some y → stands_for h x y → (may_be_looked_through y → f y = y) ∧ stands_for h (f x) (f y)) →
  same_program (alter f o w) (alter f o h).
Proof.
  intros HP Hf. assert (K : keeps h (alter f o h)).
  { intros t y Hy Hl. destruct (decide (t = o)) as [->|Ht]; [|by rewrite list_lookup_alter_ne].
    rewrite list_lookup_alter, Hy. simpl. f_equal. destruct (Forall2_lookup_r _ _ _ _ _ HP Hy) as (x & Hx & Hxy). by apply (Hf x y). }
  apply Forall2_same_length_lookup_2; [rewrite !alter_length; by eapply Forall2_length|].
  intros t x y Hx Hy. apply (stands_keeps h); [done|]. destruct (decide (t = o)) as [->|Ht].
  - rewrite list_lookup_alter in Hx, Hy. apply fmap_Some in Hx as (x0 & Hx & ->), Hy as (y0 & Hy & ->). apply (Hf x0 y0); [done..|].
    destruct (Forall2_lookup_l _ _ _ _ _ HP Hx) as (y1 & Hy1 & Hxy). by simplify_eq.
  - rewrite list_lookup_alter_ne in Hx, Hy by done. destruct (Forall2_lookup_l _ _ _ _ _ HP Hx) as (y1 & Hy1 & Hxy). by simplify_eq.
Qed.
Lemma same_step n w h c h' : same_program w h → tidy w [c] → nstep n h c = Some h' → same_program (wstep w c) h'.
Proof.
  intros HP [Hc _]. destruct c as [a|ax ts|ns t|f ts|o a|o i t]; simpl.
  - intros [= <-]. by apply same_snoc.
  - intros (ts' & He & [= <-])%bind_Some. apply same_snoc; [done|]. destruct (hexpand_flat _ _ _ _ _ _ He) as (l & -> & Hl). by exists l.
  - intros (t' & He & [= <-])%bind_Some. apply same_snoc; [done|]. exists t'. split; [done|]. by eapply hstrip_strip.
  - intros [= <-]. by apply same_snoc.
  - intros [= <-]. apply same_alter; [done|]. intros x y _ _ Hxy. destruct x as [b|ax ts|ns t|f ts]; simpl in Hxy.
    + subst y. done.
    + destruct Hxy as (ts' & -> & Hf). split; [done|]. by exists ts'.
    + destruct Hxy as (t' & -> & Hf). split; [done|]. by exists t'.
    + destruct Hxy as [-> Hf]. done.
  - intros [= <-]. apply same_alter; [done|]. intros x y Hx _ Hxy. specialize (Hc x Hx). destruct x as [b|ax ts|ns u|f ts]; simpl in Hxy, Hc.
    + subst y. done.
    + by destruct Hc.
    + by destruct Hc.
    + destruct Hxy as [-> Hf]. done.
Qed.
Lemma same_run n : ∀ cs w h h', same_program w h → tidy w cs → nrun n h cs = Some h' → same_program (written w cs) h'.
Proof.
  induction cs as [|c cs IH]; intros w h h' HP Ht; [by intros [= <-]|]. destruct Ht as [Hc Ht]. cbn [nrun].
  intros (h1 & H1 & H2)%bind_Some. apply (IH _ h1); [|done|done]. by eapply same_step.
Qed.
Lemma run_val n m cs h o y : tidy [] cs → nrun n [] cs = Some h → nval m (written [] cs) o = Some y →
  ∃ z, nval m h o = Some z ∧ aeq y z.
Proof. intros Ht Hr. apply same_val. eapply same_run; [|done|done]. constructor. Qed.

(* ------------------------------------------------------------------ *)
(** Dependence. *)
Lemma hangs_trans h a b c : hangs h a b → hangs h b c → hangs h a c.
Proof. intros H. induction 1; [done|]. by eapply hangs_on. Qed.
Lemma hangs_head h a b x c : h !! a = Some x → b ∈ nops x → hangs h b c → hangs h a c.
Proof. intros Hx Hb. apply hangs_trans. by eapply hangs_on; [constructor| |]. Qed.
Lemma hangs_inv h a c : hangs h a c → a = c ∨ ∃ x b, h !! a = Some x ∧ b ∈ nops x ∧ hangs h b c.
Proof.
  induction 1 as [|o p x Ho IH Hx Hp]; [by left|]. right. destruct IH as [->|(y & b & Hy & Hb & H)]; [exists x, p|exists y, b]; (split; [done|]; split; [done|]).
  - constructor.
  - by eapply hangs_on.
Qed.
(** Ways that pass concatenations and reshapes only. *)
Inductive through (h : nheap) : nat → nat → Prop :=
  | through_here t : through h t t
  | through_on t x u p : h !! t = Some x → may_be_looked_through x → u ∈ nops x → through h u p → through h t p.
Lemma through_trans h a b c : through h a b → through h b c → through h a c.
Proof. induction 1; [done|]. intros. eapply through_on; eauto. Qed.
Lemma through_hangs h a b : through h a b → hangs h a b.
Proof. induction 1; [constructor|]. by eapply hangs_head. Qed.
Lemma through_keeps h h' a b : keeps h h' → through h a b → through h' a b.
Proof. intros K. induction 1; [constructor|]. eapply through_on; eauto. Qed.
Lemma flat_through h ax ts ts' : flat h ax ts ts' → ∀ p, p ∈ ts' → ∃ t, t ∈ ts ∧ through h t p.
Proof.
  induction 1 as [|t ts ts' _ IH|t us us' ts ts' Ht HF1 IH1 HF2 IH2]; intros p.
  - by intros ?%elem_of_nil.
  - intros [->|Hp]%elem_of_cons; [exists t; split; [by left|constructor]|]. destruct (IH p Hp) as (u & Hu & H). exists u. split; [by right|done].
  - intros [Hp|Hp]%elem_of_app.
    + destruct (IH1 p Hp) as (u & Hu & H). exists t. split; [by left|]. by eapply through_on.
    + destruct (IH2 p Hp) as (u & Hu & H). exists u. split; [by right|done].
Qed.
Lemma strip_through h t t' : strip h t t' → through h t t'.
Proof. induction 1 as [|t ns u t' Ht _ IH]; [constructor|]. eapply through_on; [done|done|by left|done]. Qed.
Definition under (w h : nheap) : Prop := ∀ e y p, h !! e = Some y → may_be_looked_through y → p ∈ nops y →
  ∃ x u, w !! e = Some x ∧ may_be_looked_through x ∧ u ∈ nops x ∧ through w u p.
Lemma under_through w h a b : under w h → through h a b → through w a b.
Proof.
  intros U. induction 1 as [|t y u p Hy Hl Hu _ IH]; [constructor|]. destruct (U t y u Hy Hl Hu) as (x & v & Hx & Hlx & Hv & H).
  eapply through_on; [done|done|done|]. by eapply through_trans.
Qed.
Lemma under_snoc w h x y : length w = length h → under w h →
  (may_be_looked_through y → may_be_looked_through x ∧ ∀ p, p ∈ nops y → ∃ u, u ∈ nops x ∧ through w u p) → under (w ++ [x]) (h ++ [y]).
Proof.
  intros Hlen U Hxy e z p Hz Hl Hp. apply lookup_app_Some in Hz as [Hz|[Hge Hz]].
  - destruct (U e z p Hz Hl Hp) as (x0 & u & Hx & Hlx & Hu & H). exists x0, u. split; [by apply lookup_app_l_Some|]. split; [done|]. split; [done|].
    eapply through_keeps; [apply keeps_snoc|done].
  - apply list_lookup_singleton_Some in Hz as [He ->]. destruct (Hxy Hl) as [Hlx H]. destruct (H p Hp) as (u & Hu & Ht). exists x, u.
    split; [rewrite lookup_app_r by lia; replace (e - length w) with 0 by lia; done|]. split; [done|]. split; [done|].
    eapply through_keeps; [apply keeps_snoc|done].
Qed.
Lemma under_alter w h o f : (∀ x, may_be_looked_through (f x) → may_be_looked_through x) →
  (∀ x, w !! o = Some x ∨ h !! o = Some x → may_be_looked_through x → f x = x) → under w h → under (alter f o w) (alter f o h).
Proof.
  intros H1 H2 U. assert (K : keeps w (alter f o w)).
  { intros t x Hx Hl. destruct (decide (t = o)) as [->|Ht]; [|by rewrite list_lookup_alter_ne].
    rewrite list_lookup_alter, Hx. simpl. f_equal. apply H2; auto. }
  intros e y p Hy Hl Hp. assert (Hy0 : h !! e = Some y).
  { destruct (decide (e = o)) as [->|Ht]; [|by rewrite list_lookup_alter_ne in Hy].
    rewrite list_lookup_alter in Hy. apply fmap_Some in Hy as (y0 & Hy0 & ->). rewrite Hy0. f_equal. symmetry. apply H2; auto. }
  destruct (U e y p Hy0 Hl Hp) as (x & u & Hx & Hlx & Hu & H). exists x, u. split; [by apply K|]. split; [done|]. split; [done|]. by eapply through_keeps.
Qed.
Lemma under_step n w h c h' : same_program w h → under w h → tidy w [c] → nstep n h c = Some h' → under (wstep w c) h'.
Proof.
  intros HP U [Hc _]. assert (Hlen : length w = length h) by (by eapply Forall2_length).
  destruct c as [a|ax ts|ns t|f ts|o a|o i t]; simpl.
  - intros [= <-]. by apply under_snoc.
  - intros (ts' & He & [= <-])%bind_Some. apply under_snoc; [done|done|]. intros _. split; [done|]. intros p Hp.
    destruct (hexpand_flat _ _ _ _ _ _ He) as (l & -> & Hl). destruct (flat_through _ _ _ _ Hl p Hp) as (t & Ht & H). exists t. split; [done|]. by eapply under_through.
  - intros (t' & He & [= <-])%bind_Some. apply under_snoc; [done|done|]. intros _. split; [done|]. intros p ->%elem_of_list_singleton. exists t. split; [by left|].
    eapply under_through; [done|]. by eapply strip_through, hstrip_strip.
  - intros [= <-]. by apply under_snoc.
  - intros [= <-]. apply under_alter; [|intros x _; by destruct x|done]. intros x. by destruct x.
  - intros [= <-]. assert (Hnl : ∀ x, w !! o = Some x ∨ h !! o = Some x → ¬ may_be_looked_through x).
    { intros x [Hx|Hx]; [by apply Hc|]. destruct (Forall2_lookup_r _ _ _ _ _ HP Hx) as (x' & Hx' & Hxx). specialize (Hc _ Hx').
      destruct x'; simpl in Hxx, Hc; [by subst|tauto|tauto|by destruct Hxx as [-> _]]. }
    apply under_alter; [|intros x Hx Hl; by destruct (Hnl x Hx)|done]. intros x. destruct x; simpl; [done|done|by destruct (decide _)|done].
Qed.
Lemma under_run n : ∀ cs w h h', same_program w h → under w h → tidy w cs → nrun n h cs = Some h' → under (written w cs) h'.
Proof.
  induction cs as [|c cs IH]; intros w h h' HP U Ht; [by intros [= <-]|]. destruct Ht as [Hc Ht]. cbn [nrun].
  intros (h1 & H1 & H2)%bind_Some. apply (IH _ h1); [by eapply same_step|by eapply under_step|done|done].
Qed.
(** Everything an object hangs on as written that is not looked through. *)
Inductive covered (h : nheap) (e : nat) : nat → Prop :=
  | cov_edge t y : h !! e = Some y → t ∈ nops y → covered h e t
  | cov_open t y : h !! t = Some y → may_be_looked_through y → (∀ u, u ∈ nops y → covered h e u) → covered h e t.
Lemma flat_covered h ax e y ts ts' : h !! e = Some y → flat h ax ts ts' → (∀ p, p ∈ ts' → p ∈ nops y) → ∀ t, t ∈ ts → covered h e t.
Proof.
  intros He. induction 1 as [|t ts ts' _ IH|t us us' ts ts' Ht HF1 IH1 HF2 IH2]; intros Hin p.
  - by intros ?%elem_of_nil.
  - intros [->|Hp]%elem_of_cons; [eapply cov_edge; [done|]; apply Hin; by left|]. apply IH; [|done]. intros q Hq. apply Hin. by right.
  - intros [->|Hp]%elem_of_cons.
    + eapply cov_open; [done|done|]. apply IH1. intros q Hq. apply Hin, elem_of_app. by left.
    + apply IH2; [|done]. intros q Hq. apply Hin, elem_of_app. by right.
Qed.
Lemma strip_covered h e y t t' : h !! e = Some y → strip h t t' → t' ∈ nops y → covered h e t.
Proof.
  intros He. induction 1 as [t|t ns u t' Ht _ IH]; intros Hin; [by eapply cov_edge|]. eapply cov_open; [done|done|]. intros q ->%elem_of_list_singleton. by apply IH.
Qed.
Lemma covered_hangs h e t o : covered h e t → hangs h t o → (∀ x, h !! o = Some x → ¬ may_be_looked_through x) → hangs h e o.
Proof.
  intros C H Ho. induction C as [t y He Ht|t y Ht Hl _ IH]; [by eapply hangs_head|].
  destruct (hangs_inv _ _ _ H) as [->|(x & u & Hx & Hu & Hh)]; [by destruct (Ho y Ht)|]. simplify_eq. by apply (IH u).
Qed.
Lemma same_hangs w h e o : same_program w h → under w h → (∀ x, w !! o = Some x → ¬ may_be_looked_through x) → hangs w e o ↔ hangs h e o.
Proof.
  intros HP U Ho. assert (Ho' : ∀ x, h !! o = Some x → ¬ may_be_looked_through x).
  { intros x Hx. destruct (Forall2_lookup_r _ _ _ _ _ HP Hx) as (x' & Hx' & Hxx). specialize (Ho _ Hx').
    destruct x'; simpl in Hxx, Ho; [by subst|tauto|tauto|by destruct Hxx as [-> _]]. }
  split; intros H.
  - assert (Hstep : ∀ a t x, w !! a = Some x → t ∈ nops x → hangs h t o → hangs h a o).
    { intros a t x Hx Ht Hto. destruct (Forall2_lookup_l _ _ _ _ _ HP Hx) as (y & Hy & Hxy). destruct x as [b|ax ts|ns u|f ts]; simpl in Hxy, Ht.
      - by apply elem_of_nil in Ht.
      - destruct Hxy as (ts' & -> & Hf). eapply covered_hangs; [by eapply flat_covered|done|done].
      - destruct Hxy as (t' & -> & Hf). apply elem_of_list_singleton in Ht as ->. eapply covered_hangs; [eapply strip_covered; [exact Hy|exact Hf|by left]|done|done].
      - destruct Hxy as [-> _]. by eapply hangs_head. }
    assert (Hgen : ∀ p, hangs w e p → hangs h p o → hangs h e o).
    { clear H. intros p. induction 1 as [|q p x Hq IH Hx Hp]; [done|]. intros. apply IH. by eapply Hstep. }
    apply (Hgen o H). constructor.
  - assert (Hstep : ∀ a t y, h !! a = Some y → t ∈ nops y → hangs w a t).
    { intros a t y Hy Ht. destruct (Forall2_lookup_r _ _ _ _ _ HP Hy) as (x & Hx & Hxy).
      assert (Hl : may_be_looked_through y → hangs w a t).
      { intros Hl. destruct (U a y t Hy Hl Ht) as (x' & u & Hx' & _ & Hu & Hth). eapply hangs_head; [done|done|]. by apply through_hangs. }
      destruct x as [b|ax ts|ns u|f ts]; simpl in Hxy; [subst; by apply elem_of_nil in Ht|..].
      - destruct Hxy as (? & -> & _). by apply Hl.
      - destruct Hxy as (? & -> & _). by apply Hl.
      - destruct Hxy as [-> _]. eapply hangs_head; [done|done|constructor]. }
    clear Ho Ho'. induction H as [|q p x Hq IH Hx Hp]; [constructor|]. eapply hangs_trans; [done|]. by eapply Hstep.
Qed.
Lemma run_hangs n cs h e o : tidy [] cs → nrun n [] cs = Some h → (∀ x, written [] cs !! o = Some x → ¬ may_be_looked_through x) →
  hangs (written [] cs) e o ↔ hangs h e o.
Proof.
  intros Ht Hr. assert (same_program [] []) by constructor. apply same_hangs; [by eapply same_run|].
  eapply under_run; [done| |done|done]. intros e' y p Hy. by rewrite lookup_nil in Hy.
Qed.

(* ------------------------------------------------------------------ *)
(** The loops end. *)
Definition older (h : nheap) : Prop := ∀ e x p, h !! e = Some x → may_be_looked_through x → p ∈ nops x → p < e.
Lemma hexpand_S n h ax : ∀ todo dn l, hexpand n h ax todo dn = Some l → hexpand (S n) h ax todo dn = Some l.
Proof.
  induction n as [|n IH]; intros todo dn l; [done|]. intros H. cbn [hexpand] in H.
  change (hexpand (S (S n)) h ax todo dn) with (match todo with [] => Some dn | t :: todo' =>
    match h !! t with Some (NCat ax' us) => if decide (ax' = ax) then hexpand (S n) h ax (us ++ todo') dn else hexpand (S n) h ax todo' (dn ++ [t])
    | _ => hexpand (S n) h ax todo' (dn ++ [t]) end end).
  destruct todo as [|t todo]; [done|]. destruct (h !! t) as [[]|]; try by apply IH. destruct (decide _); by apply IH.
Qed.
Lemma hexpand_more n m h ax todo dn l : n ≤ m → hexpand n h ax todo dn = Some l → hexpand m h ax todo dn = Some l.
Proof. induction 1; [done|]. intros. by apply hexpand_S, IHle. Qed.
Lemma hexpand_ends h ax : older h → ∀ b ts todo dn, Forall (λ t, t < b) ts → (∀ dn', ∃ n l, hexpand n h ax todo dn' = Some l) →
  ∃ n l, hexpand n h ax (ts ++ todo) dn = Some l.
Proof.
  intros Ho. induction b as [|b IHb].
  { intros ts todo dn HF Ht. destruct HF as [|t ts Hlt _]; [apply Ht|lia]. }
  induction ts as [|t ts IHts]; intros todo dn HF Ht; [apply Ht|]. apply Forall_cons_1 in HF as [Hlt HF].
  assert (Hrest : ∀ dn', ∃ n l, hexpand n h ax (ts ++ todo) dn' = Some l) by (intros; by apply IHts).
  assert (Hkeep : ∃ n l, hexpand n h ax (ts ++ todo) (dn ++ [t]) = Some l) by apply Hrest.
  destruct (h !! t) as [[a|ax' us|ns u|f us]|] eqn:Et.
  2: { destruct (decide (ax' = ax)) as [->|Hax].
       - destruct (IHb us (ts ++ todo) dn) as (n & l & H); [|done|].
         + rewrite list.Forall_forall. intros p Hp. pose proof (Ho t _ p Et I Hp). lia.
         + exists (S n), l. cbn [app hexpand]. rewrite Et, decide_True by done. done.
       - destruct Hkeep as (n & l & H). exists (S n), l. cbn [app hexpand]. rewrite Et, decide_False by done. done. }
  all: destruct Hkeep as (n & l & H); exists (S n), l; cbn [app hexpand]; rewrite Et; done.
Qed.
Lemma hexpand_total h ax ts : older h → ∃ n l, hexpand n h ax ts [] = Some l.
Proof.
  intros Ho. rewrite <- (app_nil_r ts). apply (hexpand_ends h ax Ho (S (foldr Nat.max 0 ts))).
  - rewrite list.Forall_forall. intros t Ht. induction ts as [|u ts IH]; [by apply elem_of_nil in Ht|]. simpl. apply elem_of_cons in Ht as [->|Ht]; [lia|].
    specialize (IH Ht). lia.
  - intros dn. by exists 1, dn.
Qed.
Lemma hstrip_S n h : ∀ t l, hstrip n h t = Some l → hstrip (S n) h t = Some l.
Proof.
  induction n as [|n IH]; intros t l; [done|]. intros H. cbn [hstrip] in H.
  change (hstrip (S (S n)) h t) with (match h !! t with Some (NResh _ u) => hstrip (S n) h u | _ => Some t end).
  destruct (h !! t) as [[]|]; try done. by apply IH.
Qed.
Lemma hstrip_more n m h t l : n ≤ m → hstrip n h t = Some l → hstrip m h t = Some l.
Proof. induction 1; [done|]. intros. by apply hstrip_S, IHle. Qed.
Lemma hstrip_total h : older h → ∀ t, ∃ n l, hstrip n h t = Some l.
Proof.
  intros Ho t. induction (lt_wf t) as [t _ IH]. destruct (h !! t) as [[a|ax' us|ns u|f us]|] eqn:Et.
  3: { destruct (IH u) as (n & l & H); [apply (Ho t _ u Et I); by left|]. exists (S n), l. cbn [hstrip]. by rewrite Et. }
  all: exists 1, t; cbn [hstrip]; by rewrite Et.
Qed.
Lemma nstep_more n m h c h' : n ≤ m → nstep n h c = Some h' → nstep m h c = Some h'.
Proof.
  intros Hnm. destruct c as [a|ax ts|ns t|f ts|o a|o i t]; simpl; try done.
  - intros (l & Hl & E)%bind_Some. by rewrite (hexpand_more n m _ _ _ _ l).
  - intros (l & Hl & E)%bind_Some. by rewrite (hstrip_more n m _ _ l).
Qed.
Lemma nrun_more n m : n ≤ m → ∀ cs h h', nrun n h cs = Some h' → nrun m h cs = Some h'.
Proof.
  intros Hnm. induction cs as [|c cs IH]; intros h h'; [done|]. cbn [nrun]. intros (h1 & H1 & H2)%bind_Some.
  rewrite (nstep_more n m _ _ _ Hnm H1). by apply IH.
Qed.
Lemma through_older h t p : older h → through h t p → p ≤ t.
Proof. intros Ho. induction 1 as [|t x u p Hx Hl Hu _ IH]; [done|]. pose proof (Ho _ _ _ Hx Hl Hu). lia. Qed.
Lemma older_snoc h x : older h → (may_be_looked_through x → ∀ p, p ∈ nops x → p < length h) → older (h ++ [x]).
Proof.
  intros Ho Hx e y p Hy Hl Hp. apply lookup_app_Some in Hy as [Hy|[Hge Hy]]; [by eapply Ho|].
  apply list_lookup_singleton_Some in Hy as [He ->]. specialize (Hx Hl p Hp). lia.
Qed.
Lemma older_alter h o f : (∀ x, may_be_looked_through (f x) → may_be_looked_through x) →
  (∀ x, h !! o = Some x → may_be_looked_through x → f x = x) → older h → older (alter f o h).
Proof.
  intros H1 H2 Ho e y p Hy Hl Hp. destruct (decide (e = o)) as [->|Ht]; [|rewrite list_lookup_alter_ne in Hy by done; by eapply Ho].
  rewrite list_lookup_alter in Hy. apply fmap_Some in Hy as (y0 & Hy0 & ->). rewrite (H2 y0) in Hl, Hp by auto. by eapply Ho.
Qed.
Lemma older_step n w h c h' : same_program w h → older h → tidy w [c] → backward (length w) [c] → nstep n h c = Some h' → older h'.
Proof.
  intros HP Ho [Hc _] [Hb _]. assert (Hlen : length w = length h) by (by eapply Forall2_length).
  destruct c as [a|ax ts|ns t|f ts|o a|o i t]; simpl in *.
  - intros [= <-]. by apply older_snoc.
  - intros (l & He & [= <-])%bind_Some. apply older_snoc; [done|]. intros _ p Hp. destruct (hexpand_flat _ _ _ _ _ _ He) as (l' & -> & Hl).
    destruct (flat_through _ _ _ _ Hl p Hp) as (t & Ht & H). apply through_older in H; [|done]. specialize (Hb t Ht). lia.
  - intros (l & He & [= <-])%bind_Some. apply older_snoc; [done|]. intros _ p ->%elem_of_list_singleton.
    apply hstrip_strip, strip_through, through_older in He; [lia|done].
  - intros [= <-]. by apply older_snoc.
  - intros [= <-]. apply older_alter; [|intros x _; by destruct x|done]. intros x. by destruct x.
  - intros [= <-]. apply older_alter; [| |done].
    + intros x. destruct x; simpl; [done|done|by destruct (decide _)|done].
    + intros x Hx Hl. destruct (Forall2_lookup_r _ _ _ _ _ HP Hx) as (x' & Hx' & Hxx). specialize (Hc _ Hx').
      destruct x'; simpl in Hxx, Hc; [by subst|tauto|tauto|by destruct Hxx as [-> _]].
Qed.
Lemma run_ends : ∀ cs w h, same_program w h → older h → tidy w cs → backward (length w) cs → ∃ n h', nrun n h cs = Some h'.
Proof.
  induction cs as [|c cs IH]; intros w h HP Ho Ht Hb; [by exists 0, h|]. destruct Ht as [Hc Ht]. destruct Hb as [Hb1 Hb].
  assert (Hs : ∃ n h1, nstep n h c = Some h1).
  { destruct c as [a|ax ts|ns t|f ts|o a|o i t]; simpl; try (exists 0; by eexists).
    - destruct (hexpand_total h ax ts Ho) as (n & l & E). exists n. rewrite E. by eexists.
    - destruct (hstrip_total h Ho t) as (n & l & E). exists n. rewrite E. by eexists. }
  destruct Hs as (n1 & h1 & H1).
  destruct (IH (wstep w c) h1) as (n2 & h2 & H2); [by eapply same_step|by eapply (older_step n1 w h c)|done| |].
  { destruct c; simpl in *; rewrite ?app_length, ?alter_length; simpl; rewrite ?Nat.add_1_r; done. }
  exists (n1 `max` n2), h2. cbn [nrun]. rewrite (nstep_more n1 (n1 `max` n2) h c h1) by (lia || done). cbn [mbind option_bind].
  by apply (nrun_more n2 (n1 `max` n2)); [lia|].
Qed.
