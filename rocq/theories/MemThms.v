(** Proofs for C62. *)
From Coq Require Import Reals Lra.
From stdpp Require Import list list_numbers numbers.
From Verif Require Import MemModel MemSpec.

Lemma map_same {A B} (f g : A → B) l : (∀ i x, l !! i = Some x → f x = g x) → map f l = map g l.
Proof. intros H. apply map_ext_in. intros x Hx. apply elem_of_list_In, elem_of_list_lookup in Hx as [i Hi]. by eapply H. Qed.

(** * The graph of objects *)
Definition kids (o : gobj) : list nat :=
  match o with GLeaf _ => [] | GView c => [c] | GFun _ cs => cs end.
Definition wf (os : list gobj) : Prop := ∀ n o, os !! n = Some o → Forall (λ c, c < n) (kids o).

Lemma meaning_fuel os : wf os → ∀ f1 f2 n, n < f1 → n < f2 → meaning f1 os n = meaning f2 os n.
Proof.
  intros W f1. induction f1 as [|f1 IH]; intros [|f2] n H1 H2; try lia. simpl.
  destruct (os !! n) as [[v|c|g cs]|] eqn:E; [done| | |done]; pose proof (W _ _ E) as F; simpl in F.
  - apply Forall_cons_1 in F as [F _]. apply IH; lia.
  - f_equal. apply map_same. intros i c Hc. apply (IH f2 c); rewrite Forall_lookup in F; specialize (F i c Hc); lia.
Qed.
Lemma base_fuel os : wf os → ∀ f1 f2 n, n < f1 → n < f2 → base f1 os n = base f2 os n.
Proof.
  intros W f1. induction f1 as [|f1 IH]; intros [|f2] n H1 H2; try lia. simpl.
  destruct (os !! n) as [[v|c|g cs]|] eqn:E; try done. pose proof (W _ _ E) as F. apply Forall_cons_1 in F as [F _]. apply IH; lia.
Qed.
Lemma value_unfold g n : wf (gobjs g) → value g n =
  match gobjs g !! n with Some (GLeaf v) => v | Some (GView c) => value g c | Some (GFun f cs) => f (map (value g) cs) | None => [] end.
Proof.
  intros W. unfold value at 1. simpl. destruct (gobjs g !! n) as [[v|c|f cs]|] eqn:E; try done; pose proof (W _ _ E) as F; simpl in F.
  - apply Forall_cons_1 in F as [F _]. apply meaning_fuel; [done|lia|lia].
  - f_equal. apply map_same. intros i c Hc. rewrite Forall_lookup in F. specialize (F i c Hc). apply meaning_fuel; [done|lia|lia].
Qed.
Definition root (g : gst) (n : nat) : option nat := base (S n) (gobjs g) n.
Lemma root_unfold g n : wf (gobjs g) → root g n =
  match gobjs g !! n with Some (GLeaf v) => Some n | Some (GView c) => root g c | _ => None end.
Proof.
  intros W. unfold root at 1. simpl. destruct (gobjs g !! n) as [[v|c|f cs]|] eqn:E; try done; pose proof (W _ _ E) as F.
  apply Forall_cons_1 in F as [F _]. apply base_fuel; [done|lia|lia].
Qed.
Lemma wf_add g o : wf (gobjs g) → Forall (λ c, c < length (gobjs g)) (kids o) → wf (gobjs (add_obj g o)).
Proof. intros W F n o' E. simpl in E. apply lookup_app_Some in E as [E|[L E]]; [by eapply W|]. apply list_lookup_singleton_Some in E as [E ->].
  replace n with (length (gobjs g)) by lia. done. Qed.
Lemma value_add g o n : wf (gobjs g) → Forall (λ c, c < length (gobjs g)) (kids o) → n < length (gobjs g) → value (add_obj g o) n = value g n.
Proof.
  intros W F. induction n as [n IH] using lt_wf_ind. intros L. rewrite (value_unfold _ _ (wf_add g o W F)), (value_unfold g n W).
  simpl. rewrite lookup_app_l by done. destruct (gobjs g !! n) as [[v|c|f cs]|] eqn:E; try done; pose proof (W _ _ E) as K; simpl in K.
  - apply Forall_cons_1 in K as [K _]. apply IH; lia.
  - f_equal. apply map_same. intros i c Hc. rewrite Forall_lookup in K. specialize (K i c Hc). apply IH; lia.
Qed.
Lemma root_add g o n : wf (gobjs g) → Forall (λ c, c < length (gobjs g)) (kids o) → n < length (gobjs g) → root (add_obj g o) n = root g n.
Proof.
  intros W F. induction n as [n IH] using lt_wf_ind. intros L. rewrite (root_unfold _ _ (wf_add g o W F)), (root_unfold g n W).
  simpl. rewrite lookup_app_l by done. destruct (gobjs g !! n) as [[v|c|f cs]|] eqn:E; try done; pose proof (W _ _ E) as K; simpl in K.
  apply Forall_cons_1 in K as [K _]. apply IH; lia.
Qed.
Lemma value_new g o : wf (gobjs g) → Forall (λ c, c < length (gobjs g)) (kids o) → ∀ v, o = GLeaf v → value (add_obj g o) (length (gobjs g)) = v.
Proof. intros W F v ->. rewrite (value_unfold _ _ (wf_add g _ W F)). simpl. rewrite lookup_app_r by done. by rewrite Nat.sub_diag. Qed.

(** Only the objects matter. *)
Lemma value_arrs g l n : value (GSt (gobjs g) l) n = value g n.
Proof. done. Qed.

Section put.
Context (g : gst) (b : nat) (v0 : list R) (Hb : gobjs g !! b = Some (GLeaf v0)) (v : list R).
Lemma put_lookup n o : gobjs (put g b v) !! n = Some o → (n = b ∧ o = GLeaf v) ∨ (n ≠ b ∧ gobjs g !! n = Some o).
Proof. simpl. intros H. destruct (decide (n = b)) as [->|N]; [left|right]; [|by rewrite list_lookup_insert_ne in H by done].
  rewrite list_lookup_insert in H by (by eapply lookup_lt_Some). by injection H as <-. Qed.
Lemma wf_put : wf (gobjs g) → wf (gobjs (put g b v)).
Proof. intros W n o H. apply put_lookup in H as [[-> ->]|[N H]]; [by constructor|by eapply W]. Qed.
Lemma value_put_b : wf (gobjs g) → value (put g b v) b = v.
Proof. intros W. rewrite (value_unfold _ _ (wf_put W)). simpl. rewrite list_lookup_insert; [done|by eapply lookup_lt_Some]. Qed.
Lemma root_put n : wf (gobjs g) → root (put g b v) n = root g n.
Proof.
  intros W. induction n as [n IH] using lt_wf_ind. rewrite (root_unfold _ _ (wf_put W)), (root_unfold g n W). simpl.
  destruct (decide (n = b)) as [->|N].
  - rewrite list_lookup_insert by (by eapply lookup_lt_Some). by rewrite Hb.
  - rewrite list_lookup_insert_ne by done. destruct (gobjs g !! n) as [[w|c|f cs]|] eqn:E; try done.
    pose proof (W _ _ E) as K. apply Forall_cons_1 in K as [K _]. by apply IH.
Qed.
End put.

(** * Objects and their memory *)
Definition skel (o : obj) (p : gobj) : Prop :=
  match o, p with
  | Leaf _, GLeaf _ => True
  | View c, GView d => c = d
  | Fun f cs, GFun f' cs' => f = f' ∧ cs = cs'
  | _, _ => False
  end.
Definition alike (s : st) (g : gst) : Prop :=
  length (objs s) = length (gobjs g) ∧ ∀ n e p, objs s !! n = Some e → gobjs g !! n = Some p → skel (what e) p.

Lemma alike_at s g n e : alike s g → objs s !! n = Some e → ∃ p, gobjs g !! n = Some p ∧ skel (what e) p.
Proof. intros [L H] E. destruct (gobjs g !! n) as [p|] eqn:G; [exists p; split; [done|by eapply H]|].
  apply lookup_ge_None in G. apply lookup_lt_Some in E. lia. Qed.
Lemma alike_leaf s g n v : alike s g → gobjs g !! n = Some (GLeaf v) → ∃ x m, objs s !! n = Some (Cell (Leaf x) m).
Proof. intros [L H] E. destruct (objs s !! n) as [[w m]|] eqn:G.
  - specialize (H _ _ _ G E). simpl in H. destruct w as [x|c|f cs]; try done. by exists x, m.
  - apply lookup_ge_None in G. apply lookup_lt_Some in E. lia. Qed.

Lemma dep_off s g b v0 v : alike s g → wf (gobjs g) → gobjs g !! b = Some (GLeaf v0) → ∀ f n, n < f → n < length (gobjs g) → dep f s n b = false → value (put g b v) n = value g n.
Proof.
  intros A W Hb f. induction f as [|f IH]; intros n Hf L D; [lia|]. simpl in D. apply orb_false_iff in D as [Nb D].
  apply bool_decide_eq_false in Nb.
  rewrite (value_unfold _ _ (wf_put g b v0 Hb v W)), (value_unfold g n W). simpl. rewrite list_lookup_insert_ne by done.
  destruct (objs s !! n) as [[w m]|] eqn:E; simpl in D.
  2:{ apply lookup_ge_None in E. destruct A as [A _]. lia. }
  destruct (alike_at _ _ _ _ A E) as (p & P & S). rewrite P. simpl in S. pose proof (W _ _ P) as K.
  destruct w as [x|c|h cs], p as [u|d|h' ds]; try done; simpl in S, K.
  - subst d. apply Forall_cons_1 in K as [K _]. apply IH; [lia|lia|done].
  - destruct S as [<- <-]. f_equal. apply map_same. intros i c Hc. rewrite Forall_lookup in K. specialize (K i c Hc).
    apply IH; [lia|lia|]. destruct (dep f s c b) eqn:Q; [|done]. assert (existsb (λ d, dep f s d b) cs = true); [|congruence].
    apply existsb_exists. exists c. split; [|done]. apply elem_of_list_In. by eapply elem_of_list_lookup_2.
Qed.
Lemma root_dep s g b : alike s g → wf (gobjs g) → ∀ f n, n < f → root g n = Some b → dep f s n b = true.
Proof.
  intros A W f. induction f as [|f IH]; intros n Hf Rt; [lia|]. simpl. rewrite (root_unfold _ _ W) in Rt.
  destruct (gobjs g !! n) as [[u|d|h ds]|] eqn:P; try done.
  - injection Rt as ->. by rewrite bool_decide_eq_true_2.
  - destruct (objs s !! n) as [[w m]|] eqn:E.
    2:{ apply lookup_ge_None in E. apply lookup_lt_Some in P. destruct A as [A _]. lia. }
    destruct A as [AL AS]. pose proof (AS _ _ _ E P) as S. destruct w as [?|c|? ?]; simpl in S; try done. simpl. subst c.
    rewrite (IH d); [by rewrite orb_true_r| |done]. pose proof (W _ _ P) as K. apply Forall_cons_1 in K as [K _]. lia.
Qed.
Lemma inner_root s g : alike s g → wf (gobjs g) → ∀ f n, n < f → inner f s n = root g n.
Proof.
  intros A W f. induction f as [|f IH]; intros n Hf; [lia|]. simpl. rewrite (root_unfold _ _ W).
  destruct (objs s !! n) as [[w m]|] eqn:E; simpl.
  - destruct (alike_at _ _ _ _ A E) as (p & P & S). rewrite P. simpl in S. destruct w as [?|c|? ?], p as [?|d|? ?]; try done. simpl in S. subst d. apply IH.
    pose proof (W _ _ P) as K. apply Forall_cons_1 in K as [K _]. lia.
  - destruct A as [A _]. apply lookup_ge_None in E. by rewrite (proj2 (lookup_ge_None (gobjs g) n)) by lia.
Qed.
Lemma root_leaf g n b : wf (gobjs g) → root g n = Some b → ∃ v, gobjs g !! b = Some (GLeaf v).
Proof.
  intros W. induction n as [n IH] using lt_wf_ind. rewrite (root_unfold _ _ W).
  destruct (gobjs g !! n) as [[u|d|h ds]|] eqn:P; try done.
  - intros [= <-]. by exists u.
  - pose proof (W _ _ P) as K. apply Forall_cons_1 in K as [K _]. by apply IH.
Qed.

(** Basic object b shows buffer l. *)
Definition holds (s : st) (b : nat) (x : ref) : Prop := what <$> objs s !! b = Some (Leaf x).
Definition cached (s : st) (n l : nat) : Prop := ∃ e, objs s !! n = Some e ∧ memo e = Some l.

(** What is known of an array the user has, if histories are tidy. *)
Record hand (s : st) (h : nat) (r : ref) (a : garr) : Prop := Hand {
  h_data : gtag a ≠ Stale → adata (buf s (rloc r)) = gdata a;
  h_own : ∀ b x, holds s b x → rloc x = rloc r → gtag a = Of b ∨ gtag a = Stale;
  h_mine : gtag a = Mine → rw r = true ∧ gw a = true;
  h_kind : akind (buf s (rloc r)) = Ints ↔ gkind a = Ints;
  h_alone : gtag a = Mine → ∀ h' r', h' ≠ h → seen s !! h' = Some r' → rloc r' ≠ rloc r;
  h_memo : gtag a = Mine → ∀ n, ¬ cached s n (rloc r) }.

Record inv (t : bool) (s : st) (g : gst) : Prop := Inv {
  i_alike : alike s g;
  i_wf : wf (gobjs g);
  i_memo : ∀ n l, cached s n l → l < length (mem s) ∧ adata (buf s l) = value g n ∧
    (t = true → akind (buf s l) ≠ Ints ∧ ∀ b x, holds s b x → rloc x = l → root g n = Some b);
  i_leaf : ∀ b x, holds s b x → rloc x < length (mem s) ∧ adata (buf s (rloc x)) = value g b ∧
    (t = true → rw x = true ∧ akind (buf s (rloc x)) ≠ Ints);
  i_seen : length (seen s) = length (garrs g);
  i_hand : ∀ h r a, seen s !! h = Some r → garrs g !! h = Some a → rloc r < length (mem s) ∧
    (t = false → adata (buf s (rloc r)) = gdata a) ∧ (t = true → hand s h r a);
  i_inj : t = true → ∀ b b' x x', holds s b x → holds s b' x' → rloc x = rloc x' → b = b' }.

Lemma inv_empty t : inv t empty_st (GSt [] []).
Proof.
  assert (C : ∀ n l, ¬ cached empty_st n l) by (intros n l (e & E & _); by simpl in E).
  split; try done.
  - by intros n l ?%C.
Qed.

(** * Reading *)
Lemma buf_app s a l : l < length (mem s) → buf (fst (alloc s a)) l = buf s l.
Proof. intros L. unfold buf. simpl. by rewrite lookup_app_l. Qed.
Lemma buf_new s a : buf (fst (alloc s a)) (length (mem s)) = a.
Proof. unfold buf. simpl. rewrite lookup_app_r by done. by rewrite Nat.sub_diag. Qed.

(** The state has grown: new buffers and cached values only. *)
Definition grown (s s' : st) : Prop :=
  (∃ ext, mem s' = mem s ++ ext) ∧ seen s' = seen s ∧ what <$> objs s' = what <$> objs s.
Lemma grown_refl s : grown s s.
Proof. repeat split. exists []. by rewrite app_nil_r. Qed.
Lemma grown_trans s1 s2 s3 : grown s1 s2 → grown s2 s3 → grown s1 s3.
Proof. intros ([e1 E1] & S1 & O1) ([e2 E2] & S2 & O2). repeat split; [|congruence|congruence]. exists (e1 ++ e2). by rewrite E2, E1, app_assoc. Qed.
Lemma grown_buf s s' l : grown s s' → l < length (mem s) → buf s' l = buf s l.
Proof. intros ([e E] & _) L. unfold buf. by rewrite E, lookup_app_l. Qed.
Lemma grown_len s s' : grown s s' → length (mem s) ≤ length (mem s').
Proof. intros ([e E] & _). rewrite E, app_length. lia. Qed.
Lemma grown_holds s s' b x : grown s s' → holds s' b x ↔ holds s b x.
Proof. intros (_ & _ & O). unfold holds. by rewrite <- !list_lookup_fmap, O. Qed.
Lemma grown_alike s s' g : grown s s' → alike s g → alike s' g.
Proof.
  intros (_ & _ & O) [L A]. split.
  - rewrite <- L. rewrite <- (fmap_length what (objs s')), O. by rewrite fmap_length.
  - intros n e p E P. assert (Q : what <$> objs s !! n = Some (what e)) by (rewrite <- list_lookup_fmap, <- O, list_lookup_fmap, E; done).
    destruct (objs s !! n) as [e0|] eqn:E0; [|done]. injection Q as <-. by eapply A.
Qed.
Lemma alloc_grown s a : grown s (fst (alloc s a)).
Proof. repeat split. by exists [a]. Qed.
Lemma set_memo_grown s n l : grown s (set_memo s n l).
Proof. repeat split; [exists []; by rewrite app_nil_r|]. simpl. apply list_eq. intros i. rewrite !list_lookup_fmap.
  destruct (decide (i = n)) as [->|N]; [rewrite list_lookup_alter|by rewrite list_lookup_alter_ne]. by destruct (objs s !! n). Qed.

Lemma inv_alloc t s g a : inv t s g → inv t (fst (alloc s a)) g.
Proof.
  intros I. pose proof (alloc_grown s a) as G. assert (Hl : length (mem (fst (alloc s a))) = S (length (mem s))) by (simpl; rewrite app_length; simpl; lia).
  split.
  - by eapply grown_alike, I.
  - apply I.
  - intros n l C. destruct (i_memo _ _ _ I n l C) as (L & D & O). split; [lia|]. by rewrite buf_app.
  - intros b x H. destruct (i_leaf _ _ _ I b x H) as (L & D & O). split; [lia|]. by rewrite buf_app.
  - apply I.
  - intros h r a0 Hs Ha. destruct (i_hand _ _ _ I h r a0 Hs Ha) as (L & D & O). split; [lia|]. rewrite (buf_app s a) by done. split; [done|].
    intros Ht. destruct (O Ht) as [O1 O2 O3 OK O4 O5]. split; try done; by rewrite (buf_app s a).
  - apply I.
Qed.

Lemma inv_memo t s g n l : inv t s g → l < length (mem s) → adata (buf s l) = value g n →
  (t = true → akind (buf s l) ≠ Ints ∧ ∀ b x, holds s b x → rloc x = l → root g n = Some b) →
  (t = true → ∀ h r a, seen s !! h = Some r → garrs g !! h = Some a → gtag a = Mine → rloc r ≠ l) →
  inv t (set_memo s n l) g.
Proof.
  intros I L D O M. pose proof (set_memo_grown s n l) as G.
  assert (C : ∀ n' l', cached (set_memo s n l) n' l' → cached s n' l' ∨ (n' = n ∧ l' = l)).
  { intros n' l' (e & E & Me). simpl in E. destruct (decide (n' = n)) as [->|N].
    - rewrite list_lookup_alter in E. destruct (objs s !! n); [|done]. injection E as <-. injection Me as <-. by right.
    - rewrite list_lookup_alter_ne in E by done. left. by exists e. }
  split.
  - by eapply grown_alike, I.
  - apply I.
  - intros n' l' [C'|[-> ->]]%C.
    + destruct (i_memo _ _ _ I n' l' C') as (L' & D' & O'). split; [done|]. split; [done|]. intros Ht. destruct (O' Ht) as [Ok Or]. split; [done|]. intros b x H. apply Or. by rewrite <- (grown_holds _ _ _ _ G).
    + split; [done|]. split; [done|]. intros Ht. destruct (O Ht) as [Ok Or]. split; [done|]. intros b x H. apply Or. by rewrite <- (grown_holds _ _ _ _ G).
  - intros b x H. apply (i_leaf _ _ _ I). by rewrite <- (grown_holds _ _ _ _ G).
  - apply I.
  - intros h r a Hs Ha. destruct (i_hand _ _ _ I h r a Hs Ha) as (L' & D' & O'). split; [done|]. split; [done|].
    intros Ht. destruct (O' Ht) as [O1 O2 O3 OK O4 O5]. split; try done.
    + intros b x Hb. apply O2. by rewrite <- (grown_holds _ _ _ _ G).
    + intros T n' [C'|[-> Q]]%C; [by eapply O5|]. by eapply M.
  - intros Ht b b' x x' H H'. apply (i_inj _ _ _ I); [done|by rewrite <- (grown_holds _ _ _ _ G)..].
Qed.

Definition got (t : bool) (s : st) (g : gst) (n : nat) (s1 : st) (l : nat) : Prop :=
  grown s s1 ∧ inv t s1 g ∧ l < length (mem s1) ∧ adata (buf s1 l) = value g n ∧
  (t = true → akind (buf s1 l) ≠ Ints ∧ ∀ b x, holds s1 b x → rloc x = l → root g n = Some b) ∧
  (t = true → ∀ h r a, seen s1 !! h = Some r → garrs g !! h = Some a → gtag a = Mine → rloc r ≠ l).

Lemma got_fresh t s g n d : inv t s g → d = value g n → got t s g n (fst (alloc s (Arr Plain d))) (length (mem s)).
Proof.
  intros I E. split_and!; [apply alloc_grown|by apply inv_alloc|simpl; rewrite app_length; simpl; lia|by rewrite buf_new| |].
  - intros _. rewrite buf_new. split; [done|]. intros b x H Q. assert (holds s b x) as H' by done. apply (i_leaf _ _ _ I) in H' as [? _]. lia.
  - intros _ h r a Hs Ha _. destruct (i_hand _ _ _ I h r a Hs Ha) as [? _]. lia.
Qed.

Lemma get_got t g : ∀ f s n, inv t s g → n < f → n < length (objs s) → got t s g n (fst (get f s n)) (snd (get f s n)).
Proof.
  induction f as [|f IH]; intros s n I Hf L; [lia|]. simpl.
  destruct (objs s !! n) as [[w m]|] eqn:E; [|apply lookup_ge_None in E; lia]. simpl.
  destruct m as [l|].
  { simpl. assert (C : cached s n l) by (by exists (Cell w (Some l))). destruct (i_memo _ _ _ I n l C) as (Ll & D & O).
    split_and!; [apply grown_refl|done|done|done|done|]. intros Ht h r a Hs Ha T Q.
    destruct (i_hand _ _ _ I h r a Hs Ha) as (_ & _ & Hh). apply (h_memo _ _ _ _ (Hh Ht) T n). by rewrite Q. }
  set (body := match w with Leaf x => _ | View c => _ | Fun _ _ => _ end).
  assert (B : got t s g n (fst body) (snd body)).
  { destruct (alike_at _ _ _ _ (i_alike _ _ _ I) E) as (p & P & S). simpl in S. pose proof (i_wf _ _ _ I) as W. pose proof (W _ _ P) as K.
    destruct w as [x|c|h cs], p as [u|c'|h' cs']; try done; unfold body.
    - assert (H : holds s n x) by (unfold holds; by rewrite E). destruct (i_leaf _ _ _ I n x H) as (Lx & D & Q).
      destruct (akind (buf s (rloc x))) eqn:Ek; [|by apply got_fresh|by apply got_fresh].
      split_and!; [apply grown_refl|done|done|done| |].
      + simpl. intros Ht. split; [by rewrite Ek|]. intros b y Hy Ry. assert (b = n) as -> by (by eapply (i_inj _ _ _ I)). rewrite (root_unfold _ _ W), P. done.
      + simpl. intros Ht h r a Hs Ha T R. destruct (i_hand _ _ _ I h r a Hs Ha) as (_ & _ & Hh).
        destruct (h_own _ _ _ _ (Hh Ht) n x H (eq_sym R)); congruence.
    - simpl in S, K. subst c'. apply Forall_cons_1 in K as [K _]. destruct (IH s c I) as (G1 & I1 & L1 & D1 & O1 & M1); [lia|lia|].
      split_and!; [done|done|done| | |done].
      + by rewrite D1, (value_unfold g n W), P.
      + intros Ht. destruct (O1 Ht) as [Ok Or]. split; [done|]. intros b x H R. rewrite (root_unfold g n W), P. by eapply Or.
    - simpl in S, K. destruct S as [<- <-]. rename h into fn.
      assert (F : ∀ cs1 s0 vs, Forall (λ c, c < n) cs1 → inv t s0 g → grown s s0 →
        ∃ s1, foldl (λ '(s0, vs) c, let '(s1, l) := get f s0 c in (s1, vs ++ [adata (buf s1 l)])) (s0, vs) cs1 = (s1, vs ++ map (value g) cs1) ∧ inv t s1 g ∧ grown s s1).
      { induction cs1 as [|c cs1 IHc]; intros s0 vs Fc I0 G0.
        - exists s0. simpl. by rewrite app_nil_r.
        - apply Forall_cons_1 in Fc as [Lc Fc]. simpl.
          destruct (IH s0 c I0) as (G1 & I1 & L1 & D1 & _); [lia| |].
          { destruct (i_alike _ _ _ I0) as [-> _]. apply lookup_lt_Some in P. lia. }
          destruct (get f s0 c) as [s1 l1]. simpl in *. rewrite D1.
          destruct (IHc s1 (vs ++ [value g c]) Fc I1) as (s2 & -> & I2 & G2); [by eapply grown_trans|].
          exists s2. by rewrite <- app_assoc. }
      destruct (F cs s [] K I (grown_refl s)) as (s1 & -> & I1 & G1).
      destruct (got_fresh t s1 g n (fn (map (value g) cs)) I1) as (G2 & R2); [by rewrite (value_unfold g n W), P|].
      split; [by eapply grown_trans|done]. }
  destruct body as [s1 l]. simpl in *. destruct B as (G & I1 & L1 & D1 & O1 & M1).
  pose proof (set_memo_grown s1 n l) as G2.
  split_and!; [by eapply grown_trans|by apply inv_memo|done|done| |done].
  intros Ht. destruct (O1 Ht) as [Ok Or]. split; [done|]. intros b x H. apply Or. by rewrite <- (grown_holds _ _ _ _ G2).
Qed.

Lemma inv_now t s g n : inv t s g → n < length (objs s) → now s n = value g n.
Proof. intros I L. unfold now. destruct (get_got t g (S n) s n I ltac:(lia) L) as (_ & _ & _ & D & _). by destruct (get (S n) s n). Qed.

(** * Calls *)
Lemma lookup_snoc {A} (l : list A) a n y : (l ++ [a]) !! n = Some y → l !! n = Some y ∨ (n = length l ∧ y = a).
Proof. intros E. apply lookup_app_Some in E as [E|[L E]]; [by left|]. apply list_lookup_singleton_Some in E as [E ->]. right. split; [lia|done]. Qed.

Lemma inv_push_ref t s g r a : inv t s g → rloc r < length (mem s) → (t = false → adata (buf s (rloc r)) = gdata a) →
  (t = true → (gtag a ≠ Stale → adata (buf s (rloc r)) = gdata a) ∧ (∀ b x, holds s b x → rloc x = rloc r → gtag a = Of b ∨ gtag a = Stale) ∧
    (gtag a = Mine → rw r = true ∧ gw a = true) ∧ (akind (buf s (rloc r)) = Ints ↔ gkind a = Ints) ∧
    (gtag a = Mine → (∀ h' r', seen s !! h' = Some r' → rloc r' ≠ rloc r) ∧ ∀ n, ¬ cached s n (rloc r)) ∧
    (∀ h' r' a', seen s !! h' = Some r' → garrs g !! h' = Some a' → gtag a' = Mine → rloc r' ≠ rloc r)) →
  inv t (push_ref s r) (add_arr g a).
Proof.
  intros I L D H. split; try apply I.
  - simpl. rewrite !app_length. by rewrite (i_seen _ _ _ I).
  - intros h r0 a0 Hs Ha. simpl in Hs, Ha. apply lookup_snoc in Hs as [Hs|[Eh ->]], Ha as [Ha|[Eh' ->]].
    + destruct (i_hand _ _ _ I h r0 a0 Hs Ha) as (L0 & D0 & H0). split; [done|]. split; [done|]. intros Ht.
      destruct (H0 Ht) as [O1 O2 O3 OK O4 O5]. split; try done. intros T h' r' N Hs'. simpl in Hs'. apply lookup_snoc in Hs' as [Hs'|[_ ->]]; [by eapply O4|].
      destruct (H Ht) as (_ & _ & _ & _ & _ & H5). intros Q. by eapply (H5 h r0 a0).
    + apply lookup_lt_Some in Hs. rewrite (i_seen _ _ _ I) in Hs. lia.
    + apply lookup_lt_Some in Ha. rewrite <- (i_seen _ _ _ I) in Ha. lia.
    + split; [done|]. split; [done|]. intros Ht. destruct (H Ht) as (H1 & H2 & H3 & HK & H4 & H5). split; try done.
      * intros T h' r' N Hs'. simpl in Hs'. apply lookup_snoc in Hs' as [Hs'|[-> _]]; [by eapply (H4 T)|lia].
      * intros T. apply (H4 T).
Qed.

Lemma push_alike s g o p : alike s g → skel o p → alike (push_obj s o) (add_obj g p).
Proof.
  intros [L A] S. split; [simpl; rewrite !app_length; simpl; lia|]. intros n e q E Q. simpl in E, Q.
  apply lookup_snoc in E as [E|[-> ->]], Q as [Q|[En ->]].
  - by eapply A.
  - apply lookup_lt_Some in E. lia.
  - apply lookup_lt_Some in Q. lia.
  - done.
Qed.
Lemma push_holds s o b x : holds (push_obj s o) b x → holds s b x ∨ (b = length (objs s) ∧ o = Leaf x).
Proof.
  unfold holds. simpl. intros H. destruct ((objs s ++ [Cell o None]) !! b) as [e|] eqn:E; [|done].
  apply lookup_snoc in E as [E|[-> ->]]; [left; by rewrite E|right]. by injection H as ->.
Qed.
Lemma push_cached s o n l : cached (push_obj s o) n l → cached s n l.
Proof. intros (e & E & M). simpl in E. apply lookup_snoc in E as [E|[-> ->]]; [by exists e|done]. Qed.
Lemma holds_lt s b x : holds s b x → b < length (objs s).
Proof. unfold holds. intros H. destruct (objs s !! b) eqn:E; [by eapply lookup_lt_Some|done]. Qed.
Lemma cached_lt s n l : cached s n l → n < length (objs s).
Proof. intros (e & E & _). by eapply lookup_lt_Some. Qed.

Lemma inv_push_obj t s g o p : inv t s g → skel o p → Forall (λ c, c < length (gobjs g)) (kids p) →
  (∀ x v, o = Leaf x → p = GLeaf v → rloc x < length (mem s) ∧ adata (buf s (rloc x)) = v ∧
    (t = true → rw x = true ∧ akind (buf s (rloc x)) ≠ Ints ∧ (∀ b x', holds s b x' → rloc x' ≠ rloc x) ∧ (∀ n, ¬ cached s n (rloc x)) ∧
      (∀ h r a, seen s !! h = Some r → garrs g !! h = Some a → rloc x = rloc r → gtag a = Of (length (objs s))))) →
  inv t (push_obj s o) (add_obj g p).
Proof.
  intros I S F H. pose proof (i_wf _ _ _ I) as W. pose proof (i_alike _ _ _ I) as [AL _].
  assert (N : ∀ b x, holds (push_obj s o) b x → holds s b x ∨ (b = length (objs s) ∧ ∃ v, o = Leaf x ∧ p = GLeaf v)).
  { intros b x [Hb|[Eb ->]]%push_holds; [by left|]. right. split; [done|]. destruct p as [v|?|? ?]; try done. by exists v. }
  split.
  - by apply push_alike, S; apply I.
  - by apply wf_add.
  - intros n l C%push_cached. destruct (i_memo _ _ _ I n l C) as (L & D & O). pose proof (cached_lt _ _ _ C) as Cl. rewrite AL in Cl.
    rewrite value_add by done. split; [done|]. split; [done|]. intros Ht. destruct (O Ht) as [Ok Or]. split; [done|]. intros b x [Hb|[-> (v & -> & ->)]]%N R.
    + rewrite root_add by done. by eapply Or.
    + destruct (H x v eq_refl eq_refl) as (_ & _ & H'). destruct (H' Ht) as (_ & _ & _ & H4 & _). destruct (H4 n). by rewrite R.
  - intros b x [Hb|[-> (v & -> & ->)]]%N.
    + destruct (i_leaf _ _ _ I b x Hb) as (L & D & O). pose proof (holds_lt _ _ _ Hb) as Cl. rewrite AL in Cl. rewrite value_add by done. done.
    + destruct (H x v eq_refl eq_refl) as (L & D & H'). split; [done|]. split; [rewrite AL; by rewrite (value_new g (GLeaf v) W F v eq_refl)|].
      intros Ht. destruct (H' Ht) as (? & ? & _). done.
  - apply I.
  - intros h r a Hs Ha. destruct (i_hand _ _ _ I h r a Hs Ha) as (L & D & O). split; [done|]. split; [done|]. intros Ht.
    destruct (O Ht) as [O1 O2 O3 OK O4 O5]. split; try done.
    + intros b x [Hb|[-> (v & -> & ->)]]%N R; [by eapply O2|]. destruct (H x v eq_refl eq_refl) as (_ & _ & H'). destruct (H' Ht) as (_ & _ & _ & _ & H5).
      left. by eapply H5.
    + intros T n C%push_cached. by eapply O5.
  - intros Ht b b' x x' Hb Hb' R. apply N in Hb as [Hb|[-> (v & -> & ->)]]; apply N in Hb' as [Hb'|[-> (v' & E' & E2)]]; [by eapply (i_inj _ _ _ I)| | |done].
    + destruct (H x' v' E' E2) as (_ & _ & H'). destruct (H' Ht) as (_ & _ & H3 & _). by apply H3 in Hb.
    + destruct (H x v eq_refl eq_refl) as (_ & _ & H'). destruct (H' Ht) as (_ & _ & H3 & _). symmetry in R. by apply H3 in Hb'.
Qed.

(** Tags. *)
Lemma give_lookup g h b h' a : garrs (give g h b) !! h' = Some a → ∃ a0, garrs g !! h' = Some a0 ∧ gkind a = gkind a0 ∧ gdata a = gdata a0 ∧ gw a = gw a0 ∧
  (gtag a = gtag a0 ∨ (h' = h ∧ gtag a = Of b)) ∧ (h' = h → gkind a0 ≠ Ints → gtag a = Of b).
Proof.
  simpl. destruct (decide (h' = h)) as [->|N].
  - rewrite list_lookup_alter. destruct (garrs g !! h) as [a0|]; [|done]. simpl. intros [= <-]. exists a0. destruct (decide _); simpl; split_and!; auto; done.
  - rewrite list_lookup_alter_ne by done. intros E. exists a. split_and!; auto; done.
Qed.
Lemma leave_lookup g b t h a : garrs (leave g b t) !! h = Some a → ∃ a0, garrs g !! h = Some a0 ∧ gkind a = gkind a0 ∧ gdata a = gdata a0 ∧ gw a = gw a0 ∧
  gtag a = if decide (gtag a0 = Of b) then t else gtag a0.
Proof. simpl. intros E. apply (list_lookup_fmap_inv (retag _) (garrs g)) in E as (a0 & -> & E). by exists a0. Qed.

Lemma inv_give t s g h b : inv t s g → (t = true → ∀ a, garrs g !! h = Some a → gtag a = Mine) → inv t s (give g h b).
Proof.
  intros I M. split; try apply I.
  - simpl. by rewrite alter_length, (i_seen _ _ _ I).
  - intros h' r a Hs Ha. apply give_lookup in Ha as (a0 & Ha & Ek & Ed & Ew & Et & _). destruct (i_hand _ _ _ I h' r a0 Hs Ha) as (L & D & O).
    rewrite Ed. split; [done|]. split; [done|]. intros Ht. destruct (O Ht) as [O1 O2 O3 OK O4 O5]. destruct Et as [Et|[-> Et]].
    + split; rewrite ?Et, ?Ek, ?Ed, ?Ew; done.
    + split; rewrite ?Et; try done.
      * intros _. rewrite Ed. apply O1. by rewrite (M Ht a0 Ha).
      * intros b' x Hb R. destruct (O2 b' x Hb R) as [Q|Q]; rewrite (M Ht a0 Ha) in Q; done.
      * by rewrite Ek.
Qed.

(** Clearing. *)
Lemma clear_cached s b n l : cached (clear s b) n l → cached s n l ∧ dep (S n) s n b = false.
Proof.
  intros (e & E & M). unfold clear in E. cbn [objs] in E. rewrite list_lookup_imap in E. destruct (objs s !! n) as [e0|] eqn:E0; [|done].
  assert (Q : e = if dep (S n) s n b then Cell (what e0) None else e0) by (symmetry; exact (f_equal (default e0) E)). revert Q. generalize (dep (S n) s n b).
  intros [|] ->; [done|]. split; [by exists e0|done].
Qed.
Lemma clear_what s b : what <$> objs (clear s b) = what <$> objs s.
Proof. apply list_eq. intros i. unfold clear. cbn [objs]. rewrite !list_lookup_fmap, list_lookup_imap. destruct (objs s !! i); [|done]. cbn [fmap option_fmap option_map]. by destruct (dep _ _ _ _). Qed.
Lemma clear_grown s b : grown s (clear s b).
Proof. repeat split; [exists []; by rewrite app_nil_r|apply clear_what]. Qed.

Lemma set_what_holds s b x0 x b' y : holds s b x0 → holds (set_what s b (Leaf x)) b' y ↔ if decide (b' = b) then y = x else holds s b' y.
Proof.
  unfold holds, set_what. cbn [objs]. intros H. destruct (decide (b' = b)) as [->|N].
  - rewrite list_lookup_alter. destruct (objs s !! b); [|done]. simpl. split; [by intros [= ->]|by intros ->].
  - by rewrite list_lookup_alter_ne.
Qed.
Lemma set_what_alike s g b x0 x v arrs : alike s g → holds s b x0 → alike (set_what s b (Leaf x)) (GSt (<[b := GLeaf v]> (gobjs g)) arrs).
Proof.
  intros [L A] H. split; [simpl; by rewrite alter_length, insert_length|]. intros n e p E P. simpl in E, P.
  pose proof (holds_lt _ _ _ H) as Lb. destruct (decide (n = b)) as [->|N].
  - rewrite list_lookup_alter in E. rewrite list_lookup_insert in P by lia. injection P as <-. destruct (objs s !! b); [|done]. by injection E as <-.
  - rewrite list_lookup_alter_ne in E by done. rewrite list_lookup_insert_ne in P by done. by eapply A.
Qed.
Lemma holds_gobj t s g b x : inv t s g → holds s b x → ∃ v, gobjs g !! b = Some (GLeaf v).
Proof.
  intros I H. unfold holds in H. destruct (objs s !! b) as [[w m]|] eqn:E; [|done]. simpl in H. injection H as ->.
  destruct (alike_at _ _ _ _ (i_alike _ _ _ I) E) as (p & P & S). simpl in S. destruct p as [v|?|? ?]; try done. by exists v.
Qed.

Lemma inv_reassign t s g b x0 x v arrs : let s' := clear (set_what s b (Leaf x)) b in
  inv t s g → holds s b x0 → rloc x < length (mem s) → adata (buf s (rloc x)) = v →
  (t = true → rw x = true ∧ akind (buf s (rloc x)) ≠ Ints ∧ (∀ b' x', b' ≠ b → holds s b' x' → rloc x' ≠ rloc x) ∧ ∀ n, ¬ cached s n (rloc x)) →
  length arrs = length (garrs g) →
  (∀ h r a, seen s !! h = Some r → arrs !! h = Some a → rloc r < length (mem s) ∧ (t = false → adata (buf s (rloc r)) = gdata a) ∧ (t = true → hand s' h r a)) →
  inv t s' (GSt (<[b := GLeaf v]> (gobjs g)) arrs).
Proof.
  intros s' I H L D T La Hh. destruct (holds_gobj _ _ _ _ _ I H) as [v0 Hb].
  pose proof (i_wf _ _ _ I) as W. pose proof (i_alike _ _ _ I) as A. set (g' := GSt _ arrs).
  assert (G : grown (set_what s b (Leaf x)) s') by apply clear_grown.
  assert (A1 : alike (set_what s b (Leaf x)) g') by (by eapply set_what_alike).
  assert (Hs : ∀ b' y, holds s' b' y ↔ if decide (b' = b) then y = x else holds s b' y).
  { intros b' y. rewrite (grown_holds _ _ _ _ G). by eapply set_what_holds. }
  assert (Wb : wf (gobjs g')) by (by apply (wf_put g b v0 Hb v)).
  assert (Cs : ∀ n l, cached s' n l → cached s n l ∧ dep (S n) (set_what s b (Leaf x)) n b = false).
  { intros n l C. apply clear_cached in C as [(e & E & M) Dp]. split; [|done]. cbn [set_what objs] in E. destruct (decide (n = b)) as [->|N].
    - rewrite list_lookup_alter in E. destruct (objs s !! b) as [e0|] eqn:E0; [|done]. injection E as <-. by exists e0.
    - rewrite list_lookup_alter_ne in E by done. by exists e. }
  assert (Ro : ∀ n, root g' n = root g n) by (intros n; by apply (root_put g b v0 Hb v n)).
  split.
  - by eapply grown_alike.
  - done.
  - intros n l [C Dp]%Cs. destruct (i_memo _ _ _ I n l C) as (Ll & Dl & O). split; [done|]. split.
    + change (buf s' l) with (buf s l). rewrite Dl. pose proof (cached_lt _ _ _ C) as Cl. symmetry.
      apply (dep_off (set_what s b (Leaf x)) g b v0 v) with (f := S n); [|done|done|lia|destruct A as [<- _]; done|done].
      destruct A as [AL AS]. split; [simpl; by rewrite alter_length|]. intros m e p E P. cbn [set_what objs] in E. destruct (decide (m = b)) as [->|N].
      * rewrite list_lookup_alter in E. destruct (objs s !! b); [|done]. injection E as <-. rewrite Hb in P. by injection P as <-.
      * rewrite list_lookup_alter_ne in E by done. by eapply AS.
    + intros Ht. destruct (O Ht) as [Ok Or]. split; [done|]. intros b' y Hy R. rewrite Ro. apply Hs in Hy. destruct (decide (b' = b)) as [->|N]; [subst y|by eapply Or].
      destruct (T Ht) as (_ & _ & _ & Tc). destruct (Tc n). by rewrite R.
  - intros b' y Hy%Hs. change (buf s' (rloc y)) with (buf s (rloc y)). destruct (decide (b' = b)) as [->|N].
    + subst y. split; [done|]. split; [by rewrite (value_put_b g b v0 Hb v W : value g' b = v)|]. intros Ht. destruct (T Ht) as (? & ? & _). done.
    + destruct (i_leaf _ _ _ I b' y Hy) as (Ly & Dy & Oy). split; [done|]. split; [|done]. rewrite Dy.
      destruct (holds_gobj _ _ _ _ _ I Hy) as [w Hw]. rewrite (value_unfold g b' W), (value_unfold g' b' Wb). simpl. rewrite list_lookup_insert_ne by done. by rewrite Hw.
  - simpl. rewrite La. apply I.
  - done.
  - intros Ht b1 b2 x1 x2 H1%Hs H2%Hs R. destruct (T Ht) as (_ & _ & Tn & _). destruct (decide (b1 = b)) as [->|N1], (decide (b2 = b)) as [->|N2]; [done|..].
    + subst x1. by apply Tn in H2.
    + subst x2. by apply Tn in H1.
    + by eapply (i_inj _ _ _ I).
Qed.

Lemma buf_write s l i v l' : l < length (mem s) → buf (write s l i v) l' = if decide (l' = l) then poke (buf s l) i v else buf s l'.
Proof.
  intros L. unfold buf, write. cbn [mem]. destruct (decide (l' = l)) as [->|N].
  - rewrite list_lookup_alter. destruct (mem s !! l) eqn:E; [done|]. apply lookup_ge_None in E. lia.
  - by rewrite list_lookup_alter_ne.
Qed.
Lemma write_len s l i v : length (mem (write s l i v)) = length (mem s).
Proof. simpl. by rewrite alter_length. Qed.
Lemma put_alike s g b v0 v : alike s g → gobjs g !! b = Some (GLeaf v0) → alike s (put g b v).
Proof.
  intros [L A] Hb. split; [simpl; by rewrite insert_length|]. intros n e p E [[-> ->]|[N P]]%(put_lookup g b v0 Hb v); [|by eapply A].
  specialize (A b e _ E Hb). by destruct (what e).
Qed.

Lemma inv_poke_leaf s g b x i v : inv true s g → holds s b x → i < length (value g b) →
  inv true (clear (write s (rloc x) i v) b) (put (leave g b Stale) b (<[i := v]> (value g b))).
Proof.
  intros I H Li. destruct (holds_gobj _ _ _ _ _ I H) as [v0 Hb]. pose proof (i_wf _ _ _ I) as W. pose proof (i_alike _ _ _ I) as A.
  destruct (i_leaf _ _ _ I b x H) as (Lx & Dx & Ox). destruct (Ox eq_refl) as [Wx Kx].
  set (v' := <[i := v]> (value g b)). set (s1 := write s (rloc x) i v). set (g' := put _ b v').
  assert (G : grown s1 (clear s1 b)) by apply clear_grown.
  assert (Hs : ∀ b' y, holds (clear s1 b) b' y ↔ holds s b' y) by (intros b' y; by rewrite (grown_holds _ _ _ _ G)).
  assert (Wb : wf (gobjs g')) by (by apply (wf_put g b v0 Hb v')).
  assert (Ro : ∀ n, root g' n = root g n) by (intros n; by apply (root_put g b v0 Hb v' n)).
  assert (Bo : ∀ l, l ≠ rloc x → buf (clear s1 b) l = buf s l).
  { intros l N. change (buf (clear s1 b) l) with (buf s1 l). unfold s1. rewrite buf_write by done. by rewrite decide_False. }
  assert (Bx : buf (clear s1 b) (rloc x) = Arr (akind (buf s (rloc x))) v').
  { change (buf (clear s1 b) (rloc x)) with (buf s1 (rloc x)). unfold s1. rewrite buf_write, decide_True by done. unfold poke, v'. rewrite Dx.
    unfold store. by destruct (akind (buf s (rloc x))). }
  assert (Ml : length (mem (clear s1 b)) = length (mem s)) by (apply write_len).
  split.
  - eapply grown_alike; [done|]. by apply (put_alike s1 (leave g b Stale) b v0 v').
  - done.
  - intros n l [C Dp]%clear_cached. destruct (i_memo _ _ _ I n l C) as (Ll & Dl & O). rewrite Ml. split; [done|].
    assert (N : l ≠ rloc x). { intros ->. pose proof (proj2 (O eq_refl) b x H eq_refl) as Rt. by rewrite (root_dep s1 g b A W (S n) n ltac:(lia) Rt) in Dp. }
    rewrite Bo by done. split.
    + rewrite Dl. symmetry. pose proof (cached_lt _ _ _ C) as Cl. apply (dep_off s1 g b v0 v' A W Hb (S n)); [lia|destruct A as [<- _]; done|done].
    + intros _. destruct (O eq_refl) as [Ok Or]. split; [done|]. intros b' y Hy%Hs R. rewrite Ro. by eapply Or.
  - intros b' y Hy%Hs. rewrite Ml. destruct (i_leaf _ _ _ I b' y Hy) as (Ly & Dy & Oy). destruct (decide (b' = b)) as [->|N].
    + assert (y = x) as -> by (unfold holds in *; congruence). split; [done|]. rewrite Bx. split; [by rewrite (value_put_b g b v0 Hb v' W : value g' b = v')|]. done.
    + split; [done|]. rewrite Bo. 2:{ intros R. by apply N, (i_inj _ _ _ I eq_refl b' b y x). }
      split; [|done]. rewrite Dy. destruct (holds_gobj _ _ _ _ _ I Hy) as [w Hw]. rewrite (value_unfold g b' W), (value_unfold g' b' Wb). simpl. rewrite list_lookup_insert_ne by done. by rewrite Hw.
  - simpl. rewrite map_length. apply I.
  - intros h r a Hh Ha. apply leave_lookup in Ha as (a0 & Ha & Ek & Ed & Ew & Et). destruct (i_hand _ _ _ I h r a0 Hh Ha) as (L & _ & O). rewrite Ml. split; [done|]. split; [done|].
    intros _. destruct (O eq_refl) as [O1 O2 O3 OK O4 O5].
    assert (Nt : gtag a ≠ Stale → gtag a = gtag a0 ∧ rloc r ≠ rloc x).
    { intros NS. destruct (decide (gtag a0 = Of b)) as [T|T]; [done|]. split; [done|]. intros R. destruct (O2 b x H (eq_sym R)) as [?|?]; congruence. }
    split.
    + intros NS. destruct (Nt NS) as [T N]. rewrite Bo, Ed by done. apply O1. congruence.
    + intros b' y Hy%Hs R. destruct (O2 b' y Hy R) as [T|T]; destruct (decide (gtag a0 = Of b)) as [T'|T']; rewrite Et; auto; by left.
    + intros T. destruct (Nt ltac:(congruence)) as [T1 N]. rewrite Ew. apply O3. congruence.
    + rewrite Ek, <- OK. destruct (decide (rloc r = rloc x)) as [->|N]; [by rewrite Bx|by rewrite Bo].
    + intros T. apply O4. destruct (Nt ltac:(congruence)) as [T1 N]. congruence.
    + intros T n [C _]%clear_cached. apply (O5 ltac:(destruct (Nt ltac:(congruence)); congruence) n C).
  - intros _ b1 b2 x1 x2 H1%Hs H2%Hs R. by eapply (i_inj _ _ _ I).
Qed.

Lemma inv_poke_mine s g h r a i v : inv true s g → seen s !! h = Some r → garrs g !! h = Some a → gtag a = Mine →
  inv true (write s (rloc r) i v) (GSt (gobjs g) (<[h := GArr (gkind a) (<[i := store (gkind a) v]> (gdata a)) (gw a) (gtag a)]> (garrs g))).
Proof.
  intros I Hs Ha T. destruct (i_hand _ _ _ I h r a Hs Ha) as (L & _ & O). destruct (O eq_refl) as [O1 O2 O3 OK O4 O5]. clear O.
  assert (Nx : ∀ b x, holds s b x → rloc x ≠ rloc r). { intros b x H R. destruct (O2 b x H R); congruence. }
  assert (Bo : ∀ l, l ≠ rloc r → buf (write s (rloc r) i v) l = buf s l). { intros l N. rewrite buf_write by done. by rewrite decide_False. }
  split.
  - apply I.
  - apply I.
  - intros n l C. change (cached s n l) in C. destruct (i_memo _ _ _ I n l C) as (Ll & Dl & Ol). rewrite write_len.
    split; [done|]. rewrite Bo; [done|]. intros ->. by apply (O5 T n).
  - intros b x H. destruct (i_leaf _ _ _ I b x H) as (Lx & Dx & Ox). rewrite write_len, Bo by (by eapply Nx). done.
  - simpl. rewrite insert_length. apply I.
  - intros h' r' a' Hs' Ha'. simpl in Ha'. rewrite write_len. destruct (decide (h' = h)) as [->|N].
    + assert (r' = r) as -> by (change (seen s !! h = Some r') in Hs'; congruence).
      rewrite list_lookup_insert in Ha' by (by eapply lookup_lt_Some). injection Ha' as <-. split; [done|]. split; [done|]. intros _.
      split; simpl; try done.
      * intros _. rewrite buf_write, decide_True by done. simpl. rewrite O1 by congruence. f_equal.
        unfold store. destruct (akind (buf s (rloc r))), (gkind a); try done; exfalso; destruct OK; naive_solver.
      * by rewrite buf_write, decide_True by done.
    + rewrite list_lookup_insert_ne in Ha' by done. destruct (i_hand _ _ _ I h' r' a' Hs' Ha') as (L' & _ & O). destruct (O eq_refl) as [P1 P2 P3 PK P4 P5].
      assert (Nr : rloc r' ≠ rloc r) by (by eapply O4). split; [done|]. split; [done|]. intros _. split; rewrite ?Bo by done; done.
  - apply I.
Qed.

Lemma reassign_holds s b x0 x b' y : holds s b x0 → holds (clear (set_what s b (Leaf x)) b) b' y → (b' = b ∧ y = x) ∨ (b' ≠ b ∧ holds s b' y).
Proof.
  intros H Hy. rewrite (grown_holds _ _ _ _ (clear_grown _ _)) in Hy. apply (set_what_holds s b x0 x b' y H) in Hy.
  destruct (decide (b' = b)) as [->|N]; [left|right]; done.
Qed.
Lemma reassign_cached s b x n l : cached (clear (set_what s b (Leaf x)) b) n l → cached s n l.
Proof.
  intros [(e & E & M) _]%clear_cached. cbn [set_what objs] in E. destruct (decide (n = b)) as [->|N].
  - rewrite list_lookup_alter in E. destruct (objs s !! b) as [e0|] eqn:E0; [|done]. injection E as <-. by exists e0.
  - rewrite list_lookup_alter_ne in E by done. by exists e.
Qed.
Lemma left_hand s b x0 x h r a a' : holds s b x0 → hand s h r a → rloc x ≠ rloc r → gkind a' = gkind a → gdata a' = gdata a → gw a' = gw a →
  gtag a' = (if decide (gtag a = Of b) then Frozen else gtag a) → hand (clear (set_what s b (Leaf x)) b) h r a'.
Proof.
  intros H [O1 O2 O3 OK O4 O5] N Ek Ed Ew Et.
  assert (Mi : gtag a' = Mine → gtag a = Mine) by (rewrite Et; by destruct (decide (gtag a = Of b))).
  split.
  - intros NS. rewrite Ed. apply O1. rewrite Et in NS. by destruct (decide (gtag a = Of b)) as [->|].
  - intros b' y [[-> ->]|[Nb Hy]]%(reassign_holds s b x0 x b' y H) R; [done|]. rewrite Et. destruct (O2 b' y Hy R) as [T|T]; rewrite T.
    + rewrite decide_False by congruence. by left.
    + by right.
  - intros T. rewrite Ew. by apply O3, Mi.
  - by rewrite Ek.
  - intros T. by apply O4, Mi.
  - intros T n C%reassign_cached. by eapply O5, C; apply Mi.
Qed.

Lemma leaf_step t s g n x p : inv t s g → objs s !! n = Some p → what p = Leaf x → ∃ v, gobjs g !! n = Some (GLeaf v).
Proof. intros I E W. apply (holds_gobj t s g n x I). unfold holds. by rewrite E, <- W. Qed.

Lemma what_gobj t s g n : inv t s g →
  match what <$> objs s !! n, gobjs g !! n with
  | Some o, Some p => skel o p
  | None, None => True
  | _, _ => False
  end.
Proof.
  intros I. pose proof (i_alike _ _ _ I) as A. destruct (objs s !! n) as [e|] eqn:E; simpl.
  - destruct (alike_at _ _ _ _ A E) as (p & -> & S). done.
  - destruct A as [L _]. apply lookup_ge_None in E. by rewrite (proj2 (lookup_ge_None (gobjs g) n)) by lia.
Qed.
Lemma seen_garr t s g h : inv t s g → match seen s !! h, garrs g !! h with Some _, Some _ => True | None, None => True | _, _ => False end.
Proof.
  intros I. pose proof (i_seen _ _ _ I) as L. destruct (seen s !! h) eqn:E, (garrs g !! h) eqn:E'; try done.
  - apply lookup_lt_Some in E. apply lookup_ge_None in E'. lia.
  - apply lookup_lt_Some in E'. apply lookup_ge_None in E. lia.
Qed.

Lemma inv_new t s g d k k' v : inv t s g → d = v → (t = true → k = Ints ↔ k' = Ints) →
  inv t (push_ref (fst (alloc s (Arr k d))) (Ref (length (mem s)) true)) (add_arr g (GArr k' v true Mine)).
Proof.
  intros I -> K. apply inv_push_ref.
  - by apply inv_alloc.
  - simpl. rewrite app_length. simpl. lia.
  - intros _. cbn [rloc gdata]. by rewrite buf_new.
  - intros Ht. cbn [rloc rw gdata gw gtag gkind]. rewrite buf_new. split_and!; try done.
    2:{ by apply K. }
    + intros b x H R. apply (i_leaf _ _ _ I) in H as [? _]. lia.
    + intros _. split.
      * intros h' r' Hs R. destruct (garrs g !! h') as [a'|] eqn:E.
        -- destruct (i_hand _ _ _ I h' r' a' Hs E) as [? _]. lia.
        -- pose proof (seen_garr t s g h' I) as Q. change (seen s !! h' = Some r') in Hs. by rewrite Hs, E in Q.
      * intros n C. apply (i_memo _ _ _ I) in C as [? _]. lia.
    + intros h' r' a' Hs Ha _. destruct (i_hand _ _ _ I h' r' a' Hs Ha) as [? _]. lia.
Qed.

Lemma step_inv t s g o : inv t s g → (t = false → whole g o) → (t = true → tidy g o) → inv t (fst (step s o)) (fst (gstep g o)) ∧ snd (step s o) = snd (gstep g o).
Proof.
  intros I Hw Ht. pose proof (i_alike _ _ _ I) as A. pose proof (i_wf _ _ _ I) as W. destruct A as [AL AS].
  destruct o as [k v|h|h|n|f ns|n h|n i v|h i v|n|n]; cbn [step gstep].
  - split; [|done]. by apply (inv_new t s g v k k v).
  - pose proof (seen_garr t s g h I) as Q. destruct (seen s !! h) as [x|] eqn:E, (garrs g !! h) as [a|] eqn:Ea; try done. split; [|done].
    destruct (i_hand _ _ _ I h x a E Ea) as (L & D & O). cbn [fst]. destruct (buf s (rloc x)) as [k d] eqn:B. cbn [adata] in D.
    destruct t.
    + pose proof (Ht eq_refl a Ea) as NS. destruct (O eq_refl) as [O1 O2 O3 OK O4 O5]. rewrite B in O1, OK. by apply (inv_new true s g d k (gkind a) (gdata a) I (O1 NS)).
    + by apply (inv_new false s g d k (gkind a) (gdata a) I (D eq_refl)).
  - pose proof (seen_garr t s g h I) as Q. destruct (seen s !! h) as [x|] eqn:E, (garrs g !! h) as [a|] eqn:Ea; try done.
    destruct (i_hand _ _ _ I h x a E Ea) as (L & D & O).
    assert (Mi : t = true → ∀ a0, garrs g !! h = Some a0 → gtag a0 = Mine) by (intros T; by apply Ht).
    assert (Da : adata (buf s (rloc x)) = gdata a).
    { destruct t; [|by apply D]. destruct (O eq_refl) as [O1 _]. apply O1. by rewrite (Mi eq_refl a Ea). }
    pose proof (inv_give t s g h (length (gobjs g)) I Mi) as I1.
    destruct (decide (akind (buf s (rloc x)) = Ints)) as [K|K].
    + rewrite K. split; [|done]. cbn [fst alloc]. pose proof (inv_alloc t s _ (Arr Plain (adata (buf s (rloc x)))) I1) as I2.
      apply (inv_push_obj t _ _ (Leaf (Ref (length (mem s)) true)) (GLeaf (gdata a)) I2); [done|by constructor|].
      intros x' v' [= <-] [= <-]. cbn [rloc rw]. rewrite buf_new. split; [simpl; rewrite app_length; simpl; lia|]. split; [done|]. intros T. split_and!; try done.
      * intros b y H R. assert (holds s b y) as H' by done. apply (i_leaf _ _ _ I) in H' as [? _]. lia.
      * intros n C. assert (cached s n (length (mem s))) as C' by done. apply (i_memo _ _ _ I) in C' as [? _]. lia.
      * intros h' r' a' Hs Ha R. change (seen s !! h' = Some r') in Hs. destruct (i_hand _ _ _ I1 h' r' a' Hs Ha) as [? _]. lia.
    + assert (S : step s (OLeaf h) = (push_obj s (Leaf x), true)). { cbn [step]. rewrite E. by destruct (akind (buf s (rloc x))). }
      cbn [step] in S. rewrite E in S. rewrite S. split; [|done]. cbn [fst].
      apply (inv_push_obj t _ _ (Leaf x) (GLeaf (gdata a)) I1); [done|by constructor|].
      intros x' v' [= <-] [= <-]. split; [done|]. split; [done|]. intros T. pose proof (Mi T a Ea) as Ma. destruct (O T) as [O1 O2 O3 OK O4 O5].
      split_and!; [by apply O3|done| |by apply O5|].
      * intros b y H R. destruct (O2 b y H R); congruence.
      * intros h' r' a' Hs Ha R. apply give_lookup in Ha as (a0 & Ha & _ & _ & _ & _ & Hof). rewrite AL. apply Hof.
        -- destruct (decide (h' = h)) as [|N]; [done|]. by destruct (O4 Ma h' r' N Hs).
        -- destruct (decide (h' = h)) as [->|N]; [|by destruct (O4 Ma h' r' N Hs)]. rewrite Ea in Ha. injection Ha as <-. by rewrite <- OK.
  - rewrite <- AL. case_decide as Ln; [|done]. split; [|done]. apply inv_push_obj; [done|done|by constructor; [lia|]|]. intros; done.
  - rewrite <- AL. case_decide as Ln; [|done]. split; [|done]. apply inv_push_obj; [done|done|by rewrite <- AL|]. intros; done.
  - pose proof (what_gobj t s g n I) as Qn. pose proof (seen_garr t s g h I) as Q.
    destruct (what <$> objs s !! n) as [o|] eqn:En, (gobjs g !! n) as [p|] eqn:Gn; try done.
    destruct o as [x0|c|f cs], p as [v0|c'|f' cs']; try done.
    destruct (seen s !! h) as [x|] eqn:E, (garrs g !! h) as [a|] eqn:Ea; try done. split; [|done]. cbn [fst].
    destruct (i_hand _ _ _ I h x a E Ea) as (L & D & O).
    assert (Da : adata (buf s (rloc x)) = gdata a).
    { destruct t; [|by apply D]. destruct (O eq_refl) as [O1 _]. apply O1. destruct (Ht eq_refl a Ea) as [-> _]. done. }
    assert (Hld : holds s n x0) by done.
    apply (inv_reassign t s g n x0 x (gdata a)); [done|done|done|done| | |].
    + intros T. destruct (Ht T a Ea) as [Ma Ka]. destruct (O T) as [O1 O2 O3 OK O4 O5]. split_and!; [by apply O3|by rewrite OK| |by apply O5].
      intros b' y N H R. destruct (O2 b' y H R); congruence.
    + simpl. by rewrite alter_length, map_length.
    + intros h' r' a' Hs Ha. apply give_lookup in Ha as (a1 & Ha & Ek & Ed & Ew & Et & Hof). apply leave_lookup in Ha as (a0 & Ha & Ek' & Ed' & Ew' & Et').
      destruct (i_hand _ _ _ I h' r' a0 Hs Ha) as (L' & D' & O'). split; [done|]. split; [intros T; rewrite Ed, Ed'; by apply D'|]. intros T.
      destruct (Ht T a Ea) as [Ma Ka]. destruct (O T) as [O1 O2 O3 OK O4 O5].
      destruct (decide (h' = h)) as [->|N].
      * assert (r' = x) as -> by congruence. assert (a0 = a) as -> by congruence. specialize (Hof eq_refl ltac:(congruence)). split.
        -- intros _. rewrite Ed, Ed'. done.
        -- intros b' y [[-> ->]|[Nb Hy]]%(reassign_holds s n x0 x b' y Hld) R; [by left|]. destruct (O2 b' y Hy R); congruence.
        -- congruence.
        -- rewrite Ek, Ek'. done.
        -- congruence.
        -- congruence.
      * apply (left_hand s n x0 x h' r' a0); [done|by apply O'| |congruence|congruence|congruence|].
        -- intros R. by apply (O4 Ma h' r' N Hs).
        -- destruct Et as [Et|[? _]]; [congruence|done].
  - change (base (S n) (gobjs g) n) with (root g n). pose proof (what_gobj t s g n I) as Qn. pose proof (root_unfold g n W) as Rt.
    destruct (what <$> objs s !! n) as [o|] eqn:En, (gobjs g !! n) as [p|] eqn:Gn; try done; [|by rewrite Rt].
    destruct o as [x0|c|f cs], p as [v0|c'|f' cs']; try done; [| |by rewrite Rt].
    + assert (Hld : holds s n x0) by done. destruct (i_leaf _ _ _ I n x0 Hld) as (L & D & O). rewrite Rt, D.
      case_decide as Li; [|done]. destruct t; [|by destruct (Hw eq_refl v0)]. destruct (O eq_refl) as [-> K]. split; [|done].
      rewrite decide_True by done. cbn [fst]. by apply inv_poke_leaf.
    + rewrite (inner_root s g (i_alike _ _ _ I) W (S n) n) by lia. destruct (root g n) as [b|] eqn:Rb; [|done].
      destruct (root_leaf g n b W Rb) as [v0 Hb]. destruct (alike_leaf _ _ _ _ (i_alike _ _ _ I) Hb) as (x0 & m & Eb). rewrite Eb. cbn [fmap option_fmap option_map what].
      assert (Hld : holds s b x0) by (unfold holds; by rewrite Eb). destruct (i_leaf _ _ _ I b x0 Hld) as (L & D & O). rewrite D.
      case_decide as Li; [|done]. split; [|done]. cbn [fst alloc]. assert (Nb : n ≠ b) by (intros ->; congruence). rewrite (decide_False (P := n = b)) by done.
      set (v' := <[i := v]> (value g b)). pose proof (inv_alloc t s g (Arr Plain v') I) as I1. set (s1 := fst (alloc s (Arr Plain v'))) in I1.
      assert (Bx : buf s1 (length (mem s)) = Arr Plain v') by apply buf_new.
      apply (inv_reassign t s1 g b x0 (Ref (length (mem s)) true) v'); [done|done| | | | |].
      * cbn [rloc]. simpl. rewrite app_length. simpl. lia.
      * cbn [rloc]. by rewrite Bx.
      * intros T. cbn [rloc rw]. rewrite Bx. split_and!; [done|done| |].
        -- intros b' y _ H R. assert (holds s b' y) as H' by done. apply (i_leaf _ _ _ I) in H' as [? _]. lia.
        -- intros m' C. assert (cached s m' (length (mem s))) as C' by done. apply (i_memo _ _ _ I) in C' as [? _]. lia.
      * simpl. by rewrite map_length.
      * intros h r a Hs Ha. apply leave_lookup in Ha as (a0 & Ha & Ek & Ed & Ew & Et). destruct (i_hand _ _ _ I1 h r a0 Hs Ha) as (L' & D' & O').
        destruct (i_hand _ _ _ I h r a0 Hs Ha) as (L0 & _).
        split; [done|]. split; [intros T; rewrite Ed; by apply D'|]. intros T. apply (left_hand s1 b x0 _ h r a0); [done|by apply O'| |done..].
        cbn [rloc]. lia.
  - pose proof (seen_garr t s g h I) as Q. destruct (seen s !! h) as [x|] eqn:E, (garrs g !! h) as [a|] eqn:Ea; try done.
    destruct t; [|by destruct (Hw eq_refl)]. pose proof (Ht eq_refl a Ea) as Ma. destruct (i_hand _ _ _ I h x a E Ea) as (L & _ & O).
    destruct (O eq_refl) as [O1 O2 O3 OK O4 O5]. rewrite O1 by congruence. case_decide as Li; [|done]. destruct (O3 Ma) as [E1 E2].
    pose proof (inv_poke_mine s g h x a i v I E Ea Ma) as P. rewrite E1. rewrite E2 in P |- *. done.
  - rewrite <- AL. case_decide as Ln; [|done]. destruct (get_got t g (S n) s n I ltac:(lia) Ln) as (G & I1 & L1 & D1 & O1 & M1).
    destruct (get (S n) s n) as [s1 l]. cbn [fst snd] in *. split; [|done]. change (base (S n) (gobjs g) n) with (root g n).
    apply inv_push_ref; [done|done|by intros _|]. intros T. cbn [rloc rw gdata gw gtag gkind]. destruct (O1 T) as [Ok Or]. split_and!.
    + done.
    + intros b x H R. rewrite (Or b x H R). by left.
    + destruct (root g n); done.
    + split; [done|]. intros Q; done.
    + destruct (root g n); done.
    + intros h' r' a' Hs Ha T'. by eapply M1.
  - pose proof (what_gobj t s g n I) as Qn. destruct (what <$> objs s !! n) as [o|] eqn:En, (gobjs g !! n) as [p|] eqn:Gn; try done.
    destruct o as [x0|c|f cs], p as [v0|c'|f' cs']; try done. split; [|done]. cbn [fst].
    assert (Hld : holds s n x0) by done. destruct (i_leaf _ _ _ I n x0 Hld) as (L & D & O).
    assert (Dv : adata (buf s (rloc x0)) = v0) by (rewrite D, (value_unfold g n W), Gn; done).
    apply inv_push_ref; [done|done|by intros _|]. intros T. cbn [rloc rw gdata gw gtag gkind]. destruct (O T) as [Ok Or]. split_and!; try done.
    + intros b x H R. assert (b = n) as -> by (by eapply (i_inj _ _ _ I T)). by left.
    + intros h' r' a' Hs Ha T'. destruct (i_hand _ _ _ I h' r' a' Hs Ha) as (_ & _ & Oh). destruct (Oh T) as [P1 P2 P3 PK P4 P5].
      intros R. destruct (P2 n x0 Hld (eq_sym R)); congruence.
Qed.

(** * Histories *)
Lemma run_snoc os o : run (os ++ [o]) = let '(s, bs) := run os in let '(s1, b) := step s o in (s1, bs ++ [b]).
Proof. unfold run. rewrite foldl_app. by destruct (foldl _ _ os). Qed.
Lemma grun_snoc os o : grun (os ++ [o]) = let '(s, bs) := grun os in let '(s1, b) := gstep s o in (s1, bs ++ [b]).
Proof. unfold grun. rewrite foldl_app. by destruct (foldl _ _ os). Qed.
Lemma obeys_snoc rule os o : obeys rule (os ++ [o]) → obeys rule os ∧ rule (fst (grun os)) o.
Proof. intros H. split; [|by eapply H]. intros os1 o' os2 ->. eapply (H os1 o' (os2 ++ [o])). by rewrite <- app_assoc. Qed.

Lemma run_inv t os : (t = false → obeys whole os) → (t = true → obeys tidy os) → inv t (fst (run os)) (fst (grun os)) ∧ snd (run os) = snd (grun os).
Proof.
  induction os as [|o os IH] using rev_ind; intros Hw Ht; [split; [apply inv_empty|done]|].
  destruct IH as [I B]; [intros T; by destruct (obeys_snoc _ _ _ (Hw T))|intros T; by destruct (obeys_snoc _ _ _ (Ht T))|].
  destruct (step_inv t (fst (run os)) (fst (grun os)) o I) as [I1 B1]; [intros T; by destruct (obeys_snoc _ _ _ (Hw T))|intros T; by destruct (obeys_snoc _ _ _ (Ht T))|].
  rewrite run_snoc, grun_snoc. destruct (run os) as [s bs], (grun os) as [g bs']. cbn [fst snd] in *. destruct (step s o) as [s1 b], (gstep g o) as [g1 b']. cbn [fst snd] in *.
  subst. done.
Qed.

Lemma whole_run os : obeys whole os → let s := fst (run os) in let g := fst (grun os) in
  snd (run os) = snd (grun os) ∧ (∀ n, n < length (gobjs g) → now s n = value g n) ∧ ∀ h, look s h = gdata <$> garrs g !! h.
Proof.
  intros O s g. destruct (run_inv false os) as [I B]; [done..|]. split; [done|]. split.
  - intros n L. apply (inv_now false s g n I). destruct (i_alike _ _ _ I) as [E _]. subst s g. lia.
  - intros h. unfold look. pose proof (seen_garr false s g h I) as Q. destruct (seen s !! h) as [r|] eqn:E, (garrs g !! h) as [a|] eqn:Ea; try done.
    destruct (i_hand _ _ _ I h r a E Ea) as (_ & D & _). simpl. f_equal. by apply D.
Qed.
Lemma tidy_run os : obeys tidy os → let s := fst (run os) in let g := fst (grun os) in
  snd (run os) = snd (grun os) ∧ (∀ n, n < length (gobjs g) → now s n = value g n) ∧
  ∀ h a, garrs g !! h = Some a → gtag a ≠ Stale → look s h = Some (gdata a).
Proof.
  intros O s g. destruct (run_inv true os) as [I B]; [done..|]. split; [done|]. split.
  - intros n L. apply (inv_now true s g n I). destruct (i_alike _ _ _ I) as [E _]. subst s g. lia.
  - intros h a Ea T. unfold look. pose proof (seen_garr true s g h I) as Q. destruct (seen s !! h) as [r|] eqn:E; rewrite ?Ea in Q; try done.
    destruct (i_hand _ _ _ I h r a E Ea) as (_ & _ & H). destruct (H eq_refl) as [D _]. simpl. f_equal. by apply D.
Qed.

(** * Cases *)
Fixpoint from (rule : gst → op → Prop) (g : gst) (os : list op) : Prop :=
  match os with [] => True | o :: os' => rule g o ∧ from rule (fst (gstep g o)) os' end.
Lemma from_app rule g os1 o os2 : from rule g (os1 ++ o :: os2) → rule (foldl (λ g o, fst (gstep g o)) g os1) o.
Proof. revert g. induction os1 as [|o1 os1 IH]; intros g H; simpl in *; [apply H|]. apply IH, H. Qed.
Lemma grun_fst os : fst (grun os) = foldl (λ g o, fst (gstep g o)) (GSt [] []) os.
Proof.
  induction os as [|o os IH] using rev_ind; [done|]. rewrite grun_snoc, foldl_app. simpl. rewrite <- IH. destruct (grun os) as [g bs]. simpl. by destruct (gstep g o).
Qed.
Lemma from_obeys rule os : from rule (GSt [] []) os → obeys rule os.
Proof. intros H os1 o os2 ->. rewrite grun_fst. by eapply from_app. Qed.

Definition twice (vs : list (list R)) : list R := map (λ x, 2 * x)%R (default [] (head vs)).
Definition nums : list R := [1; 2]%R.

(** Two basic objects, functions and views of them, assignments of all sorts, and reads. *)
Definition tidy_history : list op :=
  [ONew Plain nums; OLeaf 0; OView 0; OFun twice [1]; ORead 2; OSet 0 0 5%R; ORead 2; ONew Ints nums; OLeaf 3; OWrite 3 1 7%R;
   OSet 1 1 4%R; ORead 1; OCopy 4; OAssign 3 5; OSet 3 0 9%R; ORead 3].
Ltac lookups := apply from_obeys; lazy -[IZR Rmult Rdiv trunc not]; split_and!; try exact I; intros; repeat match goal with H : Some _ = Some _ |- _ => injection H as <- end; try done.
Ltac evalr := lazy -[IZR Rmult Rdiv trunc]; repeat f_equal; lra.
Ltac evalb := lazy -[IZR Rmult Rdiv trunc]; reflexivity.
Lemma tidy_case : obeys tidy tidy_history ∧ let s := fst (run tidy_history) in let g := fst (grun tidy_history) in
  snd (run tidy_history) = replicate 16 true ∧ now s 2 = [10; 8]%R ∧ now s 3 = [9; 4]%R ∧ (∀ h, h ∈ [1; 2; 4; 6] → ∃ a, garrs g !! h = Some a ∧ gtag a ≠ Stale) ∧
  look s 1 = Some [2; 4]%R ∧ look s 2 = Some [10; 4]%R.
Proof.
  split; [lookups|]. split_and!; [evalb|evalr|evalr| |evalr|evalr].
  intros h Hh. repeat (apply elem_of_cons in Hh as [->|Hh]; [eexists; split; [lazy -[IZR Rmult trunc]; reflexivity|lazy -[not]; done]|]). by apply elem_of_nil in Hh.
Qed.

(** Only whole arrays are assigned, or elements of views; arrays are shared as one likes. *)
Definition whole_history : list op :=
  [ONew Fort nums; OLeaf 0; OLeaf 0; OView 0; OFun twice [2]; ORead 3; ORead 2; OSet 2 0 5%R; ORead 3; OAssign 1 1; OLeaf 2; OAttr 1; OAssign 0 4].
Lemma whole_case : obeys whole whole_history ∧ let s := fst (run whole_history) in
  snd (run whole_history) = replicate 13 true ∧ now s 0 = [2; 4]%R ∧ now s 3 = [4; 8]%R ∧ now s 4 = [1; 2]%R ∧ look s 1 = Some [2; 4]%R ∧ look s 3 = Some [10; 4]%R ∧ look s 0 = Some [1; 2]%R.
Proof.
  split; [lookups|]. split_and!; [evalb|evalr..].
Qed.

Lemma five_ne : [5; 2]%R ≠ [1; 2]%R.
Proof. intros E. injection E as E. lra. Qed.

(** old = c.r; c[0] = 5 *)
Definition snapshot : list op := [ONew Plain nums; OLeaf 0; ORead 0; OSet 0 0 5%R].
Lemma snapshot_case : let s := fst (run snapshot) in let g := fst (grun snapshot) in
  obeys tidy snapshot ∧ snd (run snapshot) = replicate 4 true ∧ gdata <$> garrs g !! 1 = Some [1; 2]%R ∧ look s 1 = Some [5; 2]%R ∧ look s 0 = Some [5; 2]%R ∧ look s 1 ≠ (gdata <$> garrs g !! 1).
Proof.
  split_and!; [lookups|evalb|evalr..|].
  intros E. apply five_ne. cut (Some [5; 2]%R = Some [1; 2]%R); [congruence|]. etransitivity; [|etransitivity; [exact E|]]; evalr.
Qed.

(** c = Ch(a); d = Ch(a); e = 2 * d; e.r; c[0] = 5 *)
Definition twins : list op := [ONew Plain nums; OLeaf 0; OLeaf 0; OFun twice [1]; ORead 2; OSet 0 0 5%R].
Lemma twins_case : let s := fst (run twins) in
  snd (run twins) = replicate 6 true ∧ now s 1 = [5; 2]%R ∧ value (fst (grun twins)) 1 = [1; 2]%R ∧ now s 2 = [2; 4]%R ∧ now s 2 ≠ twice [now s 1].
Proof.
  cut (let s := fst (run twins) in snd (run twins) = replicate 6 true ∧ now s 1 = [5; 2]%R ∧ value (fst (grun twins)) 1 = [1; 2]%R ∧ now s 2 = [2; 4]%R).
  - intros (H1 & H2 & H3 & H4). split_and!; [done..|]. intros E. rewrite H2, H4 in E. cbn in E. injection E as E. lra.
  - split_and!; [evalb|evalr..].
Qed.

(** c = Ch(a); e = 2 * c; e.r; a[0] = 5 *)
Definition behind : list op := [ONew Plain nums; OLeaf 0; OFun twice [0]; ORead 1; OWrite 0 0 5%R].
Lemma behind_case : let s := fst (run behind) in
  snd (run behind) = replicate 5 true ∧ now s 0 = [5; 2]%R ∧ value (fst (grun behind)) 0 = [1; 2]%R ∧ now s 1 = [2; 4]%R ∧ now s 1 ≠ twice [now s 0].
Proof.
  cut (let s := fst (run behind) in snd (run behind) = replicate 5 true ∧ now s 0 = [5; 2]%R ∧ value (fst (grun behind)) 0 = [1; 2]%R ∧ now s 1 = [2; 4]%R).
  - intros (H1 & H2 & H3 & H4). split_and!; [done..|]. intros E. rewrite H2, H4 in E. cbn in E. injection E as E. lra.
  - split_and!; [evalb|evalr..].
Qed.

(** d = Ch(c.r); e = 2 * d; e.r; d[0] = 7; c[0] = 5 *)
Definition rebuilt : list op := [ONew Plain nums; OLeaf 0; ORead 0; OLeaf 1; OFun twice [1]; ORead 2; OSet 1 0 7%R; OSet 0 0 5%R].
Lemma rebuilt_case : let s := fst (run rebuilt) in
  snd (run rebuilt) = [true; true; true; true; true; true; false; true] ∧ snd (grun rebuilt) = replicate 8 true ∧
  now s 1 = [5; 2]%R ∧ value (fst (grun rebuilt)) 1 = [7; 2]%R ∧ now s 2 = [2; 4]%R ∧ now s 2 ≠ twice [now s 1].
Proof.
  cut (let s := fst (run rebuilt) in snd (run rebuilt) = [true; true; true; true; true; true; false; true] ∧ snd (grun rebuilt) = replicate 8 true ∧
    now s 1 = [5; 2]%R ∧ value (fst (grun rebuilt)) 1 = [7; 2]%R ∧ now s 2 = [2; 4]%R).
  - intros (H0 & H1 & H2 & H3 & H4). split_and!; [done..|]. intros E. rewrite H2, H4 in E. cbn in E. injection E as E. lra.
  - split_and!; [done|evalb|evalr..].
Qed.

(** c.x = np.array([1, 2]); c[0] = 0.5 *)
Definition whole_numbers : list op := [ONew Plain nums; OLeaf 0; ONew Ints nums; OAssign 0 1; OSet 0 0 (1/2)%R].
Lemma whole_numbers_case : let s := fst (run whole_numbers) in
  snd (run whole_numbers) = replicate 5 true ∧ now s 0 = [0; 2]%R ∧ value (fst (grun whole_numbers)) 0 = [1/2; 2]%R.
Proof.
  split_and!; [evalb| |evalr]. assert (T : trunc (1/2) = 0%R).
  { unfold trunc. destruct (Rle_dec 0 (1/2)) as [_|N]; [|lra]. replace (Int_part (1/2)) with 0%Z; [done|]. symmetry.
    unfold Int_part. assert (up (1/2) = 1%Z) as ->; [|done]. symmetry. apply tech_up; simpl; lra. }
  lazy -[IZR Rmult Rdiv trunc]. change (IZR 1 / IZR 2)%R with (1/2)%R. by rewrite T.
Qed.

(** c = Ch(a); e = 2 * c; e.r; c.x[0] = 5 *)
Definition attribute : list op := [ONew Plain nums; OLeaf 0; OFun twice [0]; ORead 1; OAttr 0; OWrite 2 0 5%R].
Lemma attribute_case : let s := fst (run attribute) in
  snd (run attribute) = replicate 6 true ∧ now s 0 = [5; 2]%R ∧ value (fst (grun attribute)) 0 = [1; 2]%R ∧ now s 1 = [2; 4]%R ∧ now s 1 ≠ twice [now s 0].
Proof.
  cut (let s := fst (run attribute) in snd (run attribute) = replicate 6 true ∧ now s 0 = [5; 2]%R ∧ value (fst (grun attribute)) 0 = [1; 2]%R ∧ now s 1 = [2; 4]%R).
  - intros (H1 & H2 & H3 & H4). split_and!; [done..|]. intros E. rewrite H2, H4 in E. cbn in E. injection E as E. lra.
  - split_and!; [evalb|evalr..].
Qed.

(** The same as [snapshot] with an array in Fortran order: the value read is a copy, the
    caller's array is not. *)
Definition fortran : list op := [ONew Fort nums; OLeaf 0; ORead 0; OSet 0 0 5%R].
Lemma fortran_case : let s := fst (run fortran) in
  snd (run fortran) = replicate 4 true ∧ now s 0 = [5; 2]%R ∧ look s 1 = Some [1; 2]%R ∧ look s 0 = Some [5; 2]%R.
Proof. split_and!; [evalb|evalr..]. Qed.
