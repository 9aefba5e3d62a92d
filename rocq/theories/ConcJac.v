(** Concatenation: the Jacobians. *)
From Coq Require Import Reals Lra.
From stdpp Require Import gmap strings list list_numbers numbers.
From Verif Require Import EngineModel ArrModel Curve ArrThms ElemModel ElemSpec ElemThms ReorderModel ReorderSpec ReorderThms ReorderCache
  ConcModel ConcSpec ConcThms.

(** Exchanging the first and the k-th element of a list. *)
Definition swp (k : nat) (l : list nat) : list nat :=
  match l !! 0, l !! k with Some x, Some y => <[0 := y]> (<[k := x]> l) | _, _ => l end.
Lemma swp_length k l : length (swp k l) = length l.
Proof. unfold swp. destruct (l !! 0), (l !! k); by rewrite ?insert_length. Qed.
Lemma swp_lookup k l : k < length l → swp k l !! 0 = l !! k ∧ swp k l !! k = l !! 0 ∧ ∀ b, b ≠ 0 → b ≠ k → swp k l !! b = l !! b.
Proof.
  intros Hk. unfold swp. destruct (lookup_lt_is_Some_2 l 0) as [x Hx]; [lia|]. destruct (lookup_lt_is_Some_2 l k Hk) as [y Hy].
  rewrite Hx, Hy. split_and!.
  - apply list_lookup_insert. rewrite insert_length. lia.
  - destruct (decide (k = 0)) as [->|].
    + rewrite list_lookup_insert by (rewrite insert_length; lia). congruence.
    + rewrite list_lookup_insert_ne by done. by apply list_lookup_insert.
  - intros b H1 H2. by rewrite !list_lookup_insert_ne by done.
Qed.
Lemma swp_by_lookup k l l' : k < length l → length l' = length l → l' !! 0 = l !! k → l' !! k = l !! 0 →
  (∀ b, b ≠ 0 → b ≠ k → l' !! b = l !! b) → l' = swp k l.
Proof.
  intros Hk Hl H1 H2 H3. destruct (swp_lookup k l Hk) as (E1 & E2 & E3). apply list_eq. intros b.
  destruct (decide (b = 0)) as [->|]; [by rewrite E1|]. destruct (decide (b = k)) as [->|]; [by rewrite E2|]. by rewrite E3, H3.
Qed.
Lemma swp_swp k l : k < length l → swp k (swp k l) = l.
Proof.
  intros Hk. symmetry. destruct (swp_lookup k l Hk) as (E1 & E2 & E3).
  apply swp_by_lookup; rewrite ?swp_length; try done. intros b Hb Hb'. by rewrite E3.
Qed.
Lemma swp_inside k s ix : k < length s → inside s ix → inside (swp k s) (swp k ix).
Proof.
  intros Hk Hin. pose proof (inside_len _ _ Hin) as Hl. destruct (swp_lookup k s Hk) as (E1 & E2 & E3).
  destruct (swp_lookup k ix ltac:(lia)) as (F1 & F2 & F3). apply inside_iff. split; [by rewrite !swp_length|].
  intros a i d Hi Hd. apply inside_iff in Hin as [_ Hin].
  destruct (decide (a = 0)) as [->|]; [rewrite E1 in Hd; rewrite F1 in Hi; by eapply Hin|].
  destruct (decide (a = k)) as [->|]; [rewrite E2 in Hd; rewrite F2 in Hi; by eapply Hin|].
  rewrite E3 in Hd by done. rewrite F3 in Hi by done. by eapply Hin.
Qed.
Lemma swap_is s ax k ix jx : axis_is (length s) ax k → length ix = length s → length jx = length s →
  comes_from (Swapaxes ax 0) s ix jx → jx = swp k ix.
Proof.
  intros Hk Hi Hj (a1 & a2 & H1 & H2 & E1 & E2 & E3). rewrite (axis_is_unique _ _ _ _ H1 Hk) in *.
  assert (a2 = 0) as -> by (destruct H2 as [? [?|?]]; lia). destruct Hk as [Hk _].
  apply swp_by_lookup; [lia|congruence|done|done|]. intros b Hb Hb'. symmetry. by apply E3.
Qed.
Lemma swap_reorder ax (a : arr nat) k : axis_is (length (sh a)) ax k →
  ∃ b, reorder 0 (Swapaxes ax 0) a = Some b ∧ sh b = swp k (sh a) ∧ ∀ ix, inside (sh b) ix → at_ b ix = at_ a (swp k ix).
Proof.
  intros Hk. assert (H0 : axis_is (length (sh a)) 0 0) by (destruct Hk; split; lia).
  destruct (reorder 0 (Swapaxes ax 0) a) as [b|] eqn:Eb.
  2:{ exfalso. unfold reorder in Eb. simpl in Eb. rewrite (proj2 (naxis_is _ _ _) Hk) in Eb. simpl in Eb.
      rewrite (proj2 (naxis_is _ _ _) H0) in Eb. done. }
  exists b. destruct (reorder_value 0 _ _ _ Eb) as ((Hl & Hs) & Hv). split_and!; [done| |].
  - rewrite (swap_is (sh a) ax k (sh b) (sh a) Hk Hl eq_refl Hs) at 1. rewrite swp_swp; [done|]. rewrite Hl. apply Hk.
  - intros ix Hin. destruct (Hv ix Hin) as [(jx & Hjx & Hc & ->)|(Hf & _)]; [|done].
    f_equal. eapply swap_is; [done|rewrite (inside_len _ _ Hin); done|by apply inside_len|done].
Qed.
Lemma everything_is ax out k : axis_is (length out) ax k →
  ∃ ev, everything ax out = Some ev ∧ sh ev = swp k out ∧ ∀ ix, inside (sh ev) ix → at_ ev ix = ravel out (swp k ix).
Proof.
  intros Hk. unfold everything. destruct (swap_reorder ax (arange out) k Hk) as (b & Hb & Hs & Hv). by exists b.
Qed.
(** The rows of an operand. *)
Definition shift (k off : nat) (jx : list nat) : list nat := alter (λ j, off + j) k jx.
Lemma rows_is ax out k ev off d s : axis_is (length out) ax k → everything ax out = Some ev → same_but k s out → s !! k = Some d →
  (∀ n, out !! k = Some n → off + d ≤ n) →
  ∃ z, reorder 0 (Swapaxes ax 0) (rows_from off d ev) = Some z ∧ sh z = s ∧
    ∀ jx, inside s jx → at_ z jx = ravel out (shift k off jx).
Proof.
  intros Hk Hev Hsb Hd Hn. destruct (everything_is ax out k Hk) as (ev' & Hev' & Hes & Hv). assert (ev' = ev) as -> by congruence. clear Hev'.
  assert (Hkl : k < length out) by apply Hk. destruct (lookup_lt_is_Some_2 out k Hkl) as [n En]. specialize (Hn n En).
  assert (Hls : length s = length out) by apply Hsb.
  destruct (swp_lookup k out Hkl) as (E1 & E2 & E3). destruct (swp_lookup k s ltac:(lia)) as (F1 & F2 & F3).
  set (rest := drop 1 (sh ev)). assert (Hsh : sh ev = n :: rest).
  { unfold rest. rewrite Hes. rewrite En in E1. destruct (swp k out) as [|x l]; [done|]. cbn in E1. injection E1 as ->. cbn. by rewrite drop_0. }
  assert (Hrs : swp k s = d :: rest).
  { assert (L : length (swp k s) = length (d :: rest)).
    { rewrite swp_length, Hls, <- (swp_length k out), <- Hes, Hsh. done. }
    apply list_eq. intros b. destruct (decide (b = 0)) as [->|Hb]; [by rewrite F1|].
    assert (Hx : sh ev !! b = (d :: rest) !! b) by (rewrite Hsh; by destruct b).
    rewrite <- Hx, Hes. destruct (decide (b = k)) as [->|Hbk].
    - rewrite F2, E2. by apply (proj2 Hsb).
    - rewrite F3, E3 by done. by apply (proj2 Hsb). }
  set (rf := rows_from off d ev). assert (Hrf : sh rf = d :: rest).
  { unfold rf, rows_from. cbn [sh]. fold rest. rewrite Hsh. simpl. f_equal. lia. }
  assert (Hrd : ∀ i, dat rf i = dat ev (off * size rest + i)).
  { intros i. unfold rf, rows_from. cbn [dat]. fold rest. rewrite Hsh. cbn [nth]. do 2 f_equal. by rewrite Nat.min_l by lia. }
  destruct (swap_reorder ax rf k) as (z & Hz & Hzs & Hzv).
  { rewrite Hrf, <- Hrs, swp_length, Hls. done. }
  assert (Ez : sh z = s) by (rewrite Hzs, Hrf, <- Hrs; apply swp_swp; lia).
  exists z. split_and!; [done|done|]. intros jx Hjx. rewrite Hzv by (by rewrite Ez).
  pose proof (swp_inside k s jx ltac:(lia) Hjx) as Hin. rewrite Hrs in Hin.
  pose proof (inside_len _ _ Hjx) as Hlj.
  destruct (swp_lookup k jx ltac:(lia)) as (G1 & G2 & G3).
  destruct (swp k jx) as [|j0 jr] eqn:Ej; [by apply inside_len in Hin|].
  unfold at_. rewrite Hrf, Hrd. cbn [ravel].
  assert (Hin2 : inside (sh ev) ((off + j0) :: jr)).
  { rewrite Hsh. inversion Hin; subst. constructor; [lia|done]. }
  replace (off * size rest + (j0 * size rest + ravel rest jr)) with (ravel (sh ev) ((off + j0) :: jr)) by (rewrite Hsh; cbn [ravel]; lia).
  change (dat ev (ravel (sh ev) ((off + j0) :: jr))) with (at_ ev ((off + j0) :: jr)). rewrite Hv by done. f_equal.
  (* swapping back *)
  symmetry. apply swp_by_lookup.
  - simpl. apply (f_equal length) in Ej. rewrite swp_length in Ej. simpl in Ej. lia.
  - unfold shift. rewrite alter_length. apply (f_equal length) in Ej. rewrite swp_length in Ej. done.
  - unfold shift. destruct (decide (k = 0)) as [->|Hk0].
    + rewrite list_lookup_alter, <- G1. done.
    + rewrite list_lookup_alter_ne by done. rewrite <- G2. by destruct k.
  - unfold shift. rewrite list_lookup_alter, <- G1. simpl. done.
  - intros b Hb Hbk. unfold shift. rewrite list_lookup_alter_ne by done. rewrite <- G3 by done. by destruct b.
Qed.
Lemma elems_at {T} (a : arr T) : elems a = (λ j, at_ a (unravel (sh a) j)) <$> seq 0 (asize a).
Proof.
  unfold elems. apply list_fmap_ext_ne. intros j [_ Hj]%elem_of_seq. unfold at_. rewrite ravel_unravel; [done|]. unfold asize in Hj. lia.
Qed.

(** The triples the loop makes. *)
Definition row (out : shp) (k off : nat) (v : arr R) (j : nat) : nat := ravel out (shift k off (unravel (sh v) j)).
Fixpoint tri (out : shp) (k off : nat) (vs : list (arr R)) (ws : list bool) : list (nat * nat * R) :=
  match vs, ws with
  | v :: vs', w :: ws' =>
    (if w : bool then (λ j, (row out k off v j, j, 1%R)) <$> seq 0 (asize v) else []) ++ tri out k (off + nth k (sh v) 0) vs' ws'
  | _, _ => []
  end.
Lemma conc_idx_is ax out k ev off vs ws : axis_is (length out) ax k → everything ax out = Some ev →
  (∀ v, v ∈ vs → same_but k (sh v) out) → (∀ n, out !! k = Some n → off + sum_list (dims k vs) ≤ n) →
  ∃ p, conc_idx ax ev off vs ws = Some p ∧ length p.1 = length p.2 ∧ zip (zip p.1 p.2) (replicate (length p.2) 1%R) = tri out k off vs ws.
Proof.
  intros Hk Hev. revert off ws. induction vs as [|v vs IH]; intros off ws Hsb Hn; [by exists ([], [])|].
  destruct ws as [|w ws]; [by exists ([], [])|]. cbn [conc_idx tri].
  assert (Hv : same_but k (sh v) out) by (apply Hsb; by left).
  rewrite (proj1 Hv), (proj2 (naxis_is _ _ _) Hk). cbn [mbind option_bind].
  destruct (lookup_lt_is_Some_2 (sh v) k) as [d Hd]; [rewrite (proj1 Hv); apply Hk|].
  rewrite sum_dims_cons in Hn. rewrite (nth_of _ _ _ Hd) in *.
  destruct (IH (off + d) ws) as (p & Hp & Hl & Ht); [intros u Hu; apply Hsb; by right|intros n Hn'; specialize (Hn n Hn'); lia|].
  destruct w.
  - destruct (rows_is ax out k ev off d (sh v)) as (z & Hz & Hzs & Hzv); try done; [intros n Hn'; specialize (Hn n Hn'); lia|].
    rewrite Hz. cbn [mbind option_bind]. rewrite Hp. cbn [mbind option_bind].
    eexists. split; [reflexivity|]. cbn [fst snd].
    assert (Hle : length (elems z) = asize v) by (unfold elems, asize; by rewrite fmap_length, seq_length, Hzs).
    rewrite !app_length, seq_length, Hle. split; [lia|].
    rewrite replicate_add. rewrite zip_with_app by (by rewrite Hle, seq_length).
    rewrite zip_with_app by (rewrite zip_with_length, Hle, seq_length, replicate_length; lia).
    f_equal; [|done]. rewrite elems_at, Hzs. unfold asize at 1. rewrite Hzs. fold (asize v).
    rewrite (list_fmap_ext_ne _ (row out k off v)).
    2:{ intros j [_ Hj]%elem_of_seq. apply Hzv. apply unravel_inside. unfold asize in Hj. lia. }
    generalize 0 as s. generalize (asize v) as n. induction n as [|n IHn]; intros s; [done|]. cbn [seq replicate]. rewrite !fmap_cons.
    cbn [zip_with]. f_equal. apply IHn.
  - cbn [mbind option_bind]. rewrite Hp. cbn [mbind option_bind]. destruct p as [p1 p2]. by exists (p1, p2).
Qed.
Lemma shift_unravel_in k off (v : arr R) out d n j : same_but k (sh v) out → sh v !! k = Some d → out !! k = Some n → off + d ≤ n → j < asize v →
  inside out (shift k off (unravel (sh v) j)) ∧
  ∃ c, unravel (sh v) j !! k = Some c ∧ c < d ∧ shift k off (unravel (sh v) j) !! k = Some (off + c) ∧
    same_but k (shift k off (unravel (sh v) j)) (unravel (sh v) j).
Proof.
  intros Hsb Hd Hn Hle Hj. pose proof (unravel_inside (sh v) j Hj) as Hin. destruct (inside_some _ _ _ _ Hin Hd) as (c & Hc & Hlt).
  assert (Hs : shift k off (unravel (sh v) j) !! k = Some (off + c)) by (unfold shift; by rewrite list_lookup_alter, Hc).
  assert (Hsb2 : same_but k (shift k off (unravel (sh v) j)) (unravel (sh v) j)).
  { split; [apply alter_length|]. intros b Hb. unfold shift. by rewrite list_lookup_alter_ne. }
  split; [|by exists c].
  apply (inside_same k (sh v) out (unravel (sh v) j) _ (off + c) n); try done; [by apply same_but_sym|lia].
Qed.
Lemma tri_range out k off vs ws c : k < length out → (∀ v, v ∈ vs → same_but k (sh v) out) → (∀ n, out !! k = Some n → off + sum_list (dims k vs) ≤ n) →
  (∀ t v, vs !! t = Some v → ws !! t = Some true → asize v = c) →
  Forall (λ e, e.1.1 < size out ∧ e.1.2 < c) (tri out k off vs ws).
Proof.
  intros Hk. revert off ws. induction vs as [|v vs IH]; intros off ws Hsb Hn Hc; [by constructor|]. destruct ws as [|w ws]; [by constructor|].
  cbn [tri]. rewrite sum_dims_cons in Hn. assert (Hv : same_but k (sh v) out) by (apply Hsb; by left).
  destruct (lookup_lt_is_Some_2 (sh v) k) as [d Hd]; [by rewrite (proj1 Hv)|]. rewrite (nth_of _ _ _ Hd) in *.
  destruct (lookup_lt_is_Some_2 out k Hk) as [n En]. specialize (Hn n En) as Hn'.
  apply Forall_app. split.
  - destruct w; [|constructor]. rewrite list.Forall_forall. intros e (j & -> & [_ Hj]%elem_of_seq)%elem_of_list_fmap. cbn [fst snd].
    assert (Ec : asize v = c) by (apply (Hc 0 v); done). split; [|lia].
    apply ravel_lt. eapply (shift_unravel_in k off v out d n j); try done; lia.
  - apply IH; [intros u Hu; apply Hsb; by right|intros m Hm; assert (m = n) by congruence; lia|].
    intros t u Ht Hw. apply (Hc (S t) u); done.
Qed.
Definition tact (l : list (nat * nat * R)) (u : nat → R) (i : nat) : R := rsum ((λ e, if decide (e.1.1 = i) then (e.2 * u e.1.2)%R else 0%R) <$> l).
(** one operand's triples *)
Lemma block_act out k off v d n u i c : same_but k (sh v) out → sh v !! k = Some d → out !! k = Some n → off + d ≤ n → i < size out →
  unravel out i !! k = Some c →
  tact ((λ j, (row out k off v j, j, 1%R)) <$> seq 0 (asize v)) u i =
  if decide (off ≤ c ∧ c < off + d) then u (ravel (sh v) (<[k := c - off]> (unravel out i))) else 0%R.
Proof.
  intros Hsb Hd Hn Hle Hi Hc. unfold tact. rewrite <- list_fmap_compose. unfold compose. cbn [fst snd].
  pose proof (unravel_inside out i Hi) as Hin.
  destruct (decide (off ≤ c ∧ c < off + d)) as [[H1 H2]|Hno].
  - set (jx := <[k := c - off]> (unravel out i)).
    assert (Hkl : k < length (unravel out i)) by (by eapply lookup_lt_Some).
    assert (Hjk : jx !! k = Some (c - off)) by (by apply list_lookup_insert).
    assert (Hjs : same_but k (unravel out i) jx) by apply same_but_sym, same_but_insert.
    assert (Hjin : inside (sh v) jx).
    { apply (inside_same k out (sh v) (unravel out i) jx (c - off) d); try done; [by apply same_but_sym|lia]. }
    rewrite (rsum_single _ _ (ravel (sh v) jx)).
    + rewrite decide_True; [ring|]. unfold row. rewrite unravel_ravel by done. rewrite <- (ravel_unravel out i Hi). f_equal.
      apply (same_but_eq k).
      * apply (same_but_trans k _ jx); [|by apply same_but_sym]. split; [apply alter_length|]. intros b Hb. unfold shift. by rewrite list_lookup_alter_ne.
      * unfold shift. rewrite list_lookup_alter, Hjk, Hc. simpl. f_equal. lia.
    + apply NoDup_seq.
    + apply elem_of_seq. pose proof (ravel_lt _ _ Hjin). unfold asize. lia.
    + intros j [_ Hj]%elem_of_seq Hne. rewrite decide_False; [done|]. intros E. apply Hne.
      destruct (shift_unravel_in k off v out d n j) as (G1 & c' & Hc' & Hlt & Hs & Hsb'); try done.
      assert (Ex : shift k off (unravel (sh v) j) = unravel out i).
      { rewrite <- (unravel_ravel out _ G1). by f_equal. }
      rewrite <- (ravel_unravel (sh v) j) by (unfold asize in Hj; lia). f_equal.
      apply (same_but_eq k).
      * apply (same_but_trans k _ (unravel out i)); [|done]. rewrite <- Ex. by apply same_but_sym.
      * rewrite Hjk, Hc'. f_equal. rewrite Ex, Hc in Hs. injection Hs as ->. lia.
  - apply rsum_zero. intros j [_ Hj]%elem_of_seq. rewrite decide_False; [done|]. intros E. apply Hno.
    destruct (shift_unravel_in k off v out d n j) as (G1 & c' & Hc' & Hlt & Hs & Hsb'); try done.
    assert (Ex : shift k off (unravel (sh v) j) = unravel out i) by (rewrite <- (unravel_ravel out _ G1); by f_equal).
    rewrite Ex, Hc in Hs. injection Hs as ->. lia.
Qed.
Lemma tact_app l1 l2 u i : tact (l1 ++ l2) u i = (tact l1 u i + tact l2 u i)%R.
Proof. unfold tact. by rewrite fmap_app, rsum_app. Qed.
Lemma tri_act out k off vs ws u i c : k < length out → (∀ v, v ∈ vs → same_but k (sh v) out) → (∀ n, out !! k = Some n → off + sum_list (dims k vs) ≤ n) →
  length ws = length vs → i < size out → unravel out i !! k = Some c →
  tact (tri out k off vs ws) u i =
  if decide (off ≤ c) then
    match locate (dims k vs) (c - off) with
    | Some (t, j) =>
      match vs !! t, ws !! t with
      | Some v, Some true => u (ravel (sh v) (<[k := j]> (unravel out i)))
      | _, _ => 0%R
      end
    | None => 0%R
    end
  else 0%R.
Proof.
  intros Hk. revert off ws. induction vs as [|v vs IH]; intros off ws Hsb Hn Hl Hi Hc.
  - simpl. unfold tact. simpl. by destruct (decide _).
  - destruct ws as [|w ws]; [done|]. cbn [tri]. rewrite sum_dims_cons in Hn. assert (Hv : same_but k (sh v) out) by (apply Hsb; by left).
    destruct (lookup_lt_is_Some_2 (sh v) k) as [d Hd]; [by rewrite (proj1 Hv)|]. rewrite (nth_of _ _ _ Hd) in *.
    destruct (lookup_lt_is_Some_2 out k Hk) as [n En]. specialize (Hn n En) as Hn'.
    rewrite tact_app, (IH (off + d) ws); [|intros x Hx; apply Hsb; by right|intros m Hm; assert (m = n) by congruence; lia|by injection Hl|done|done].
    change (dims k (v :: vs)) with (nth k (sh v) 0 :: dims k vs). rewrite (nth_of _ _ _ Hd). cbn [locate].
    assert (Hb : tact (if w then (λ j, (row out k off v j, j, 1%R)) <$> seq 0 (asize v) else []) u i =
      if w then if decide (off ≤ c ∧ c < off + d) then u (ravel (sh v) (<[k := c - off]> (unravel out i))) else 0%R else 0%R).
    { destruct w; [|done]. apply (block_act out k off v d n); try done. lia. }
    rewrite Hb. clear Hb.
    destruct (decide (off ≤ c)) as [H1|H1].
    + destruct (decide (c - off < d)) as [H2|H2].
      * rewrite (decide_False (P := off + d ≤ c)) by lia. cbn [lookup list_lookup]. rewrite (decide_True (P := off ≤ c ∧ c < off + d)) by lia.
        destruct w; ring.
      * rewrite (decide_True (P := off + d ≤ c)) by lia. rewrite (decide_False (P := off ≤ c ∧ c < off + d)) by lia.
        replace (c - off - d) with (c - (off + d)) by lia.
        destruct (locate (dims k vs) (c - (off + d))) as [[t j]|]; destruct w; rewrite Rplus_0_l; reflexivity.
    + rewrite (decide_False (P := off + d ≤ c)) by lia. rewrite (decide_False (P := off ≤ c ∧ c < off + d)) by lia. destruct w; ring.
Qed.

(* ------------------------------------------------------------------ *)
(** The Jacobian for one variable, which may be several of the operands. *)
Lemma stands_locate k vs t v jx ix : vs !! t = Some v → inside (sh v) jx → stands k vs t jx ix →
  ∃ j, locate (dims k vs) (nth k ix 0) = Some (t, j) ∧ jx = <[k := j]> ix ∧ k < length ix.
Proof.
  intros Hv Hin (off & j & Ht & Hsb & Hj & Hi). apply total_iff in Ht as [_ ->]. exists j. rewrite (nth_of _ _ _ Hi).
  assert (Hk : k < length jx) by (by eapply lookup_lt_Some). rewrite (inside_len _ _ Hin) in Hk.
  destruct (lookup_lt_is_Some_2 (sh v) k Hk) as [d Hd]. split_and!.
  - apply locate_spec. exists d. rewrite dims_take. split_and!; [|by eapply inside_at|done].
    unfold dims. rewrite list_lookup_fmap, Hv. simpl. f_equal. by apply nth_of.
  - apply same_but_is; [by apply same_but_sym|done].
  - by eapply lookup_lt_Some.
Qed.
Lemma conc_jac_is ax vs y ws c : concat ax vs = Some y → length ws = length vs → wrt_size vs ws = Some c →
  (∀ t v, vs !! t = Some v → ws !! t = Some true → asize v = c) →
  ∃ J, conc_jac ax vs ws = Some J ∧ fits J (asize y) c ∧
    ∀ k, axis_is (length (sh y)) ax k → ∀ u i t v jx, i < asize y → vs !! t = Some v → inside (sh v) jx → stands k vs t jx (unravel (sh y) i) →
      mact J u i = if decide (ws !! t = Some true) then u (ravel (sh v) jx) else 0%R.
Proof.
  intros Hy Hl Hc Hsz. destruct (concat_inv ax vs y Hy) as (k & n & Hk & Hn & Hne & Hsb & Hdim & _). subst n.
  destruct (everything_is ax (sh y) k Hk) as (ev & Hev & _ & _).
  assert (Hle : ∀ n, sh y !! k = Some n → 0 + sum_list (dims k vs) ≤ n) by (intros n Hn; rewrite Hdim in Hn; injection Hn as <-; lia).
  destruct (conc_idx_is ax (sh y) k ev 0 vs ws Hk Hev Hsb Hle) as (p & Hp & Hpl & Htr).
  assert (Hr : in_range (coo (asize y) c (replicate (length p.2) 1%R) p.1 p.2)).
  { unfold in_range, coo. cbn [trip nrow ncol]. rewrite Htr. apply tri_range; try done. apply Hk. }
  exists (coo (asize y) c (replicate (length p.2) 1%R) p.1 p.2). split_and!.
  - unfold conc_jac. rewrite Hy. cbn [mbind option_bind]. rewrite Hev. cbn [mbind option_bind]. unfold conc_jac_with.
    rewrite Hc. cbn [mbind option_bind]. rewrite Hp. cbn [mbind option_bind]. rewrite decide_True by done. by rewrite decide_True.
  - unfold fits. by split_and!.
  - intros k' Hk' u i t v jx Hi Hv Hin Hst. rewrite (axis_is_unique _ _ _ _ Hk' Hk) in *. clear k' Hk'.
    rewrite mact_alt. unfold coo. cbn [trip]. rewrite Htr.
    change (tact (tri (sh y) k 0 vs ws) u i = if decide (ws !! t = Some true) then u (ravel (sh v) jx) else 0%R).
    destruct (stands_locate k vs t v jx _ Hv Hin Hst) as (j & Hloc & -> & Hlen).
    destruct (lookup_lt_is_Some_2 (unravel (sh y) i) k Hlen) as [c' Hc'].
    rewrite (tri_act (sh y) k 0 vs ws u i c') by (try done; apply Hk). rewrite decide_True by lia.
    rewrite (nth_of _ _ _ Hc') in Hloc. rewrite Nat.sub_0_r, Hloc, Hv.
    destruct (ws !! t) as [[]|]; done.
Qed.
Lemma wrt_size_some vs ws t v c : vs !! t = Some v → ws !! t = Some true →
  (∀ t v, vs !! t = Some v → ws !! t = Some true → asize v = c) → wrt_size vs ws = Some c.
Proof.
  revert ws t. induction vs as [|u vs IH]; intros ws t Hv Hw Hc; [done|]. destruct ws as [|w ws]; [done|]. simpl.
  destruct w; [f_equal; by apply (Hc 0 u)|]. destruct t as [|t]; [done|]. apply (IH ws t); try done. intros t' v' H1 H2. by apply (Hc (S t') v').
Qed.

(** Shapes decide. *)
Lemma dims_shapes k vs vs' : sh <$> vs = sh <$> vs' → dims k vs = dims k vs'.
Proof.
  intros E. unfold dims. change (λ v : arr R, nth k (sh v) 0) with ((λ s : shp, nth k s 0) ∘ (sh (T := R))).
  by rewrite !list_fmap_compose, E.
Qed.
Lemma shapes_lookup (vs vs' : list (arr R)) t v : sh <$> vs = sh <$> vs' → vs !! t = Some v → ∃ v', vs' !! t = Some v' ∧ sh v' = sh v.
Proof.
  intros E Hv. assert (H : (sh <$> vs') !! t = Some (sh v)) by (rewrite <- E, list_lookup_fmap, Hv; done).
  rewrite list_lookup_fmap in H. destruct (vs' !! t) as [v'|]; [|done]. simpl in H. injection H as H. by exists v'.
Qed.
Lemma shapes_in (vs vs' : list (arr R)) v : sh <$> vs = sh <$> vs' → v ∈ vs' → ∃ v', v' ∈ vs ∧ sh v' = sh v.
Proof.
  intros E (t & Ht)%elem_of_list_lookup. destruct (shapes_lookup vs' vs t v (eq_sym E) Ht) as (v' & Hv & Hs).
  exists v'. split; [by eapply elem_of_list_lookup_2|done].
Qed.
Lemma concat_shapes ax vs vs' y : sh <$> vs = sh <$> vs' → concat ax vs = Some y → ∃ y', concat ax vs' = Some y' ∧ sh y' = sh y.
Proof.
  intros E Hy. destruct (concat_inv ax vs y Hy) as (k & n & Hk & Hn & Hne & Hsb & Hdim & _). subst n.
  destruct (concat_some ax vs' (sh y) k) as [y' Hy'].
  - intros ->. destruct vs; [done|done].
  - done.
  - intros v Hv. destruct (shapes_in _ _ _ E Hv) as (v' & Hv' & <-). by apply Hsb.
  - exists y'. split; [done|]. destruct (concat_inv ax vs' y' Hy') as (k' & n' & Hk' & Hn' & Hne' & Hsb' & Hdim' & _). subst n'.
    destruct vs' as [|v' vs']; [done|]. destruct (shapes_in vs (v' :: vs') v' E (elem_of_list_here _ _)) as (v & Hv & Hs).
    pose proof (Hsb v Hv) as H1. pose proof (Hsb' v' (elem_of_list_here _ _)) as H2. rewrite <- Hs in H2.
    rewrite <- (proj1 H2) in Hk'. rewrite <- (proj1 H1) in Hk. rewrite (axis_is_unique _ _ _ _ Hk' Hk) in *.
    apply (same_but_eq k); [eapply same_but_trans; [by apply same_but_sym|done]|]. rewrite Hdim, Hdim'. by rewrite (dims_shapes k _ _ E).
Qed.
Lemma stands_shapes k vs vs' t jx ix : sh <$> vs = sh <$> vs' → stands k vs t jx ix → stands k vs' t jx ix.
Proof.
  intros E (off & j & Ht & Hr). exists off, j. split; [|done]. apply total_iff in Ht as [H1 ->].
  assert (Et : sh <$> take t vs = sh <$> take t vs') by (by rewrite !fmap_take, E).
  apply total_iff. split; [|by rewrite (dims_shapes k _ _ Et)].
  intros v Hv. destruct (shapes_in _ _ _ Et Hv) as (v' & Hv' & <-). by apply H1.
Qed.
Lemma wrt_size_shapes vs vs' ws : sh <$> vs = sh <$> vs' → wrt_size vs ws = wrt_size vs' ws.
Proof.
  revert vs' ws. induction vs as [|v vs IH]; intros [|v' vs'] ws E; [done|done|done|]. rewrite !fmap_cons in E. injection E as E1 E2.
  destruct ws as [|w ws]; [done|]. simpl. unfold asize. rewrite E1. destruct w; [done|]. by apply IH.
Qed.
Lemma conc_idx_shapes ax ev off vs vs' ws : sh <$> vs = sh <$> vs' → conc_idx ax ev off vs ws = conc_idx ax ev off vs' ws.
Proof.
  revert off vs' ws. induction vs as [|v vs IH]; intros off [|v' vs'] ws E; [done|done|done|]. rewrite !fmap_cons in E. injection E as E1 E2.
  destruct ws as [|w ws]; [done|]. simpl. unfold asize. rewrite E1. destruct (naxis _ _) as [k|]; [|done]. cbn [mbind option_bind].
  by rewrite (IH _ vs').
Qed.
Lemma conc_jac_with_shapes ev n ax vs vs' ws : sh <$> vs = sh <$> vs' → conc_jac_with ev n ax vs ws = conc_jac_with ev n ax vs' ws.
Proof. intros E. unfold conc_jac_with. by rewrite (wrt_size_shapes _ _ _ E), (conc_idx_shapes _ _ _ _ _ _ E). Qed.
Lemma concat_shapes_none ax vs vs' : sh <$> vs = sh <$> vs' → concat ax vs = None → concat ax vs' = None.
Proof.
  intros E H. destruct (concat ax vs') as [y'|] eqn:E'; [|done]. destruct (concat_shapes ax vs' vs y' (eq_sym E) E') as (y & Hy & _). congruence.
Qed.
Lemma conc_jac_shapes ax vs vs' ws : sh <$> vs = sh <$> vs' → conc_jac ax vs ws = conc_jac ax vs' ws.
Proof.
  intros E. unfold conc_jac. destruct (concat ax vs) as [y|] eqn:Ey.
  - destruct (concat_shapes ax vs vs' y E Ey) as (y' & -> & Hs). cbn [mbind option_bind]. unfold asize. rewrite Hs.
    destruct (everything ax (sh y)); [|done]. cbn [mbind option_bind]. by apply conc_jac_with_shapes.
  - by rewrite (concat_shapes_none ax vs vs' E Ey).
Qed.

(** Moving operands. *)
Lemma conc_moves ax (ps : list oid) vs y J : concat ax vs = Some y →
  (∀ q, q ∈ ps → conc_jac ax vs ((λ r, bool_decide (r = q)) <$> ps) = Some (J q)) →
  ∀ (rho : oid → R → arr R) (V : oid → nat → R), (λ q, rho q 0%R) <$> ps = vs → (∀ q, q ∈ ps → amoves (rho q) (V q)) →
  ∃ y, near (λ t, concat ax ((λ q, rho q t) <$> ps) = Some (y t)) ∧
       amoves y (λ i, rsum ((λ q, mact (J q) (V q) i) <$> remove_dups ps)).
Proof.
  intros Hy HJ rho V Hvs Hm. set (vst := λ t : R, (λ q, rho q t) <$> ps). set (yt := λ t, default y (concat ax (vst t))).
  assert (Hnear : near (λ t, sh <$> vst t = sh <$> vs)).
  { eapply near_mono; [|apply (near_list ps (λ q t, sh (rho q t) = sh (rho q 0%R)))].
    - intros t Ht. rewrite <- Hvs. unfold vst. rewrite <- !list_fmap_compose. by apply list_fmap_ext_ne.
    - intros q Hq. by apply (amoves_shape _ (V q)), Hm. }
  assert (Hyt : ∀ t, sh <$> vst t = sh <$> vs → concat ax (vst t) = Some (yt t) ∧ sh (yt t) = sh y).
  { intros t Ht. destruct (concat_shapes ax vs (vst t) y (eq_sym Ht) Hy) as (y' & Hy' & Hs). unfold yt. rewrite Hy'. done. }
  exists yt. split; [eapply near_mono; [|exact Hnear]; intros t Ht; by apply Hyt|].
  destruct (concat_is ax vs y Hy) as (k & Hk & Hc).
  assert (Hlps : length vs = length ps) by (rewrite <- Hvs; apply fmap_length).
  assert (Hfl : ∀ q t, ps !! t = Some q → ∀ q', ((λ r, bool_decide (r = q')) <$> ps) !! t = Some true ↔ q = q').
  { intros q t Hq q'. rewrite list_lookup_fmap, Hq. simpl. split; [by intros [= ?%bool_decide_eq_true]|intros ->; by rewrite bool_decide_true]. }
  assert (Hval : ∀ q t v, ps !! t = Some q → vs !! t = Some v → v = rho q 0%R).
  { intros q t v Hq Hv. rewrite <- Hvs, list_lookup_fmap, Hq in Hv. simpl in Hv. by injection Hv as ->. }
  assert (Hjac : ∀ q, q ∈ ps → ∃ c, fits (J q) (asize y) c ∧ ∀ u i t v jx, i < asize y → vs !! t = Some v → inside (sh v) jx → stands k vs t jx (unravel (sh y) i) →
      mact (J q) u i = if decide (((λ r, bool_decide (r = q)) <$> ps) !! t = Some true) then u (ravel (sh v) jx) else 0%R).
  { intros q Hq. assert (Hsz : ∀ t v, vs !! t = Some v → ((λ r, bool_decide (r = q)) <$> ps) !! t = Some true → asize v = asize (rho q 0%R)).
    { intros t v Hv Hw. destruct (ps !! t) as [q'|] eqn:Eq; [|by rewrite list_lookup_fmap, Eq in Hw].
      apply (Hfl q' t Eq) in Hw as ->. by rewrite (Hval _ _ _ Eq Hv). }
    assert (Hws : wrt_size vs ((λ r, bool_decide (r = q)) <$> ps) = Some (asize (rho q 0%R))).
    { apply elem_of_list_lookup in Hq as [t Hq]. destruct (lookup_lt_is_Some_2 vs t) as [v Hv]; [rewrite Hlps; by eapply lookup_lt_Some|].
      apply (wrt_size_some vs _ t v); [done|by apply (Hfl q)|done]. }
    destruct (conc_jac_is ax vs y _ _ Hy (eq_trans (fmap_length _ _) (eq_sym Hlps)) Hws Hsz) as (J' & HJ' & Hf & Ha).
    rewrite (HJ q Hq) in HJ'. injection HJ' as <-. exists (asize (rho q 0%R)). split; [done|]. by apply Ha. }
  apply (amoves_intro yt _ (sh y)).
  - eapply near_mono; [|exact Hnear]. intros t Ht. by apply Hyt.
  - intros i Hi. pose proof (unravel_inside _ _ Hi) as Hin. destruct (is_concat_covers k vs y _ Hc Hin) as (t0 & v & jx & Hv & Hjx & Hst).
    destruct (lookup_lt_is_Some_2 ps t0) as [p Hp]; [rewrite <- Hlps; by eapply lookup_lt_Some|].
    pose proof (Hval _ _ _ Hp Hv) as Ev. assert (Hpin : p ∈ ps) by (by eapply elem_of_list_lookup_2).
    rewrite (rsum_single _ _ p).
    + destruct (Hjac p Hpin) as (c & _ & Ha). rewrite (Ha _ i t0 v jx Hi Hv Hjx Hst). rewrite decide_True by (by apply (Hfl p)).
      apply (deriv_near (λ t, dat (rho p t) (ravel (sh v) jx))).
      * eapply near_mono; [|exact Hnear]. intros t Ht. cbv beta. destruct (Hyt t Ht) as [Hct Hsy].
        destruct (concat_is ax (vst t) (yt t) Hct) as (k' & Hk' & Hc'). rewrite Hsy in Hk'.
        rewrite (axis_is_unique _ _ _ _ Hk' Hk) in Hc'. destruct Hc' as (_ & _ & Hc').
        destruct (shapes_lookup vs (vst t) t0 v (eq_sym Ht) Hv) as (v' & Hv' & Hs').
        specialize (Hc' t0 v' jx (unravel (sh y) i) Hv'). rewrite Hs' in Hc'. specialize (Hc' Hjx (stands_shapes k vs (vst t) t0 _ _ (eq_sym Ht) Hst)).
        unfold at_ in Hc'. rewrite Hsy, ravel_unravel in Hc' by done. rewrite Hc', Hs'.
        unfold vst in Hv'. rewrite list_lookup_fmap, Hp in Hv'. simpl in Hv'. by injection Hv' as <-.
      * apply (amoves_dat (rho p) (V p)); [by apply Hm|]. rewrite <- Ev. by apply ravel_lt.
    + apply NoDup_remove_dups.
    + by apply elem_of_remove_dups.
    + intros q Hq Hne. apply (proj1 (elem_of_remove_dups _ _)) in Hq. destruct (Hjac q Hq) as (c & _ & Ha). rewrite (Ha _ i t0 v jx Hi Hv Hjx Hst).
      rewrite decide_False; [done|]. intros Hw%(Hfl p t0 Hp). congruence.
  - intros i Hi. apply rsum_zero. intros q Hq. apply (proj1 (elem_of_remove_dups _ _)) in Hq. destruct (Hjac q Hq) as (c & (Hr & _ & Hrange) & _).
    apply mact_out; [done|]. rewrite Hr. done.
Qed.
