(** Lambda objects on the attribute graph: handing arguments to handles, exposure. *)
From stdpp Require Import gmap strings list relations.
From Verif Require Import EngineModel EngineSpec EngineClear EngineEval EngineSet EngineInv EngineOps
  EngineRead LamModel LamSpec.

Section graph.
Context (L : lib) (is_lam is_handle : Cls L → bool).
Context (Hll : lam_lib_ok L is_lam is_handle).
Notation graph := (gmap oid (core L)).
Notation gattr := (gattr L).
Notation hand := (hand L).
Notation current := (current L).
Notation behind := (behind L).
Notation exposed := (exposed L).
Notation safe := (safe L).
Implicit Types (g : graph) (reg : registry) (S : gset oid).

Inductive entry_ok g (hd f : oid) (k : name) : Prop :=
| EntryOk (ch cf : core L) (p q : oid) :
    g !! hd = Some ch → is_handle (c_cls L ch) = true → c_dt L ch = ["x"%string] →
    c_attr L ch !! "x"%string = Some (ARef p) →
    g !! f = Some cf → is_lam (c_cls L cf) = true → k ∈ c_dt L cf →
    c_attr L cf !! k = Some (ARef q) → is_Some (g !! q) → k ≠ "_result"%string →
    entry_ok g hd f k.
Definition reg_ok reg g : Prop := ∀ hd f k, reg !! hd = Some (f, k) → entry_ok g hd f k.

Lemma owner_free reg g hd f k : reg_ok reg g → reg !! hd = Some (f, k) → reg !! f = None.
Proof.
  intros Hr Hhd. destruct (reg !! f) as [[f' k']|] eqn:E; [|done]. exfalso.
  destruct (Hr _ _ _ Hhd) as [ch cf p q _ _ _ _ Hf Hl _ _ _ _].
  destruct (Hr _ _ _ E) as [ch' cf' p' q' Hf' Hh _ _ _ _ _ _ _ _].
  rewrite Hf in Hf'. injection Hf' as <-. destruct (ll_lam _ _ _ Hll _ Hl) as (_ & H & _). congruence.
Qed.

Lemma hand_lookup reg S g o : hand reg S g !! o =
  (λ c, if decide (o ∈ S) then put L (current g reg o) c else c) <$> g !! o.
Proof. unfold LamSpec.hand. rewrite map_lookup_imap. by destruct (g !! o). Qed.

Lemma hand_free reg S g o : reg !! o = None → hand reg S g !! o = g !! o.
Proof.
  intros Ho. rewrite hand_lookup. destruct (g !! o) as [c|]; [|done]. simpl. f_equal.
  case_decide; [|done]. unfold LamSpec.current. by rewrite Ho.
Qed.
Lemma hand_out reg S g o : o ∉ S → hand reg S g !! o = g !! o.
Proof. intros Ho. rewrite hand_lookup. destruct (g !! o) as [c|]; [|done]. simpl. by rewrite decide_False. Qed.
Lemma hand_dom reg S g o : is_Some (hand reg S g !! o) ↔ is_Some (g !! o).
Proof. rewrite hand_lookup. by rewrite fmap_is_Some. Qed.

Lemma current_hand reg S g hd : reg_ok reg g → current (hand reg S g) reg hd = current g reg hd.
Proof.
  intros Hr. unfold LamSpec.current. destruct (reg !! hd) as [[f k]|] eqn:E; [|done].
  unfold LamSpec.gattr. by rewrite hand_free by (by eapply owner_free).
Qed.

Lemma put_put v c : put L v (put L v c) = put L v c.
Proof. destruct v as [v|]; [|done]. simpl. unfold write. simpl. by rewrite insert_insert. Qed.

Lemma hand_hand reg S1 S0 g : reg_ok reg g → hand reg S1 (hand reg S0 g) = hand reg (S1 ∪ S0) g.
Proof.
  intros Hr. apply map_eq; intros o. rewrite !(hand_lookup reg), current_hand by done.
  destruct (g !! o) as [c|]; [|done]. simpl. f_equal.
  destruct (decide (o ∈ S1)), (decide (o ∈ S0)), (decide (o ∈ S1 ∪ S0)); try set_solver.
  apply put_put.
Qed.
Lemma hand_empty reg g : hand reg ∅ g = g.
Proof. apply map_eq; intros o. apply hand_out. apply not_elem_of_empty. Qed.

Lemma put_same reg g o c v : g !! o = Some c → c_attr L c !! "x"%string = v → current g reg o = v →
  put L (current g reg o) c = c.
Proof.
  intros Hg Hx Hc. rewrite Hc. destruct v as [v|]; [|done]. simpl. unfold write.
  rewrite insert_id by done. by destruct c.
Qed.

Lemma entry_current reg g hd f k : reg !! hd = Some (f, k) → current g reg hd = gattr g f k.
Proof. intros E. unfold LamSpec.current. by rewrite E. Qed.

Lemma behind_dec reg g hd f k : reg_ok reg g → reg !! hd = Some (f, k) →
  behind reg g hd ∨ gattr g hd "x"%string = gattr g f k.
Proof.
  intros Hr E. destruct (Hr _ _ _ E) as [ch cf p q Hhd _ _ Hx Hf _ _ Ha _ _].
  destruct (decide (p = q)) as [->|Hne].
  - right. unfold LamSpec.gattr. rewrite Hhd, Hf. congruence.
  - left. exists f, k. split; [done|]. unfold LamSpec.gattr. rewrite Hhd, Hf. congruence.
Qed.

(** A handle that is not behind is left as it is. *)
Lemma hand_same reg S g o : reg_ok reg g → ¬ behind reg g o → hand reg S g !! o = g !! o.
Proof.
  intros Hr Hb. destruct (reg !! o) as [[f k]|] eqn:E; [|by apply hand_free].
  destruct (behind_dec _ _ _ _ _ Hr E) as [?|Heq]; [done|].
  destruct (Hr _ _ _ E) as [ch cf p q Hhd _ _ Hx _ _ _ _ _ _].
  rewrite hand_lookup, Hhd. simpl. f_equal. case_decide; [|done].
  eapply put_same; [done|done|]. rewrite (entry_current _ _ _ _ _ E), <- Heq.
  unfold LamSpec.gattr. by rewrite Hhd.
Qed.

Lemma gattr_hand_in reg S g hd f k : reg_ok reg g → reg !! hd = Some (f, k) → hd ∈ S →
  gattr (hand reg S g) hd "x"%string = gattr g f k.
Proof.
  intros Hr E HS. destruct (Hr _ _ _ E) as [ch cf p q Hhd _ _ Hx Hf _ _ Ha _ _].
  unfold LamSpec.gattr at 1. rewrite hand_lookup, Hhd. simpl. rewrite decide_True by done.
  rewrite (entry_current _ _ _ _ _ E). unfold LamSpec.gattr. rewrite Hf, Ha. simpl.
  by rewrite lookup_insert.
Qed.

Lemma hand_reg_ok reg S g : reg_ok reg g → reg_ok reg (hand reg S g).
Proof.
  intros Hr hd f k E. pose proof (owner_free _ _ _ _ _ Hr E) as Hfr.
  destruct (Hr _ _ _ E) as [ch cf p q Hhd Hh Hdt Hx Hf Hl Hk Ha Hq Hn].
  assert (Hhd' := hand_lookup reg S g hd). rewrite Hhd in Hhd'. simpl in Hhd'.
  rewrite (entry_current _ _ _ _ _ E) in Hhd'. unfold LamSpec.gattr in Hhd'. rewrite Hf, Ha in Hhd'.
  simpl in Hhd'. case_decide.
  - apply (EntryOk _ _ _ _ (write L "x"%string (ARef q) ch) cf q q); try done.
    + simpl. by rewrite lookup_insert.
    + by rewrite hand_free.
    + by apply hand_dom.
  - apply (EntryOk _ _ _ _ ch cf p q); try done.
    + by rewrite hand_free.
    + by apply hand_dom.
Qed.

Lemma behind_hand reg S g hd : reg_ok reg g → behind reg (hand reg S g) hd → behind reg g hd ∧ hd ∉ S.
Proof.
  intros Hr (f & k & E & Hne).
  assert (Hf : gattr (hand reg S g) f k = gattr g f k).
  { unfold LamSpec.gattr. by rewrite hand_free by (by eapply owner_free). }
  rewrite Hf in Hne. assert (HS : hd ∉ S).
  { intros HS. by rewrite (gattr_hand_in _ _ _ _ _ _ Hr E HS) in Hne. }
  split; [|done]. exists f, k. split; [done|]. intros He. apply Hne. rewrite <- He.
  unfold LamSpec.gattr. by rewrite hand_out.
Qed.

(** Edges after handing. *)
Lemma edge_hand reg S g y d z : reg_ok reg g → edge L (hand reg S g) y d z →
  edge L g y d z ∨
  (∃ f k, y ∈ S ∧ reg !! y = Some (f, k) ∧ behind reg g y ∧ gattr g f k = Some (ARef z)).
Proof.
  intros Hr He. destruct (reg !! y) as [[f k]|] eqn:E.
  2:{ left. destruct He as (c & Hc & ?). rewrite hand_free in Hc by done. by exists c. }
  destruct (behind_dec _ _ _ _ _ Hr E) as [Hb|Hs].
  2:{ left. destruct He as (c & Hc & ?). rewrite hand_same in Hc; [by exists c|done|].
      intros (f' & k' & E' & Hne). rewrite E in E'. injection E' as <- <-. done. }
  destruct (decide (y ∈ S)) as [HS|HS].
  2:{ left. destruct He as (c & Hc & ?). rewrite hand_out in Hc by done. by exists c. }
  right. exists f, k. split_and!; try done.
  destruct (Hr _ _ _ E) as [ch cf p q Hhd Hh Hdt Hx Hf Hl Hk Ha Hq Hn].
  destruct He as (c & Hc & _ & Hd & Hz). rewrite hand_lookup, Hhd in Hc. simpl in Hc.
  rewrite decide_True in Hc by done. rewrite (entry_current _ _ _ _ _ E) in Hc.
  unfold LamSpec.gattr in *. rewrite Hf, Ha in *. simpl in Hc. injection Hc as <-. simpl in *.
  rewrite Hdt in Hd. apply elem_of_list_singleton in Hd as ->. by rewrite lookup_insert in Hz.
Qed.

Lemma edge_arg reg g hd f k z : reg_ok reg g → reg !! hd = Some (f, k) → gattr g f k = Some (ARef z) →
  edge L g f k z ∧ k ≠ "_result"%string.
Proof.
  intros Hr E Hz. destruct (Hr _ _ _ E) as [ch cf p q Hhd Hh Hdt Hx Hf Hl Hk Ha Hq Hn].
  split; [|done]. exists cf. unfold LamSpec.gattr in Hz. rewrite Hf in Hz. split_and!; try done.
  apply (ll_lam _ _ _ Hll _ Hl).
Qed.

Lemma exposed_behind reg g hd x : exposed reg g hd x → behind reg g hd.
Proof. by induction 1. Qed.
Lemma exposed_dep reg g hd x : exposed reg g hd x → dep L g x hd.
Proof. induction 1; [constructor|]. eapply rtc_l; [|done]. by exists d. Qed.

(** Reaching a handle that is behind: exposed, or through the lambda object. *)
Lemma reach_handle reg g hd f k x : reg !! hd = Some (f, k) → behind reg g hd →
  dep L g x hd → exposed reg g hd x ∨ dep L g x f.
Proof.
  intros E Hb. induction 1 as [hd|x y z Hxy Hd IH]; [left; by constructor|].
  destruct (decide (x = f)) as [->|Hne]; [right; constructor|].
  destruct (IH E Hb) as [He|Hf].
  - left. destruct Hxy as [d Hed]. eapply ex_step; [done| |done]. intros k' E'. congruence.
  - right. by eapply rtc_l.
Qed.

(** Handing out to handles that [x] is not exposed to makes nothing new reachable. *)
Lemma dep_hand reg S g x y : reg_ok reg g → (∀ hd, hd ∈ S → ¬ exposed reg g hd x) →
  dep L (hand reg S g) x y → dep L g x y.
Proof.
  intros Hr HS Hd. pattern y. eapply rtc_ind_r; [constructor| |exact Hd].
  clear y Hd. intros y z _ [d He] IH.
  destruct (edge_hand _ _ _ _ _ _ Hr He) as [He'|(f & k & HyS & E & Hb & Hz)].
  { eapply rtc_r; [done|by exists d]. }
  destruct (reach_handle _ _ _ _ _ x E Hb IH) as [Hx|Hf]; [by destruct (HS y)|].
  eapply rtc_r; [done|]. exists k. by eapply edge_arg.
Qed.

(** Handing an argument to a handle of a safe lambda object exposes nothing. *)
Lemma exposed_hand reg g hd0 f k hd z : reg_ok reg g → reg !! hd0 = Some (f, k) → safe reg g f →
  exposed reg (hand reg {[hd0]} g) hd z → exposed reg g hd z.
Proof.
  intros Hr E Hs. induction 1 as [Hb|x d y He Hd Hy IH].
  { constructor. by eapply behind_hand. }
  destruct (edge_hand _ _ _ _ _ _ Hr He) as [He'|(f' & k' & HxS & E' & Hb & Hz)].
  { by eapply ex_step. }
  apply elem_of_singleton in HxS as ->. rewrite E in E'. injection E' as <- <-.
  destruct (edge_arg _ _ _ _ _ _ Hr E Hz) as [He2 Hne]. exfalso. apply (Hs hd).
  by eapply ex_step.
Qed.

(** Conversely, for objects that do not depend on the handle. *)
Lemma exposed_hand_back reg g hd0 hd z : reg_ok reg g → ¬ dep L (hand reg {[hd0]} g) z hd0 →
  exposed reg g hd z → exposed reg (hand reg {[hd0]} g) hd z.
Proof.
  intros Hr Hn Hx. induction Hx as [Hb|x d y He Hd Hy IH].
  - constructor. destruct Hb as (f & k & E & Hne). exists f, k. split; [done|].
    assert (hd ≠ hd0) by (intros ->; apply Hn; constructor).
    unfold LamSpec.gattr. rewrite hand_out by set_solver.
    rewrite hand_free by (by eapply owner_free). done.
  - assert (x ≠ hd0) by (intros ->; apply Hn; constructor).
    assert (He' : edge L (hand reg {[hd0]} g) x d y).
    { destruct He as (c & Hc & ?). exists c. by rewrite hand_out by set_solver. }
    eapply ex_step; [done|done|]. apply IH. intros Hyd. apply Hn. eapply rtc_l; [|done]. by exists d.
Qed.

(** The same read backwards: a dependence on [hd0] does not need the edge of [hd0]. *)
Lemma dep_to_hand reg g hd0 z : dep L g z hd0 → dep L (hand reg {[hd0]} g) z hd0.
Proof.
  induction 1 as [|x y z [d He] Hd IH]; [constructor|].
  destruct (decide (x = z)) as [->|]; [constructor|]. eapply rtc_l; [|done].
  exists d. destruct He as (c & Hc & ?). exists c. by rewrite hand_out by (by apply not_elem_of_singleton).
Qed.

(** Values that do not depend on which of the unexposed handles have been served. *)
Definition stable reg g (x : oid) (v : Arr L) : Prop :=
  ∀ S, (∀ hd, hd ∈ S → ¬ exposed reg g hd x) → denotes L (hand reg S g) x QR v.

Lemma stable_safe reg g S x v : reg_ok reg g → safe reg g x → stable reg g x v → stable reg (hand reg S g) x v.
Proof.
  intros Hr Hs Hv S1 _. rewrite hand_hand by done. apply Hv. intros hd _. apply Hs.
Qed.
Lemma stable_all reg g S x v : safe reg g x → stable reg g x v → denotes L (hand reg S g) x QR v.
Proof. intros Hs Hv. apply Hv. intros hd _. apply Hs. Qed.

Lemma stable_unrelated reg g hd0 f k x v : reg_ok reg g → reg !! hd0 = Some (f, k) →
  ¬ dep L (hand reg {[hd0]} g) x hd0 →
  stable reg g x v → stable reg (hand reg {[hd0]} g) x v.
Proof.
  intros Hr E Hn Hv S HS. rewrite hand_hand by done. apply Hv. intros hd Hhd He.
  apply elem_of_union in Hhd as [Hhd|Hhd].
  - apply (HS hd Hhd). by apply exposed_hand_back.
  - apply elem_of_singleton in Hhd as ->. apply Hn, dep_to_hand. by eapply exposed_dep.
Qed.

(** Objects of a safe graph position are the same after handing. *)
Lemma safe_same reg S g x : reg_ok reg g → safe reg g x → hand reg S g !! x = g !! x.
Proof. intros Hr Hs. apply hand_same; [done|]. intros Hb. apply (Hs x). by constructor. Qed.

(** Operands of a safe object whose own handles are served are safe. *)
Lemma safe_child reg g x d y : safe reg g x → edge L g x d y →
  (∀ hd k, reg !! hd = Some (x, k) → ¬ behind reg g hd) → safe reg g y.
Proof.
  intros Hs He Hown hd Hy. apply (Hs hd). eapply ex_step; [done| |done].
  intros k E. exfalso. apply (Hown hd k E). by eapply exposed_behind.
Qed.

(** What reading does to attributes. *)
Definition passes reg g g' : Prop :=
  (∃ S, g' = hand reg S g) ∧ ∀ z, safe reg g z → safe reg g' z.
Lemma passes_refl reg g : passes reg g g.
Proof. split; [exists ∅; by rewrite hand_empty|done]. Qed.
Lemma passes_trans reg g1 g2 g3 : reg_ok reg g1 → passes reg g1 g2 → passes reg g2 g3 → passes reg g1 g3.
Proof.
  intros Hr [[S1 ->] H1] [[S2 ->] H2]. split; [|auto]. exists (S2 ∪ S1). by apply hand_hand.
Qed.
Lemma passes_one reg g hd f k : reg_ok reg g → reg !! hd = Some (f, k) → safe reg g f →
  passes reg g (hand reg {[hd]} g).
Proof.
  intros Hr E Hs. split; [by eexists|]. intros z Hz hd' He. apply (Hz hd').
  by eapply exposed_hand.
Qed.
Lemma passes_sub reg g g' : reg_ok reg g → passes reg g g' → substituted L reg g' = substituted L reg g.
Proof.
  intros Hr [[S ->] _]. unfold substituted. rewrite hand_hand by done.
  apply map_eq; intros o. rewrite !hand_lookup. destruct (g !! o); [|done]. simpl. f_equal.
  destruct (reg !! o) as [[f k]|] eqn:E.
  - assert (o ∈ dom reg) by (by apply elem_of_dom_2 in E).
    rewrite !decide_True by set_solver. done.
  - assert (Hc : current g reg o = None) by (unfold LamSpec.current; by rewrite E).
    rewrite Hc. simpl. by repeat case_decide.
Qed.
Lemma passes_free reg g g' o : passes reg g g' → reg !! o = None → g' !! o = g !! o.
Proof. intros [[S ->] _] Ho. by apply hand_free. Qed.
Lemma passes_safe_same reg g g' o : reg_ok reg g → passes reg g g' → safe reg g o → g' !! o = g !! o.
Proof. intros Hr [[S ->] _] Ho. by apply safe_same. Qed.
Lemma passes_behind reg g g' hd : reg_ok reg g → passes reg g g' → behind reg g' hd → behind reg g hd.
Proof. intros Hr [[S ->] _] Hb. by eapply behind_hand. Qed.
Lemma passes_reg reg g g' : reg_ok reg g → passes reg g g' → reg_ok reg g'.
Proof. intros Hr [[S ->] _]. by apply hand_reg_ok. Qed.
Lemma passes_stable reg g g' x v : reg_ok reg g → passes reg g g' → safe reg g x →
  stable reg g x v → stable reg g' x v.
Proof. intros Hr [[S ->] _]. by apply stable_safe. Qed.

(** A private handle exposes nobody outside. *)
Lemma private_safe reg g hd B x : private L reg g hd B → x ∉ B → ¬ exposed reg g hd x.
Proof.
  intros [Hin HB] Hx He. induction He as [|x d y He Hd Hy IH]; [done|].
  destruct (decide (y ∈ B)) as [HyB|HyB]; [|by apply IH].
  destruct (HB x d y He HyB) as [?|[-> [k E]]]; [done|]. by apply (Hd k).
Qed.

End graph.
