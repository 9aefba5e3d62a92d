(** A copied graph is like the original, and the invariant survives copying. *)
From stdpp Require Import gmap strings list relations.
From Verif Require Import EngineModel EngineSpec EngineClear EngineEval EngineSet EngineInv EngineOps
  EngineHist EngineThms GraphSpec GraphThms CopyModel CopySpec CopyThms.

Section iso.
Context (L : lib).
Notation graph := (gmap oid (core L)).
Notation cores := (cores L).
Context (g g' : graph) (rn : oid → oid) (S : oid → Prop).
Context (Hmap : ∀ x, S x → g' !! rn x = ren_core L rn <$> g !! x).
Context (Hcl : ∀ x p, S x → refers L g x p → S p).
Context (Hinj : ∀ x y, S x → S y → rn x = rn y → x = y).

Lemma runp_same {R} ask1 ask2 (p : prog (Arr L) R) :
  (∀ q, ask1 q = ask2 q) → runp L ask1 p = runp L ask2 p.
Proof.
  intros H. induction p as [r| |q f IH]; simpl; [done..|]. rewrite H. destruct (ask2 q); auto.
Qed.

Lemma answer_iso n x c q : S x → g !! x = Some c →
  (∀ y w, S y → eval L n g' (rn y) w = eval L n g y w) →
  answer L (eval L n g') (rn x) (ren_core L rn c) q = answer L (eval L n g) x c q.
Proof.
  intros Hx Hc IH. destruct q as [|k|k]; simpl; [by apply IH| |by apply IH].
  rewrite lookup_fmap. destruct (c_attr L c !! k) as [[t|p]|] eqn:E; simpl; [done| |done].
  apply IH. apply (Hcl x); [done|]. by exists c, k.
Qed.

Lemma eval_iso n : ∀ x w, S x → eval L n g' (rn x) w = eval L n g x w.
Proof.
  induction n as [|n IH]; intros x w Hx; [done|]. simpl. rewrite Hmap by done.
  destruct (g !! x) as [c|] eqn:E; simpl; [|done].
  rewrite ren_plain. destruct w as [|k].
  - apply runp_same. intros q. by apply answer_iso.
  - destruct (prop_deps L (c_cls L c) !! k); [|done]. apply runp_same. intros q. by apply answer_iso.
Qed.

Lemma matches_iso x c w : S x → S w → g !! x = Some c →
  matches L (ren_core L rn c) (rn w) = matches L c w.
Proof.
  intros Hx Hw Hc. unfold matches. simpl.
  induction (c_dt L c) as [|k ks IH]; [done|]. rewrite !filter_cons, IH.
  assert (E : is_ref L (rn w) ((ren_val L rn <$> c_attr L c) !! k) = is_ref L w (c_attr L c !! k)).
  { rewrite lookup_fmap. destruct (c_attr L c !! k) as [[t|p]|] eqn:E; simpl; [done| |done].
    apply bool_decide_ext. split; [|by intros ->]. intros Ep. apply Hinj; try done.
    apply (Hcl x); [done|]. by exists c, k. }
  by rewrite E.
Qed.

Lemma pdirect_iso n x w : S x → S w → pdirect L n g' (rn x) (rn w) = pdirect L n g x w.
Proof.
  intros Hx Hw. unfold pdirect. rewrite Hmap by done.
  destruct (g !! x) as [c|] eqn:E; simpl; [|done].
  rewrite ren_plain, (matches_iso x) by done.
  rewrite (bool_decide_ext (rn x = rn w) (x = w)).
  2:{ split; [by apply Hinj|by intros ->]. }
  apply runp_same. intros q. apply answer_iso; try done. intros. by apply eval_iso.
Qed.

Definition ren_hit (a : option (option (oid * Jac L))) : option (option (oid * Jac L)) :=
  match a with Some (Some (p, j)) => Some (Some (rn p, j)) | _ => a end.

Lemma pwalk_iso m n x : S x → ∀ i, S i → pwalk L m n g' (rn x) (rn i) = ren_hit (pwalk L m n g x i).
Proof.
  intros Hx. induction m as [|m IH]; intros i Hi; [done|]. simpl. rewrite Hmap by done.
  destruct (g !! i) as [c|] eqn:E; simpl; [|done].
  destruct (is_permute L (c_cls L c)); [|done]. rewrite lookup_fmap.
  destruct (c_attr L c !! "a"%string) as [[t|p]|] eqn:Ea; simpl; [done| |done].
  assert (Hp : S p) by (apply (Hcl i); [done|]; by exists c, "a"%string).
  destruct (decide (p = x)) as [->|Hne].
  - by rewrite decide_True.
  - rewrite decide_False by (intros Hr; by apply Hne, Hinj).
    rewrite pdirect_iso by done. destruct (pdirect L n g x p) as [[j|]|]; simpl; [done| |done]. by apply IH.
Qed.
Lemma pwalk_in m n x : S x → ∀ i p j, S i → pwalk L m n g x i = Some (Some (p, j)) → S p.
Proof.
  intros Hx. induction m as [|m IH]; intros i p j Hi; simpl; [done|].
  destruct (g !! i) as [c|] eqn:E; [|done]. destruct (is_permute L (c_cls L c)); [|done].
  destruct (c_attr L c !! "a"%string) as [[t|q]|] eqn:Ea; [done| |done].
  assert (Hq : S q) by (apply (Hcl i); [done|]; by exists c, "a"%string).
  case_decide; [done|]. destruct (pdirect L n g x q) as [[j'|]|]; [|by apply IH|done].
  intros [= <- <-]. done.
Qed.

Lemma psliced_iso n x w : S x → S w → psliced L n g' (rn x) (rn w) = psliced L n g x w.
Proof.
  intros Hx Hw. unfold psliced. rewrite pdirect_iso by done.
  destruct (pdirect L n g x w) as [[j|]|]; try done. rewrite pwalk_iso by done.
  destruct (pwalk L n n g x w) as [[[p j]|]|] eqn:E; simpl; try done.
  rewrite pdirect_iso; [done|done|]. by eapply pwalk_in in E.
Qed.

Lemma drval_iso n : ∀ x w, S x → S w → drval L n g' (rn x) (rn w) = drval L n g x w.
Proof.
  induction n as [|n IH]; intros x w Hx Hw; [done|]. simpl. rewrite psliced_iso by done.
  rewrite Hmap by done. destruct (g !! x) as [c|] eqn:E; simpl; [|done].
  destruct (psliced L n g x w) as [d|]; [|done].
  assert (Hloop : ∀ ks acc,
    pdr_loop L (λ p, drval L n g' p (rn w)) n g' (rn x) (rn w) (ren_core L rn c) ks acc =
    pdr_loop L (λ p, drval L n g p w) n g x w c ks acc).
  { induction ks as [|k ks IHks]; intros acc; [done|]. simpl. rewrite lookup_fmap.
    destruct (c_attr L c !! k) as [[t|p]|] eqn:Ek; simpl; [apply IHks| |apply IHks].
    assert (Hp : S p) by (apply (Hcl x); [done|]; by exists c, k).
    destruct (decide (p = w)) as [->|Hne].
    - rewrite decide_True by done. apply IHks.
    - rewrite decide_False by (intros Hr; by apply Hne, Hinj).
      rewrite IH by done. destruct (drval L n g p w) as [[j2|]|]; [|apply IHks|done].
      rewrite psliced_iso by done. destruct (psliced L n g x p) as [[d'|]|]; [apply IHks|apply IHks|done]. }
  by rewrite Hloop.
Qed.

Lemma not_view_iso w : S w → not_view L g' (rn w) ↔ not_view L g w.
Proof.
  intros Hw. unfold not_view. rewrite Hmap by done. split.
  - intros (c' & E & Hp). apply fmap_Some in E as (c & Hc & ->). by exists c.
  - intros (c & E & Hp). rewrite E. by exists (ren_core L rn c).
Qed.
End iso.

(* ------------------------------------------------------------------ *)
(** The invariant. *)
Section inv.
Context (L : lib).
Notation graph := (gmap oid (core L)).
Notation heap := (gmap oid (node L)).
Notation node := (node L).
Notation cores := (cores L).
Implicit Types (g : graph) (c : core L) (h : heap) (n : node).

Section one.
Context (h0 : heap) (o : oid) (out : list oid) (rn : oid → oid) (ord : oid → list name) (h : heap).
Context (Hi0 : inv L h0) (Hcl : refs_closed L (cores h0)).
Context (Hok : copy_ok L (cores h0) rn ord o out).
Context (Hli : linv L h0 rn (λ q d, q ∈ out) out h).
Notation g0 := (cores h0).

Lemma co_dom : o ∈ dom g0. Proof. apply Hok. Qed.
Lemma co_po : pickle_order L g0 o out. Proof. apply Hok. Qed.
Lemma co_so : set_order L g0 ord out. Proof. apply Hok. Qed.
Lemma co_ni : new_ids L g0 rn out. Proof. apply Hok. Qed.

Lemma co_in x : x ∈ out → is_Some (h0 !! x).
Proof. intros Hx. eapply (out_in L h0 o out); [apply co_po|done|apply co_dom|done]. Qed.
Lemma co_refs x p : x ∈ out → refers L g0 x p → p ∈ out.
Proof.
  intros Hx Hr. destruct (po_first _ _ _ _ co_po x p Hx Hr) as (i & j & Hi & _).
  by eapply elem_of_list_lookup_2.
Qed.
Lemma co_fresh x : x ∈ out → h0 !! rn x = None.
Proof. intros Hx. eapply copy_fresh; [apply co_ni|done]. Qed.
Lemma co_inj x y : x ∈ out → y ∈ out → rn x = rn y → x = y.
Proof. apply co_ni. Qed.

Lemma co_map x : x ∈ out → cores h !! rn x = ren_core L rn <$> g0 !! x.
Proof.
  intros Hx. destruct (co_in x Hx) as [n Hn]. destruct (li_new _ _ _ _ _ _ Hli x n Hx Hn) as (n' & Hn' & Hl).
  rewrite (cores_Some _ _ _ _ Hn'), (cores_Some _ _ _ _ Hn). simpl. by rewrite (lk_core _ _ _ _ _ _ _ Hl).
Qed.
Lemma co_old y : y ∉ rn <$> out → h !! y = h0 !! y.
Proof. apply (li_old _ _ _ _ _ _ Hli). Qed.
Lemma co_old_in y : is_Some (h0 !! y) → y ∉ rn <$> out.
Proof.
  intros [n Hn] Hy. apply elem_of_list_fmap in Hy as (x & -> & Hx). by rewrite co_fresh in Hn.
Qed.
Lemma co_old_some y n : h0 !! y = Some n → h !! y = Some n.
Proof. intros Hy. rewrite co_old; [done|]. apply co_old_in. eauto. Qed.
Lemma co_old_core y c : g0 !! y = Some c → cores h !! y = Some c.
Proof. intros Hc. apply cores_Some_inv in Hc as (n & Hn & <-). apply cores_Some. by apply co_old_some. Qed.

Lemma co_cases y n : h !! y = Some n →
  (h0 !! y = Some n) ∨
  (∃ x m, x ∈ out ∧ y = rn x ∧ h0 !! x = Some m ∧ like L h0 rn (λ q d, q ∈ out) x m n).
Proof.
  intros Hy. destruct (decide (y ∈ rn <$> out)) as [Hin|Hnin].
  - right. apply elem_of_list_fmap in Hin as (x & -> & Hx). destruct (co_in x Hx) as [m Hm].
    destruct (li_new _ _ _ _ _ _ Hli x m Hx Hm) as (n' & Hn' & Hl). simplify_eq. by exists x, m.
  - left. by rewrite <- co_old.
Qed.

Lemma co_edge p d y : edge L (cores h) p d y ↔
  edge L g0 p d y ∨ ∃ q x, q ∈ out ∧ p = rn q ∧ y = rn x ∧ edge L g0 q d x.
Proof.
  split.
  - intros (c & Hc & Hb & Hd & Ha). apply cores_Some_inv in Hc as (n & Hn & <-).
    destruct (co_cases p n Hn) as [H0|(q & m & Hq & -> & Hm & Hl)].
    + left. exists (n_core L n). split_and!; try done. by apply cores_Some.
    + right. rewrite (lk_core _ _ _ _ _ _ _ Hl) in Hb, Hd, Ha. apply ren_ref in Ha as (x & Ha & ->).
      exists q, x. split_and!; try done. exists (n_core L m). split_and!; try done. by apply cores_Some.
  - intros [(c & Hc & ?)|(q & x & Hq & -> & -> & (c & Hc & Hb & Hd & Ha))].
    + exists c. split; [by apply co_old_core|done].
    + exists (ren_core L rn c). rewrite co_map, Hc by done. split_and!; try done.
      apply ren_ref. by exists x.
Qed.

Lemma co_dep x y : is_Some (h0 !! x) → dep L (cores h) x y → dep L g0 x y ∧ is_Some (h0 !! y).
Proof.
  intros Hx Hd. unfold dep in Hd. induction Hd as [x|a b y [k Hk] _ IH].
  - split; [constructor|done].
  - apply co_edge in Hk as [Hk|(q & z & Hq & -> & _)].
    + assert (Hb : is_Some (h0 !! b)) by (by eapply (si_closed _ _ (proj1 Hi0))).
      destruct (IH Hb) as [H1 H2]. split; [|done]. econstructor; [|done]. by exists k.
    + destruct Hx as [n Hn]. by rewrite co_fresh in Hn.
Qed.

Lemma co_sim x : is_Some (h0 !! x) → ∀ p, dep L g0 x p → gsim L g0 (cores h) p.
Proof.
  intros Hx p Hp. destruct (dep_dom L h0 x p (proj1 Hi0) Hx Hp) as [np Hnp].
  unfold gsim. rewrite (cores_Some _ _ _ _ Hnp), (cores_Some _ _ _ _ (co_old_some _ _ Hnp)).
  constructor. apply core_sim_refl.
Qed.
Lemma co_eval_old (n : nat) x w : is_Some (h0 !! x) → eval L n (cores h) x w = eval L n g0 x w.
Proof.
  intros Hx. symmetry. apply eval_frame; [by apply co_sim|].
  intros p c _. apply (si_ok _ _ (proj1 Hi0)).
Qed.
Lemma co_not_view w : is_Some (h0 !! w) → not_view L (cores h) w ↔ not_view L g0 w.
Proof.
  intros [n Hn]. unfold not_view. by rewrite (cores_Some _ _ _ _ Hn), (cores_Some _ _ _ _ (co_old_some _ _ Hn)).
Qed.
Lemma co_drval_old (n : nat) x w : is_Some (h0 !! x) → not_view L g0 w →
  drval L n (cores h) x w = drval L n g0 x w.
Proof.
  intros Hx Hw. symmetry. apply drval_frame; [by apply co_sim| |done|].
  - intros p c _. apply (si_ok _ _ (proj1 Hi0)).
  - apply co_not_view; [|done]. destruct Hw as (c & Hc & _). apply cores_Some_inv in Hc as (n' & ? & _). eauto.
Qed.
Lemma co_eval_new (n : nat) x w : x ∈ out → eval L n (cores h) (rn x) w = eval L n g0 x w.
Proof. apply (eval_iso L g0 (cores h) rn (λ x, x ∈ out)); [apply co_map|apply co_refs]. Qed.
Lemma co_drval_new (n : nat) x w : x ∈ out → w ∈ out → drval L n (cores h) (rn x) (rn w) = drval L n g0 x w.
Proof. apply (drval_iso L g0 (cores h) rn (λ x, x ∈ out)); [apply co_map|apply co_refs|apply co_inj]. Qed.
Lemma co_view_new w : w ∈ out → not_view L (cores h) (rn w) ↔ not_view L g0 w.
Proof. apply (not_view_iso L g0 (cores h) rn (λ x, x ∈ out)). apply co_map. Qed.

Lemma co_inv : inv L h.
Proof.
  destruct Hi0 as [Hs Hc]. split; split.
  - intros x c Hx. apply cores_Some_inv in Hx as (n & Hn & <-).
    destruct (co_cases x n Hn) as [H0|(q & m & Hq & -> & Hm & Hl)].
    + apply (si_ok _ _ Hs x). by apply cores_Some.
    + rewrite (lk_core _ _ _ _ _ _ _ Hl). apply ren_node_ok. apply (si_ok _ _ Hs q). by apply cores_Some.
  - intros x nx p d Hx. destruct (co_cases x nx Hx) as [H0|(q & m & Hq & -> & Hm & Hl)].
    + rewrite (si_par _ _ Hs x nx p d H0), co_edge. split; [by left|].
      intros [?|(q & z & Hq & -> & -> & He)]; [done|]. exfalso.
      rewrite co_fresh in H0; [done|]. apply (co_refs q); [done|]. by eapply edge_refers.
    + rewrite (lk_par _ _ _ _ _ _ _ Hl), co_edge. split.
      * intros (z & Hz & -> & He). right. by exists z, q.
      * intros [He|(z & y & Hz & -> & Ey & He)].
        -- exfalso. destruct (si_closed _ _ Hs _ _ _ He) as [n Hn]. by rewrite co_fresh in Hn.
        -- assert (q = y) as ->. { apply co_inj; [done| |done]. apply (co_refs z); [done|]. by eapply edge_refers. }
           by exists z.
  - intros x nx Hx. destruct (co_cases x nx Hx) as [H0|(q & m & Hq & -> & Hm & Hl)].
    + by apply (si_ne _ _ Hs x).
    + apply Hl.
  - intros p d x He. apply co_edge in He as [He|(q & z & Hq & -> & -> & He)].
    + destruct (si_closed _ _ Hs _ _ _ He) as [n Hn]. exists n. by apply co_old_some.
    + assert (Hz : z ∈ out) by (apply (co_refs q); [done|]; by eapply edge_refers).
      destruct (co_in z Hz) as [m Hm]. destruct (li_new _ _ _ _ _ _ Hli z m Hz Hm) as (n' & ? & _). eauto.
  - intros x nx w j Hx Hj. destruct (co_cases x nx Hx) as [H0|(q & m & Hq & -> & Hm & Hl)].
    + destruct (si_dr _ _ Hs x nx w j H0 Hj) as [n Hn]. exists n. by apply co_old_some.
    + rewrite (lk_dr _ _ _ _ _ _ _ Hl) in Hj. by rewrite lookup_empty in Hj.
  - intros x nx v Hx HE Hr. destruct (co_cases x nx Hx) as [H0|(q & m & Hq & -> & Hm & Hl)].
    + destruct (ci_r _ _ _ Hc x nx v H0 HE Hr) as [n Hn]. exists n. rewrite co_eval_old; eauto.
    + rewrite (lk_r _ _ _ _ _ _ _ Hl) in Hr. done.
  - intros x nx k v Hx Hk _. destruct (co_cases x nx Hx) as [H0|(q & m & Hq & -> & Hm & Hl)].
    + destruct (ci_pc _ _ _ Hc x nx k v H0 Hk) as [n Hn]; [by intros ???? []|].
      exists n. rewrite co_eval_old; eauto.
    + destruct (ci_pc _ _ _ Hc q m k v Hm) as [n Hn]; [by apply Hl|by intros ???? []|].
      exists n. by rewrite co_eval_new.
  - intros x nx k v Hx Hk. destruct (co_cases x nx Hx) as [H0|(q & m & Hq & -> & Hm & Hl)].
    + by apply (ci_pcd _ _ _ Hc x nx k v).
    + rewrite (lk_core _ _ _ _ _ _ _ Hl). apply (ci_pcd _ _ _ Hc q m k v Hm). by apply Hl.
  - intros x nx w j Hx HE Hj Hw. destruct (co_cases x nx Hx) as [H0|(q & m & Hq & -> & Hm & Hl)].
    + assert (Hw0 : not_view L g0 w) by (apply co_not_view; [by apply (si_dr _ _ Hs x nx w j)|done]).
      destruct (ci_dr _ _ _ Hc x nx w j H0 HE Hj Hw0) as [n Hn]. exists n. rewrite co_drval_old; eauto.
    + rewrite (lk_dr _ _ _ _ _ _ _ Hl) in Hj. by rewrite lookup_empty in Hj.
Qed.

Lemma co_tags used : tags_in L used h0 → tags_in L used h.
Proof.
  intros Ht x n Hx. destruct (co_cases x n Hx) as [H0|(q & m & Hq & -> & Hm & Hl)]; [by apply (Ht x)|].
  destruct (lk_itr _ _ _ _ _ _ _ Hl) as [->| ->]; [by left|by apply (Ht q)].
Qed.

Lemma co_closed : refs_closed L (cores h).
Proof.
  intros x c k p Hx Hp. apply cores_Some_inv in Hx as (n & Hn & <-).
  destruct (co_cases x n Hn) as [H0|(q & m & Hq & -> & Hm & Hl)].
  - assert (Hd : p ∈ dom g0) by (eapply (Hcl x); [by apply cores_Some|done]).
    apply elem_of_dom in Hd as [c Hc]. apply elem_of_dom. exists c. by apply co_old_core.
  - rewrite (lk_core _ _ _ _ _ _ _ Hl) in Hp. apply ren_ref in Hp as (z & Hz & ->).
    assert (z ∈ out) as Hzo.
    { apply (co_refs q); [done|]. exists (n_core L m), k. split; [by apply cores_Some|done]. }
    apply elem_of_dom. rewrite co_map by done. destruct (co_in z Hzo) as [m' Hm'].
    rewrite (cores_Some _ _ _ _ Hm'). eauto.
Qed.

Lemma co_graph : copied_graph L rn out g0 (cores h).
Proof.
  split.
  - intros x Hx. apply elem_of_dom in Hx as [c Hc]. rewrite Hc. by apply co_old_core.
  - intros x c Hx Hc. rewrite co_map, Hc by done. eexists. split; [done|]. apply ren_corresponds.
  - intros y Hy. apply elem_of_dom in Hy as [c Hc]. apply cores_Some_inv in Hc as (n & Hn & _).
    destruct (co_cases y n Hn) as [H0|(q & m & Hq & -> & Hm & Hl)]; [left|right; eauto].
    apply elem_of_dom. exists (n_core L n). by apply cores_Some.
Qed.
End one.

(* ------------------------------------------------------------------ *)
(** Histories with copies. *)
Record fine (used : gset Z) (st : state L) : Prop := {
  fi_ok : ok_state L used st;
  fi_cl : refs_closed L (cores (st_h L st))
}.

Lemma fine_copy used st rn ord o out : fine used st → copy_ok L (cores (st_h L st)) rn ord o out →
  match copy_state L rn ord out st with
  | Some st' => fine used st' ∧ linv L (st_h L st) rn (λ q d, q ∈ out) out (st_h L st') ∧
                no_double L (cores (st_h L st)) out
  | None => ¬ no_double L (cores (st_h L st)) out
  end.
Proof.
  intros [[Hi Ht H9] Hcl] Hok. unfold copy_state.
  pose proof (copies_all L (st_h L st) o out rn ord (proj1 Hi) (proj1 (proj2 Hok))
    (proj1 (proj2 (proj2 Hok))) (proj2 (proj2 (proj2 Hok))) Hcl (proj1 Hok)) as H.
  destruct (copies L rn ord out (st_h L st)) as [h'|]; [|done].
  destruct H as [Hli Hnd]. split_and!; try done. split; [split|]; simpl.
  - by eapply co_inv.
  - by eapply co_tags.
  - done.
  - by eapply co_closed.
Qed.

Lemma fine_act used a st : lib_ok L → fine used st → act_ok L used a (cores (st_h L st)) →
  fine (act_tags L a ∪ used) (act_step L a st).
Proof.
  intros Hlib Hf Ha. destruct a as [b|rn ord o out]; simpl in *.
  - destruct Hf as [Hos Hcl]. destruct (step_cores L used b st Hlib Hos Ha) as [H1 H2].
    split; [done|]. rewrite H2. by apply (gstep_closed L used).
  - replace (∅ ∪ used) with used by set_solver.
    pose proof (fine_copy used st rn ord o out Hf Ha) as H.
    destruct (copy_state L rn ord out st); [by destruct H|done].
Qed.

Lemma fine_acts l : ∀ used st, lib_ok L → fine used st → acts_ok L used l st →
  fine (tags_after L l used) (perform L l st).
Proof.
  induction l as [|a l IH]; intros used st Hlib Hf Hok; [done|]. destruct Hok as [Ha Hok]. simpl.
  apply IH; [done| |done]. by apply fine_act.
Qed.

Lemma fine_init : fine ∅ (init L).
Proof.
  split; [apply ok_init|]. intros x c k p Hx. unfold init in Hx. simpl in Hx.
  rewrite cores_lookup, lookup_empty in Hx. done.
Qed.

(** Objects that are not assigned to keep their attributes. *)
Lemma gassign_keep g s x : g !! s.1.1.1 ≠ None → s.1.1.1 ≠ x → x ∈ dom g →
  (∀ y, s.2 = y → y ∉ dom g) → gassign L g s !! x = g !! x.
Proof.
  destruct s as [[[p k] v] o']. simpl. intros _ Hpx Hx Ho'.
  destruct (g !! p) as [c|]; [|done].
  assert (Hne : o' ≠ x) by (intros ->; by apply (Ho' x)).
  destruct v as [t|q]; [|by rewrite lookup_insert_ne].
  destruct (is_base L (c_cls L c)); [by rewrite lookup_insert_ne|].
  destruct (decide (k ∈ c_dt L c)); [|by rewrite lookup_insert_ne].
  by rewrite !lookup_insert_ne.
Qed.
Lemma gassigns_keep (X : oid → Prop) sets : ∀ g, assigns_ok L g sets → (∀ s, s ∈ sets → ¬ X s.1.1.1) →
  ∀ x, X x → x ∈ dom g → foldl (gassign L) g sets !! x = g !! x.
Proof.
  induction sets as [|[[[p k] v] o'] sets IH]; intros g Hok HX x Hx Hd; [done|].
  destruct Hok as [(c & Hc & _ & _ & Ho') Hok].
  assert (E : gassign L g (p, k, v, o') !! x = g !! x).
  { apply gassign_keep; simpl; try done; [by rewrite Hc| |by intros ? <-].
    intros ->. apply (HX (x, k, v, o')); [by left|done]. }
  change (foldl (gassign L) (gassign L g (p, k, v, o')) sets !! x = g !! x). rewrite <- E.
  apply IH; try done.
  - intros s Hs. apply HX. by right.
  - apply elem_of_dom. rewrite E. by apply elem_of_dom.
Qed.

Lemma gstep_keep (X : oid → Prop) used b g x : op_ok L used b g → avoids L X (Op L b) → X x → x ∈ dom g →
  gstep L b g !! x = g !! x.
Proof.
  intros Hok Ha Hx Hd. destruct b as [o c dt tm|o k v o'|o kws|i sets|o|n o w|n o w|Y]; simpl in *; try done.
  - apply lookup_insert_ne. intros ->. by destruct Hok.
  - apply (gassigns_keep X [(o, k, v, o')]); try done.
  - destruct Hok as [Hok _]. by apply (gassigns_keep X).
  - destruct Hok as (_ & _ & Hok). by apply (gassigns_keep X).
  - destruct (g !! x) as [c|] eqn:E.
    + apply map_filter_lookup_Some. split; [done|]. simpl. intros Hy. by apply (Ha x).
    + apply map_filter_lookup_None. by left.
Qed.

Lemma act_keep (X : oid → Prop) used a st x : lib_ok L → fine used st → act_ok L used a (cores (st_h L st)) →
  avoids L X a → X x → x ∈ dom (cores (st_h L st)) →
  cores (st_h L (act_step L a st)) !! x = cores (st_h L st) !! x.
Proof.
  intros Hlib Hf Ha HX Hx Hd. destruct a as [b|rn ord o out]; simpl.
  - destruct Hf as [Hos Hcl]. destruct (step_cores L used b st Hlib Hos Ha) as [_ H2]. rewrite H2.
    by apply (gstep_keep X used).
  - pose proof (fine_copy used st rn ord o out Hf Ha) as H.
    destruct (copy_state L rn ord out st) as [st'|]; [|done].
    destruct H as (Hf' & Hli & _). destruct Hf as [[Hi Ht H9] Hcl].
    apply elem_of_dom in Hd as [c Hc]. rewrite Hc. by eapply co_old_core.
Qed.
Lemma acts_keep (X : oid → Prop) l : ∀ used st, lib_ok L → fine used st → acts_ok L used l st →
  (∀ a, a ∈ l → avoids L X a) →
  ∀ x, X x → x ∈ dom (cores (st_h L st)) → cores (st_h L (perform L l st)) !! x = cores (st_h L st) !! x.
Proof.
  induction l as [|a l IH]; intros used st Hlib Hf Hok HX x Hx Hd; [done|]. destruct Hok as [Ha Hok].
  change (perform L (a :: l) st) with (perform L l (act_step L a st)).
  assert (E : cores (st_h L (act_step L a st)) !! x = cores (st_h L st) !! x).
  { apply (act_keep X used); try done. apply HX. by left. }
  rewrite <- E. apply (IH (act_tags L a ∪ used)); try done.
  - by apply fine_act.
  - intros b Hb. apply HX. by right.
  - apply elem_of_dom. rewrite E. by apply elem_of_dom.
Qed.

(** Values of a closed set of objects that kept their attributes. *)
Lemma keep_eval (X : oid → Prop) g1 g2 : graph_ok L g1 →
  (∀ x p, X x → refers L g1 x p → X p) → (∀ x, X x → g2 !! x = g1 !! x) →
  ∀ (n : nat) x w, X x → eval L n g2 x w = eval L n g1 x w.
Proof.
  intros Hok Hcl Hsame n x w Hx. symmetry. apply eval_frame.
  - intros p Hp. unfold gsim. assert (HXp : X p).
    { unfold dep in Hp. induction Hp as [|a b c [k Hk] _ IH]; [done|]. apply IH. apply (Hcl a); [done|].
      by eapply edge_refers. }
    rewrite Hsame by done. destruct (g1 !! p); constructor. apply core_sim_refl.
  - intros p c _. apply Hok.
Qed.
Lemma keep_drval (X : oid → Prop) g1 g2 : graph_ok L g1 →
  (∀ x p, X x → refers L g1 x p → X p) → (∀ x, X x → g2 !! x = g1 !! x) →
  ∀ (n : nat) x w, X x → X w → not_view L g1 w → drval L n g2 x w = drval L n g1 x w.
Proof.
  intros Hok Hcl Hsame n x w Hx Hw Hv. symmetry. apply drval_frame.
  - intros p Hp. unfold gsim. assert (HXp : X p).
    { unfold dep in Hp. induction Hp as [|a b c [k Hk] _ IH]; [done|]. apply IH. apply (Hcl a); [done|].
      by eapply edge_refers. }
    rewrite Hsame by done. destruct (g1 !! p); constructor. apply core_sim_refl.
  - intros p c _. apply Hok.
  - done.
  - destruct Hv as (c & Hc & ?). exists c. by rewrite Hsame.
Qed.

(** Everything about an undisturbed closed set of objects stays as it is. *)
Lemma keep_reads (X : oid → Prop) used st l : lib_ok L → fine used st → acts_ok L used l st →
  (∀ a, a ∈ l → avoids L X a) → (∀ x, X x → x ∈ dom (cores (st_h L st))) →
  (∀ x p, X x → refers L (cores (st_h L st)) x p → X p) →
  (∀ x w v, X x → reads L (perform L l st) x w v ↔ reads L st x w v) ∧
  (∀ x w j, X x → X w → not_view L (cores (st_h L st)) w →
     reads_dr L (perform L l st) x w j ↔ reads_dr L st x w j).
Proof.
  intros Hlib Hf Hok HX Hdom Hcl.
  assert (Hsame : ∀ x, X x → cores (st_h L (perform L l st)) !! x = cores (st_h L st) !! x).
  { intros x Hx. by apply (acts_keep X l used); auto. }
  pose proof (fine_acts l used st Hlib Hf Hok) as [[Hi' _ _] _]. destruct Hf as [[Hi _ _] _].
  pose proof (si_ok _ _ (proj1 Hi)) as Hgok. split.
  - intros x w v Hx. rewrite !inv_reads by done.
    split; intros [n Hn]; exists n; by rewrite (keep_eval X (cores (st_h L st))) in *.
  - intros x w j Hx Hw Hv. rewrite !inv_reads_dr; try done.
    + split; intros [n Hn]; exists n; by rewrite (keep_drval X (cores (st_h L st))) in *.
    + destruct Hv as (c & Hc & ?). exists c. by rewrite Hsame.
Qed.

End inv.
