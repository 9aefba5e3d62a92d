(** dr_wrt is the Jacobian. *)
From Coq Require Import Reals Lra.
From stdpp Require Import gmap strings list relations.
From Verif Require Import EngineModel EngineSpec EngineEval EngineRead EngineThms GraphSpec RevSpec RevThms ArrModel Curve ArrThms AdSpec.

Section ad.
Context {L : lib} (M : real_sem L) (HM : sem_ok M).
Notation graph := (gmap oid (core L)).
Implicit Types (g : graph) (c : core L).

Lemma evale_mono env n m g o w v : n ≤ m → evale env n g o w = Some v → evale env m g o w = Some v.
Proof.
  revert m o w v. induction n as [|n IH]; intros m o w v Hle; [done|].
  destruct m as [|m]; [lia|]. simpl.
  destruct (match w with QR => env o | _ => None end); [done|].
  destruct (g !! o) as [c|]; [|done].
  assert (Hans : ∀ q v, answer L (evale env n g) o c q = Some v →
                        answer L (evale env m g) o c q = Some v).
  { apply answer_mono. intros. apply IH; [lia|done]. }
  destruct w as [|k]; [by apply runp_mono|].
  destruct (prop_deps _ _ !! k); [|done]. by apply runp_mono.
Qed.

Lemma runp_uses {R} (P : req → Prop) ask1 ask2 (p : prog (Arr L) R) r :
  uses L P p → (∀ q v, P q → ask1 q = Some v → ask2 q = Some v) →
  runp L ask1 p = Some r → runp L ask2 p = Some r.
Proof.
  intros Hu Hask. induction p as [r'| |q f IH]; simpl; [done..|]. destruct Hu as [Hq Hu].
  destruct (ask1 q) as [v|] eqn:E; [|done]. rewrite (Hask _ _ Hq E). apply IH, Hu.
Qed.

(** Operands by value or by evaluation: the same. *)
Lemma operands_elem c k p : k ∈ c_dt L c → c_attr L c !! k = Some (ARef p) → p ∈ operands c.
Proof. intros Hk Ha. apply elem_of_list_omap. exists k. split; [done|]. unfold ref_of. by rewrite Ha. Qed.

Lemma evale_given env1 env2 g o c N : g !! o = Some c → class_ok L (c_cls L c) (c_dt L c) (c_tm L c) →
  env1 o = None → env2 o = None →
  (∀ p v, p ∈ operands c → env1 p = Some v → evale env2 N g p QR = Some v) →
  (∀ p, p ∈ operands c → is_Some (env1 p)) →
  ∀ m w v, evale env1 m g o w = Some v → evale env2 (m + N) g o w = Some v.
Proof.
  intros Hc Hok H1 H2 Henv Hall m. induction m as [|m IH]; intros w v; [done|]. simpl.
  replace (match w with QR => env1 o | _ => None end) with (@None (Arr L)) by (by destruct w).
  replace (match w with QR => env2 o | _ => None end) with (@None (Arr L)) by (by destruct w).
  rewrite Hc.
  assert (Hans : ∀ q u, asks_tracked L (c_cls L c) (c_dt L c) q → answer L (evale env1 m g) o c q = Some u →
     answer L (evale env2 (m + N) g) o c q = Some u).
  { intros [|k|k] u Hq; simpl; [apply IH| |apply IH].
    destruct (c_attr L c !! k) as [[t|p]|] eqn:Ek; [done| |done]. intros Hu.
    assert (Hp : p ∈ operands c) by (by eapply operands_elem).
    destruct m as [|m]; [done|]. destruct (Hall p Hp) as [u' Hu']. simpl in Hu. rewrite Hu' in Hu.
    apply (evale_mono _ N); [lia|]. apply Henv; [done|congruence]. }
  destruct w as [|k].
  - eapply runp_uses; [apply (co_r _ _ _ _ Hok)|]. exact Hans.
  - destruct (prop_deps L (c_cls L c) !! k) as [ds|] eqn:Ek; [|done].
    eapply runp_uses; [apply (co_prop _ _ _ _ Hok k ds); done|]. intros q u [Hq _]. by apply Hans.
Qed.

(** Replacing w by its own value changes nothing; giving w another value is giving its
    node another content. *)
Lemma evale_only g1 g2 w u N : (∀ p, p ≠ w → g1 !! p = g2 !! p) → eval L N g2 w QR = Some u →
  ∀ m o q v, (q = QR ∨ o ≠ w) → evale (only w u) m g1 o q = Some v → eval L (m + N) g2 o q = Some v.
Proof.
  intros Hg Hu m. induction m as [|m IH]; intros o q v Hq; [done|]. simpl.
  destruct (decide (o = w)) as [->|Hne].
  { destruct Hq as [->|?]; [|done]. unfold only at 1. rewrite decide_True by done. intros [= <-].
    change (eval L (S m + N) g2 w QR = Some u). apply (eval_mono L N); [lia|done]. }
  replace (match q with QR => only w u o | _ => None end) with (@None (Arr L)).
  2:{ unfold only. rewrite decide_False by done. by destruct q. }
  rewrite <- (Hg o Hne). destruct (g1 !! o) as [c|]; [|done].
  assert (Hans : ∀ q v, answer L (evale (only w u) m g1) o c q = Some v → answer L (eval L (m + N) g2) o c q = Some v).
  { intros [|k|k] v'; simpl; [apply IH; auto| |apply IH; auto].
    destruct (c_attr L c !! k) as [[t|p]|]; [done| |done]. apply IH. auto. }
  destruct q as [|k]; [by apply runp_mono|].
  destruct (prop_deps L (c_cls L c) !! k); [|done]. by apply runp_mono.
Qed.
Lemma env_denotes g1 g2 w u o v : (∀ p, p ≠ w → g1 !! p = g2 !! p) → denotes L g2 w QR u →
  denotes_env (only w u) g1 o v → denotes L g2 o QR v.
Proof. intros Hg [N HN] [m Hm]. exists (m + N). eapply evale_only; eauto. Qed.

(* ------------------------------------------------------------------ *)
Lemma drval_no_loop g w o c n j : g !! o = Some c → o ∈ operands c → o ≠ w → drval L n g o w ≠ Some j.
Proof.
  intros Hc Ho Hne. revert j. induction n as [|n IH]; intros j; [done|]. simpl. rewrite Hc.
  destruct (psliced L n g o w) as [d|]; [|done].
  destruct (pdr_loop L _ n g o w c (c_dt L c) (opt_list d)) as [l|] eqn:El; [|done]. intros _.
  unfold operands in Ho. revert El Ho. generalize (opt_list d). generalize (c_dt L c) as ks.
  induction ks as [|k ks IHk]; intros acc El Ho; [by apply elem_of_nil in Ho|].
  simpl in El, Ho. unfold ref_of in Ho at 1. destruct (c_attr L c !! k) as [[t|p]|]; [eauto| |eauto].
  destruct (decide (p = w)) as [->|Hpw].
  { apply elem_of_cons in Ho as [->|Ho]; [done|eauto]. }
  destruct (drval L n g p w) as [[j2|]|] eqn:Ep; [| |done].
  - destruct (psliced L n g o p) as [[e|]|]; [| |done];
      (apply elem_of_cons in Ho as [->|Ho]; [by eapply IH|eauto]).
  - apply elem_of_cons in Ho as [->|Ho]; [by eapply IH|eauto].
Qed.

(** The sum that reduce computes. *)
Lemma act_foldl v i l : ∀ j, act M (foldl (jadd L) j l) v i = (act M j v i + sumR ((λ j, act M j v i) <$> l))%R.
Proof.
  induction l as [|a l IH]; intros j; [unfold sumR; simpl; ring|].
  rewrite fmap_cons. change (sumR (?x :: ?y)) with (x + sumR y)%R. cbn [foldl]. rewrite IH, (so_add M HM). ring.
Qed.
Lemma jact_reduce v i l : jact M (reduce_jac L l) v i = sumR ((λ j, act M j v i) <$> l).
Proof. destruct l as [|j l]; [done|]. simpl. by rewrite act_foldl. Qed.
Lemma sumR_app l1 l2 : sumR (l1 ++ l2) = (sumR l1 + sumR l2)%R.
Proof. unfold sumR. induction l1 as [|a l IH]; simpl; [ring|]. rewrite IH. ring. Qed.
Lemma sumR_perm l1 l2 : l1 ≡ₚ l2 → sumR l1 = sumR l2.
Proof. unfold sumR. induction 1; simpl; [done|congruence|ring|congruence]. Qed.

Section step.
Context (g : graph) (w o : oid) (c : core L) (J : oid → option (Jac L)) (JW : oid → option (Jac L)) (v : nat → R).
Context (Hc : g !! o = Some c).
Context (HJ : ∀ p, p ∈ operands c → (∃ n, pdirect L n g o p = Some (J p)) ∧ (J p = None → not_view L g p)).

Lemma psliced_right n p d : p ∈ operands c → psliced L n g o p = Some d → d = J p.
Proof.
  intros Hp Hd. destruct (HJ p Hp) as [[m Hm] Hv]. unfold psliced in Hd.
  destruct (pdirect L n g o p) as [e|] eqn:Ee; [|done].
  assert (e = J p) as ->.
  { apply (pdirect_mono L n (n `max` m)) in Ee; [|lia]. apply (pdirect_mono L m (n `max` m)) in Hm; [|lia]. congruence. }
  destruct (J p) as [j|] eqn:EJ; [by injection Hd as <-|].
  destruct (Hv eq_refl) as (cp & Hcp & Hpv). destruct n as [|n]; [done|]. cbn [pwalk] in Hd.
  rewrite Hcp, Hpv in Hd. by injection Hd as <-.
Qed.

(** What the loop over the dterms adds up. *)
Lemma pdr_loop_sum n i ks : ∀ acc l, (∀ k, k ∈ ks → k ∈ c_dt L c) →
  (∀ p, p ∈ omap (ref_of c) ks → p ≠ w → drval L n g p w = Some (JW p)) →
  pdr_loop L (λ p, drval L n g p w) n g o w c ks acc = Some l →
  sumR ((λ j, act M j v i) <$> l) = (sumR ((λ j, act M j v i) <$> acc) +
    sumR ((λ p, jact M (J p) (λ k, jact M (JW p) v k) i) <$> filter (λ p, p ≠ w) (omap (ref_of c) ks)))%R.
Proof.
  induction ks as [|k ks IH]; intros acc l Hks Hrd Hl.
  { simpl in *. injection Hl as <-. symmetry. apply Rplus_0_r. }
  assert (Hks' : ∀ k, k ∈ ks → k ∈ c_dt L c) by (intros ??; apply Hks; by right).
  simpl in Hl, Hrd |- *. unfold ref_of at 1 in Hrd. unfold ref_of at 1.
  destruct (c_attr L c !! k) as [[t|p]|] eqn:Ek; [by apply IH| |by apply IH].
  assert (Hp : p ∈ operands c) by (apply (operands_elem c k); [apply Hks; by left|done]).
  assert (Hrd' : ∀ q, q ∈ omap (ref_of c) ks → q ≠ w → drval L n g q w = Some (JW q)).
  { intros q Hq. apply Hrd. by right. }
  destruct (decide (p = w)) as [->|Hpw].
  { rewrite filter_cons_False by auto. by apply IH. }
  rewrite filter_cons_True by done. rewrite (Hrd p) in Hl; [|by left|done].
  rewrite fmap_cons. change (sumR (?a :: ?b)) with (a + sumR b)%R.
  destruct (JW p) as [j2|] eqn:Ej.
  - destruct (psliced L n g o p) as [d|] eqn:Ed; [|done].
    rewrite (psliced_right n p d Hp Ed) in Hl. destruct (J p) as [dj|].
    + rewrite (IH _ _ Hks' Hrd' Hl), fmap_app, sumR_app.
      replace (sumR ((λ j, act M j v i) <$> [jmul L dj j2])) with (act M dj (act M j2 v) i)
        by (rewrite <- (so_mul M HM); symmetry; apply Rplus_0_r).
      cbn [jact]. rewrite (so_ext M HM dj (λ k, act M j2 v k) (act M j2 v) i) by done. apply Rplus_assoc.
    + rewrite (IH _ _ Hks' Hrd' Hl). cbn [jact]. by rewrite Rplus_0_l.
  - rewrite (IH _ _ Hks' Hrd' Hl).
    replace (jact M (J p) (λ k0, jact M None v k0) i) with 0%R; [by rewrite Rplus_0_l|].
    destruct (J p) as [dj|]; [|done]. simpl. symmetry. apply (so_zero M HM).
Qed.
End step.

Lemma pdr_loop_operands n g o w c l ks : ∀ acc, pdr_loop L (λ p, drval L n g p w) n g o w c ks acc = Some l →
  ∀ p, p ∈ omap (ref_of c) ks → p ≠ w → is_Some (drval L n g p w).
Proof.
  induction ks as [|k ks IH]; intros acc Hl p Hp Hpw; [by apply elem_of_nil in Hp|].
  simpl in Hl, Hp. unfold ref_of in Hp at 1. destruct (c_attr L c !! k) as [[t|q]|]; [by eapply IH| |by eapply IH].
  destruct (decide (q = w)) as [->|Hqw].
  { apply elem_of_cons in Hp as [->|Hp]; [done|by eapply IH]. }
  destruct (drval L n g q w) as [[j2|]|] eqn:Eq; [| |done].
  - destruct (psliced L n g o q) as [[e|]|]; [| |done];
      (apply elem_of_cons in Hp as [->|Hp]; [by rewrite Eq|by eapply IH]).
  - apply elem_of_cons in Hp as [->|Hp]; [by rewrite Eq|by eapply IH].
Qed.

Lemma finite_choice {A B} `{EqDecision A} (d : B) (l : list A) (P : A → B → Prop) :
  (∀ a, a ∈ l → ∃ b, P a b) → ∃ f : A → B, ∀ a, a ∈ l → P a (f a).
Proof.
  induction l as [|a l IH]; intros H; [exists (λ _, d); intros a Ha; by apply elem_of_nil in Ha|].
  destruct IH as [f Hf]; [intros; apply H; by right|].
  destruct (H a) as [b Hb]; [by left|].
  exists (λ x, if decide (x = a) then b else f x). intros x Hx. destruct (decide (x = a)) as [->|]; [done|].
  apply Hf. by apply elem_of_cons in Hx as [->|?].
Qed.
Lemma uniform_fuel {A} (l : list A) (P : A → nat → Prop) : (∀ a n m, n ≤ m → P a n → P a m) →
  (∀ a, a ∈ l → ∃ n, P a n) → ∃ N, ∀ a, a ∈ l → P a N.
Proof.
  intros Hm. induction l as [|a l IH]; intros H; [exists 0; intros a Ha; by apply elem_of_nil in Ha|].
  destruct IH as [N HN]; [intros; apply H; by right|]. destruct (H a) as [n Hn]; [by left|].
  exists (N `max` n). intros x [->|Hx]%elem_of_cons; [apply (Hm a n); [lia|done]|apply (Hm x N); [lia|auto]].
Qed.

Lemma moves_ext y u v : (∀ i, u i = v i) → moves M y u → moves M y v.
Proof. intros H [Hs Hd]. split; [done|]. intros i. rewrite <- H. apply Hd. Qed.

(** The main induction. *)
Lemma chain_rule g w (gam : R → Arr L) v : graph_ok L g → not_view L g w → denotes L g w QR (gam 0%R) → moves M gam v →
  ∀ n o j, o ≠ w → (∀ x, rtc (points L g) o x → x ≠ w → right_at M g x ∧ no_repeat g w x) →
  local_derivatives L → drval L n g o w = Some j →
  ∃ y, near (λ t, denotes_env (only w (gam t)) g o (y t)) ∧ moves M y (jact M j v).
Proof.
  intros Hok Hwv Hw0 Hgam n. induction n as [|n IH]; intros o j Hne Hright Hlocal Hdr; [done|].
  simpl in Hdr. destruct (Hright o) as [Hr Hnr]; [done|done|]. destruct Hr as (c & Hc & J & HJ & Hr).
  rewrite Hc in Hdr. destruct (psliced L n g o w) as [d|] eqn:Ed; [|done].
  destruct (pdr_loop L _ n g o w c (c_dt L c) (opt_list d)) as [l|] eqn:El; [|done]. injection Hdr as <-.
  assert (Hself : o ∉ operands c).
  { intros Ho. apply (drval_no_loop g w o c (S n) (reduce_jac L l) Hc Ho Hne). simpl. by rewrite Hc, Ed, El. }
  assert (Hops : ∀ p, p ∈ operands c → points L g o p).
  { intros p (k & Hk & Hp)%elem_of_list_omap. exists c, k. split_and!; try done.
    unfold ref_of in Hp. by destruct (c_attr L c !! k) as [[t|q]|]; simplify_eq. }
  assert (Hdrs : ∀ p, p ∈ filter (λ p, p ≠ w) (operands c) → ∃ jy : option (Jac L) * (R → Arr L), drval L n g p w = Some jy.1 ∧
    near (λ t, denotes_env (only w (gam t)) g p (jy.2 t)) ∧ moves M jy.2 (jact M jy.1 v)).
  { intros p [Hpw Hp]%elem_of_list_filter. destruct (pdr_loop_operands _ _ _ _ _ _ _ _ El p Hp Hpw) as [jp Hjp].
    destruct (IH p jp Hpw) as (y & Hy & Hm); [|done|done|by exists (jp, y)].
    intros x Hx. apply Hright. eapply rtc_l; [by apply Hops|done]. }
  destruct (finite_choice (None, gam) _ _ Hdrs) as [f Hf]. clear Hdrs.
  set (rho := λ p, if decide (p = w) then gam else (f p).2).
  set (V := λ p, if decide (p = w) then v else jact M (f p).1 v).
  assert (Hrho : ∀ p, p ∈ operands c → near (λ t, denotes_env (only w (gam t)) g p (rho p t)) ∧ moves M (rho p) (V p)).
  { intros p Hp. unfold rho, V. destruct (decide (p = w)) as [->|Hpw].
    - split; [|done]. apply near_always. intros t. exists 1. simpl. unfold only. by rewrite decide_True.
    - apply (Hf p). by apply elem_of_list_filter. }
  destruct (Hr rho V) as (y & Hy & Hmy).
  { intros p Hp. destruct (Hrho p Hp) as [Hn Hm]. split; [|done].
    apply near_0 in Hn. by apply (env_denotes g g w (gam 0%R)). }
  exists y. split.
  - assert (Hall : near (λ t, ∀ p, p ∈ operands c → denotes_env (only w (gam t)) g p (rho p t))).
    { apply near_list. intros p Hp. by apply Hrho. }
    eapply near_mono; [|exact (near_and _ _ Hy Hall)]. intros t [[m Hm] Ht].
    destruct (uniform_fuel (operands c) (λ p N, evale (only w (gam t)) N g p QR = Some (rho p t))) as [N HN];
      [intros p n1 n2 Hle; by apply evale_mono|done|].
    exists (m + N). apply (evale_given (given (operands c) rho t) _ g o c N); try done.
    + by apply (Hok o).
    + unfold given. by rewrite decide_False.
    + unfold only. by rewrite decide_False.
    + intros p u Hp. unfold given. rewrite decide_True by done. intros [= <-]. by apply HN.
    + intros p Hp. unfold given. rewrite decide_True by done. eauto.
  - eapply moves_ext; [|exact Hmy]. intros i. rewrite jact_reduce.
    rewrite (pdr_loop_sum g w o c J (λ p, (f p).1) v HJ n i (c_dt L c) (opt_list d) l);
      [|done| |done].
    2:{ intros p Hp Hpw. apply (Hf p). by apply elem_of_list_filter. }
    fold (operands c).
    assert (Eacc : sumR ((λ j, act M j v i) <$> opt_list d) = if decide (w ∈ operands c) then jact M (J w) v i else 0%R).
    { destruct (decide (w ∈ operands c)) as [Hw|Hw].
      - rewrite (psliced_right g o c J HJ n w d Hw Ed). destruct (J w); unfold sumR; simpl; [ring|done].
      - destruct d as [d|]; [|done]. rewrite psliced_not_view in Ed by done.
        destruct (pdirect L n g o w) as [e|] eqn:Ee; [|done].
        destruct e as [e|]; [|by destruct n; simplify_eq].
        destruct (pdirect_phantom L n g o w e Hlocal Ee) as [Hp|[? _]]; [|done].
        destruct Hw. destruct Hp as (c' & k & Hc' & Hk & Ha). simplify_eq. by eapply operands_elem. }
    rewrite Eacc. specialize (Hnr c Hc).
    assert (Hperm : remove_dups (operands c) ≡ₚ (if decide (w ∈ operands c) then [w] else []) ++ filter (λ p, p ≠ w) (operands c)).
    { apply NoDup_Permutation; [apply NoDup_remove_dups| |].
      - apply NoDup_app. split_and!; [destruct (decide _); [apply NoDup_singleton|constructor]| |done].
        intros x. destruct (decide _); [|by intros ?%elem_of_nil]. intros ->%elem_of_list_singleton.
        rewrite elem_of_list_filter. naive_solver.
      - intros x. rewrite elem_of_remove_dups, elem_of_app, elem_of_list_filter.
        destruct (decide (w ∈ operands c)) as [Hw|Hw].
        + rewrite elem_of_list_singleton. destruct (decide (x = w)) as [->|]; naive_solver.
        + rewrite elem_of_nil. split; [|naive_solver]. intros Hx. right. split; [|done]. by intros ->. }
    rewrite (sumR_perm _ _ (fmap_Permutation _ _ _ Hperm)), fmap_app, sumR_app. f_equal.
    + destruct (decide (w ∈ operands c)); [|done]. simpl. unfold V. rewrite decide_True by done. unfold sumR. simpl. ring.
    + f_equal. apply list_fmap_ext. intros k p Hp. unfold V.
      apply elem_of_list_lookup_2, elem_of_list_filter in Hp as [Hp _]. by rewrite decide_False.
Qed.
End ad.
