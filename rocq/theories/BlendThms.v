(** Proofs about expressions that mix numpy and objects. *)
From Coq Require Import ssreflect.
From stdpp Require Import list numbers gmap.
From Verif Require Import BlendModel BlendSpec.

Section thms.
  Context {N : numpy}.
  Implicit Types (e : nat → arrays N) (p : prog N).
  Lemma array_lift e (x : pyval N) : read e (lift x) = array_of e x.
  Proof. by destruct x. Qed.
  Lemma below_lift (x : pyval N) : below (lift x) = depends_on x.
  Proof. by destruct x. Qed.
  Lemma name_function o : oper_name o = function_of o.
  Proof. by destruct o. Qed.
  Lemma op_value e o (x y z : pyval N) : apply_op o x y = Some z →
    array_of e z = (v ← array_of e x; w ← array_of e y; np2 N (function_of o) v w).
  Proof.
    rewrite -name_function. destruct x as [v|a], y as [w|b]; cbn [apply_op array_of lift].
    - destruct (np2 N _ v w) eqn:E; [|done]. intros [= <-]. cbn. by rewrite E.
    - intros H. assert (z = Obj (O2 (oper_name o) (OConst v) b)) as ->.
      { destruct o; cbn in H |- *; congruence. } done.
    - intros [= <-]. done.
    - intros [= <-]. done.
  Qed.
  Lemma meaning_since_now e p : meaning_since e e p = meaning e p.
  Proof. induction p as [| |?? IH ? IH2|?? IH|?? IH ? IH2| | | |? IH]; cbn; try done; rewrite ?IH ?IH2 //. Qed.
  Lemma since_value e0 e p x : run e0 p = Some x → array_of e x = meaning_since e0 e p.
  Proof.
    revert e x. induction p as [i|v|o p IHp q IHq|f p IHp|f p IHp q IHq|f p IHp|f p IHp q IHq|p IHp|p IHp]; intros e z; cbn.
    - by intros [= <-].
    - by intros [= <-].
    - destruct (run e0 p) as [x|]; [|done]. destruct (run e0 q) as [y|]; [|done]. cbn.
      intros H. rewrite (op_value e _ _ _ _ H) (IHp e x eq_refl) (IHq e y eq_refl) //.
    - destruct (run e0 p) as [x|]; [|done]. cbn. intros [= <-]. cbn.
      rewrite array_lift (IHp e x eq_refl) //.
    - destruct (run e0 p) as [x|]; [|done]. destruct (run e0 q) as [y|]; [|done]. cbn.
      intros [= <-]. cbn. rewrite !array_lift (IHp e x eq_refl) (IHq e y eq_refl) //.
    - destruct (run e0 p) as [x|]; [|done]. cbn.
      rewrite (IHp e0 x eq_refl) meaning_since_now. destruct (meaning e0 p) as [v|]; [|done]. cbn.
      destruct (np1 N f v); [|done]. by intros [= <-].
    - destruct (run e0 p) as [x|]; [|done]. destruct (run e0 q) as [y|]; [|done]. cbn.
      rewrite (IHp e0 x eq_refl) (IHq e0 y eq_refl) !meaning_since_now.
      destruct (meaning e0 p) as [v|]; [|done]. cbn. destruct (meaning e0 q) as [w|]; [|done]. cbn.
      destruct (np2 N f v w); [|done]. by intros [= <-].
    - destruct (run e0 p) as [x|]; [|done]. cbn.
      rewrite (IHp e0 x eq_refl) meaning_since_now. destruct (meaning e0 p) as [v|]; [|done]. cbn.
      by intros [= <-].
    - destruct (run e0 p) as [x|]; [|done]. cbn. intros [= <-]. cbn.
      rewrite array_lift (IHp e x eq_refl) //.
  Qed.
  Lemma value_now e p x : run e p = Some x → array_of e x = meaning e p.
  Proof. intros H. by rewrite (since_value e e p x H) meaning_since_now. Qed.

  Lemma meaning_agree e e' p : (∀ i, i ∈ named p → e i = e' i) → meaning e p = meaning e' p.
  Proof.
    assert (T : ∀ p q : prog N, (∀ i, i ∈ named p ++ named q → e i = e' i) →
      (∀ i, i ∈ named p → e i = e' i) ∧ (∀ i, i ∈ named q → e i = e' i)).
    { intros p1 p2 H. split; intros i Hi; apply H, elem_of_app; tauto. }
    induction p as [i|v|o p IHp q IHq|f p IHp|f p IHp q IHq|f p IHp|f p IHp q IHq|p IHp|p IHp]; cbn; intros H;
      try (apply T in H as [H1 H2]; rewrite (IHp H1) (IHq H2); done); try (rewrite (IHp H); done); try done.
    rewrite (H i) //. by left.
  Qed.
  Lemma open_since e0 e p : open p → meaning_since e0 e p = meaning e p.
  Proof.
    induction p as [i|v|o p IHp q IHq|f p IHp|f p IHp q IHq|f p IHp|f p IHp q IHq|p IHp|p IHp]; cbn; intros H; try done.
    - destruct H. by rewrite IHp // IHq.
    - by rewrite IHp.
    - destruct H. by rewrite IHp // IHq.
    - rewrite (meaning_agree e0 e p) //. rewrite H. by intros i ?%elem_of_nil.
    - destruct H as [H H']. rewrite (meaning_agree e0 e p); [|rewrite (meaning_agree e0 e q) //].
      + rewrite H. by intros i ?%elem_of_nil.
      + rewrite H'. by intros i ?%elem_of_nil.
    - rewrite (meaning_agree e0 e p) //. rewrite H. by intros i ?%elem_of_nil.
    - by apply IHp.
  Qed.
  Lemma open_value e0 e p x : open p → run e0 p = Some x → array_of e x = meaning e p.
  Proof. intros Ho H. rewrite (since_value e0 e p x H). by apply open_since. Qed.

  Lemma op_depends o (x y z : pyval N) : apply_op o x y = Some z → depends_on z = depends_on x ++ depends_on y.
  Proof.
    destruct x as [v|a], y as [w|b]; cbn [apply_op lift].
    - destruct (np2 N _ v w); [|done]. by intros [= <-].
    - intros H. assert (z = Obj (O2 (oper_name o) (OConst v) b)) as ->.
      { destruct o; cbn in H |- *; congruence. } done.
    - intros [= <-]. done.
    - intros [= <-]. done.
  Qed.
  Lemma depends_outside e p x : run e p = Some x → depends_on x = named_outside p.
  Proof.
    revert x. induction p as [i|v|o p IHp q IHq|f p IHp|f p IHp q IHq|f p IHp|f p IHp q IHq|p IHp|p IHp]; intros z; cbn.
    - by intros [= <-].
    - by intros [= <-].
    - destruct (run e p) as [x|]; [|done]. destruct (run e q) as [y|]; [|done]. cbn.
      intros H. by rewrite (op_depends _ _ _ _ H) (IHp x eq_refl) (IHq y eq_refl).
    - destruct (run e p) as [x|]; [|done]. cbn. intros [= <-]. cbn. by rewrite below_lift (IHp x eq_refl).
    - destruct (run e p) as [x|]; [|done]. destruct (run e q) as [y|]; [|done]. cbn.
      intros [= <-]. cbn. by rewrite !below_lift (IHp x eq_refl) (IHq y eq_refl).
    - destruct (run e p) as [x|]; [|done]. cbn. destruct (array_of e x) as [v|]; [|done]. cbn.
      destruct (np1 N f v); [|done]. by intros [= <-].
    - destruct (run e p) as [x|]; [|done]. destruct (run e q) as [y|]; [|done]. cbn.
      destruct (array_of e x) as [v|]; [|done]. cbn. destruct (array_of e y) as [w|]; [|done]. cbn.
      destruct (np2 N f v w); [|done]. by intros [= <-].
    - destruct (run e p) as [x|]; [|done]. cbn. destruct (array_of e x) as [v|]; [|done]. by intros [= <-].
    - destruct (run e p) as [x|]; [|done]. cbn. intros [= <-]. cbn. by rewrite below_lift (IHp x eq_refl).
  Qed.
  Lemma open_outside p : open p → named_outside p = named p.
  Proof.
    induction p as [i|v|o p IHp q IHq|f p IHp|f p IHp q IHq|f p IHp|f p IHp q IHq|p IHp|p IHp]; cbn; intros H; try done.
    - destruct H. by rewrite IHp // IHq.
    - by apply IHp.
    - destruct H. by rewrite IHp // IHq.
    - destruct H as [-> ->]. done.
    - by apply IHp.
  Qed.
  Lemma open_depends e p x : open p → run e p = Some x → depends_on x = named p.
  Proof. intros Ho H. by rewrite (depends_outside e p x H) open_outside. Qed.
  Lemma read_agree e e' (a : obj N) : (∀ i, i ∈ below a → e i = e' i) → read e a = read e' a.
  Proof.
    induction a as [i|v|f a IH|f a IHa b IHb]; cbn; intros H; try done.
    - rewrite (H i) //. by left.
    - by rewrite IH.
    - assert (read e a = read e' a) as ->. { apply IHa. intros; apply H, elem_of_app; tauto. }
      assert (read e b = read e' b) as ->. { apply IHb. intros; apply H, elem_of_app; tauto. }
      done.
  Qed.
  Lemma only_depends e e' (x : pyval N) : (∀ i, i ∈ depends_on x → e i = e' i) → array_of e x = array_of e' x.
  Proof. destruct x; cbn; [done|]. apply read_agree. Qed.

  Lemma only_outside e0 e e' p x : run e0 p = Some x → (∀ i, i ∈ named_outside p → e i = e' i) → array_of e x = array_of e' x.
  Proof. intros H Ha. apply only_depends. by rewrite (depends_outside e0 p x H). Qed.

  Lemma run_object e p x : run e p = Some x → is_object p ↔ ∃ a, x = Obj a.
  Proof.
    revert x. induction p as [i|v|o p IHp q IHq|f p IHp|f p IHp q IHq|f p IHp|f p IHp q IHq|p IHp|p IHp]; intros z; cbn.
    - intros [= <-]. naive_solver.
    - intros [= <-]. naive_solver.
    - destruct (run e p) as [x|]; [|done]. destruct (run e q) as [y|]; [|done]. cbn.
      rewrite (IHp x eq_refl) (IHq y eq_refl).
      destruct x as [v|a], y as [w|b]; cbn [apply_op].
      + destruct (np2 N _ v w); [|done]. intros [= <-]. naive_solver.
      + destruct o; intros [= <-]; naive_solver.
      + intros [= <-]. naive_solver.
      + intros [= <-]. naive_solver.
    - destruct (run e p) as [x|]; [|done]. cbn. intros [= <-]. naive_solver.
    - destruct (run e p) as [x|]; [|done]. destruct (run e q) as [y|]; [|done]. cbn. intros [= <-]. naive_solver.
    - destruct (run e p) as [x|]; [|done]. cbn. destruct (array_of e x) as [v|]; [|done]. cbn.
      destruct (np1 N f v); [|done]. intros [= <-]. naive_solver.
    - destruct (run e p) as [x|]; [|done]. destruct (run e q) as [y|]; [|done]. cbn.
      destruct (array_of e x) as [v|]; [|done]. cbn. destruct (array_of e y) as [w|]; [|done]. cbn.
      destruct (np2 N f v w); [|done]. intros [= <-]. naive_solver.
    - destruct (run e p) as [x|]; [|done]. cbn. destruct (array_of e x) as [v|]; [|done]. intros [= <-]. naive_solver.
    - destruct (run e p) as [x|]; [|done]. cbn. intros [= <-]. naive_solver.
  Qed.
  Lemma runs e p : divides_objects p → is_Some (meaning e p) → is_Some (run e p).
  Proof.
    induction p as [i|v|o p IHp q IHq|f p IHp|f p IHp q IHq|f p IHp|f p IHp q IHq|p IHp|p IHp]; cbn; intros Hd Hm; try by eexists.
    - destruct Hd as (Hp & Hq & Hd).
      destruct (meaning e p) as [v|] eqn:Ep; [|by destruct Hm]. destruct (meaning e q) as [w|] eqn:Eq; [|by destruct Hm].
      destruct (IHp Hp) as [x Hx]; [by eexists|]. destruct (IHq Hq) as [y Hy]; [by eexists|].
      rewrite Hx Hy. cbn. pose proof (run_object e p x Hx) as Ox. pose proof (run_object e q y Hy) as Oy.
      pose proof (value_now e p x Hx) as Vx. pose proof (value_now e q y Hy) as Vy.
      destruct x as [v'|a], y as [w'|b]; cbn [apply_op]; try by eexists.
      + cbn in Vx, Vy. cbn in Hm. rewrite name_function.
        rewrite Ep in Vx. rewrite Eq in Vy. simplify_eq. destruct Hm as [u Hu]. rewrite Hu. by eexists.
      + destruct o; try by eexists. exfalso.
        destruct (proj1 Ox) as [? [=]]. apply Hd; [done|]. apply Oy. by eexists.
    - destruct (meaning e p) as [v|] eqn:Ep; [|by destruct Hm].
      destruct (IHp Hd) as [x Hx]; [by eexists|]. rewrite Hx. by eexists.
    - destruct Hd as [Hp Hq].
      destruct (meaning e p) as [v|] eqn:Ep; [|by destruct Hm]. destruct (meaning e q) as [w|] eqn:Eq; [|by destruct Hm].
      destruct (IHp Hp) as [x Hx]; [by eexists|]. destruct (IHq Hq) as [y Hy]; [by eexists|].
      rewrite Hx Hy. by eexists.
    - destruct (meaning e p) as [v|] eqn:Ep; [|by destruct Hm].
      destruct (IHp Hd) as [x Hx]; [by eexists|]. rewrite Hx. cbn. rewrite (value_now e p x Hx) Ep. cbn.
      destruct Hm as [u Hu]. cbn in Hu. rewrite Hu. by eexists.
    - destruct Hd as [Hp Hq].
      destruct (meaning e p) as [v|] eqn:Ep; [|by destruct Hm]. destruct (meaning e q) as [w|] eqn:Eq; [|by destruct Hm].
      destruct (IHp Hp) as [x Hx]; [by eexists|]. destruct (IHq Hq) as [y Hy]; [by eexists|].
      rewrite Hx Hy. cbn. rewrite (value_now e p x Hx) (value_now e q y Hy) Ep Eq. cbn.
      destruct Hm as [u Hu]. cbn in Hu. rewrite Hu. by eexists.
    - destruct (IHp Hd Hm) as [x Hx]. rewrite Hx. cbn. rewrite (value_now e p x Hx).
      destruct Hm as [u ->]. by eexists.
    - destruct (IHp Hd Hm) as [x Hx]. rewrite Hx. by eexists.
  Qed.
  Lemma divide_raises_all e p q : is_object q → ¬ is_object p → run e (POper Divide p q) = None.
  Proof.
    intros Hq Hp. cbn. destruct (run e p) as [x|] eqn:Ex; [|done]. destruct (run e q) as [y|] eqn:Ey; [|done]. cbn.
    apply (run_object e q y Ey) in Hq as [b ->].
    destruct x as [v|a]; [done|]. exfalso. apply Hp, (run_object e p _ Ex). by eexists.
  Qed.
End thms.
