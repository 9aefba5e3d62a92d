(** Values of Pinv and lstsq. *)
From Coq Require Import Reals Lra.
From stdpp Require Import list list_numbers numbers gmap.
From Verif Require Import ArrModel Curve ArrThms ElemModel ElemThms ReorderModel RedModel RedSpec RedThms DotModel LinModel LinSpec LinThms LinJac
  SvdModel SvdThms SvdArr PinvModel PinvSpec PinvThms.

Lemma transp_is a m n : sh a = [m; n] → ∃ t, transp a = Some t ∧ sh t = [n; m] ∧ ∀ i j, i < m → j < n → e2 m t j i = e2 n a i j.
Proof.
  intros Ha. unfold transp, reorder, plan_of. rewrite Ha. simpl. eexists. split; [reflexivity|]. split; [done|].
  intros i j Hi Hj. unfold e2, moved. cbn -[Nat.div Nat.modulo].
  change (pos 0 [1; 0]) with 1. change (pos 1 [1; 0]) with 0. cbv iota.
  rewrite Nat.mul_1_r, Nat.div_1_r, flat_div, flat_mod by done. by apply (at_2 a m n).
Qed.
Lemma dot_is a b p q r : sh a = [p; q] → sh b = [q; r] → ∃ y, np_dot a b = Some y ∧ sh y = [p; r] ∧
  ∀ i j, j < r → e2 r y i j = mm q (e2 q a) (e2 r b) i j.
Proof.
  intros Ha Hb. unfold np_dot, a_parts, b_parts. rewrite Ha, Hb. cbn -[Nat.div Nat.modulo size]. rewrite decide_True by done.
  eexists. split; [reflexivity|]. split; [done|]. intros i j Hj. unfold e2 at 1. cbn -[Nat.div Nat.modulo size].
  change (size []) with 1. rewrite size_1, flat_div, flat_mod by done. rewrite Nat.div_1_r, Nat.mod_1_r. done.
Qed.
Lemma dot_is_v a b p q : sh a = [p; q] → sh b = [q] → ∃ y, np_dot a b = Some y ∧ sh y = [p] ∧
  ∀ i, dat y i = rsum ((λ l, e2 q a i l * dat b l)%R <$> seq 0 q).
Proof.
  intros Ha Hb. unfold np_dot, a_parts, b_parts. rewrite Ha, Hb. cbn -[Nat.div Nat.modulo size]. rewrite decide_True by done.
  eexists. split; [reflexivity|]. split; [done|]. intros i. cbn -[Nat.div Nat.modulo size].
  change (size []) with 1. rewrite !Nat.div_1_r, !Nat.mod_1_r. apply rs_ext. intros l _. unfold e2. f_equal. f_equal. lia.
Qed.
Lemma matrix_e2 a m n i j : sh a = [m; n] → matrix_at a [] i j = e2 n a i j.
Proof. intros Ha. unfold matrix_at. simpl. by apply (at_2 a m n). Qed.
Lemma two_squares (n k : nat) pre : [n; n] = pre ++ [k; k] → pre = [] ∧ k = n.
Proof.
  intros E. pose proof (f_equal length E) as L. rewrite app_length in L. simpl in L. destruct pre; [|simpl in L; lia].
  by injection E as ->.
Qed.
Lemma inv_is g n : sh g = [n; n] → (∀ i, np_inv g = Some i → sh i = [n; n] ∧ is_inverse n (e2 n g) (e2 n i)) ∧
  (np_inv g = None ↔ ¬ ∃ X, is_inverse n (e2 n g) X).
Proof.
  intros Hg. split.
  - intros i Hi. destruct (inv_value _ _ Hi) as (pre & k & E & Ei & H). rewrite Hg in E.
    apply two_squares in E as [-> ->]. rewrite Ei. split; [done|].
    assert (Hn : inside [] []) by constructor. specialize (H [] Hn). eapply inverse_ext; [| |exact H].
    + intros. by apply (matrix_e2 _ n).
    + intros. apply (matrix_e2 _ n). by rewrite Ei.
  - rewrite inv_none. split; intros H HX; apply H; clear H.
    + destruct HX as [X HX]. exists [], n. split; [done|]. intros ix Hix. apply Forall2_nil_inv_r in Hix as ->. exists X.
      eapply inverse_ext; [| |exact HX]; [|done]. intros. symmetry. by apply (matrix_e2 _ n).
    + destruct HX as (pre & k & E & H). rewrite Hg in E. apply two_squares in E as [-> ->].
      assert (Hn : inside [] []) by constructor. destruct (H [] Hn) as [X HX]. exists X.
      eapply inverse_ext; [| |exact HX]; [|done]. intros. by apply (matrix_e2 _ n).
Qed.
Lemma inverse_ext_l n A A' X : (∀ i j, i < n → j < n → A i j = A' i j) → is_inverse n A X → is_inverse n A' X.
Proof. intros H. by apply inverse_ext. Qed.

Lemma mp_ext m n A A' P P' : (∀ i j, i < m → j < n → A i j = A' i j) → (∀ i j, i < n → j < m → P i j = P' i j) →
  moore_penrose m n A P → moore_penrose m n A' P'.
Proof.
  intros HA HP (H1 & H2 & H3 & H4).
  assert (HAP : ∀ i j, i < m → j < m → mm n A P i j = mm n A' P' i j).
  { intros i j Hi Hj. apply mm_ext; intros k Hk; [by apply HA|by apply HP]. }
  assert (HPA : ∀ i j, i < n → j < n → mm m P A i j = mm m P' A' i j).
  { intros i j Hi Hj. apply mm_ext; intros k Hk; [by apply HP|by apply HA]. }
  split_and!.
  - intros i j Hi Hj. rewrite <- HA, <- H1 by done. symmetry. apply mm_ext; intros k Hk; [by apply HAP|by apply HA].
  - intros i j Hi Hj. rewrite <- HP, <- H2 by done. symmetry. apply mm_ext; intros k Hk; [by apply HPA|by apply HP].
  - intros i j Hi Hj. rewrite <- !HAP by done. by apply H3.
  - intros i j Hi Hj. rewrite <- !HPA by done. by apply H4.
Qed.

(** pinv has a value exactly if the Gram matrix has an inverse; it is the Moore-Penrose
    inverse. *)
Lemma pinv_cases a m n : sh a = [m; n] →
  (∃ y, pinv_r a = Some y ∧ sh y = [n; m] ∧ moore_penrose m n (e2 n a) (e2 m y)) ∧
    ¬ (if decide (m < n) then rows_dependent m n (e2 n a) else columns_dependent m n (e2 n a)) ∨
  pinv_r a = None ∧ (if decide (m < n) then rows_dependent m n (e2 n a) else columns_dependent m n (e2 n a)).
Proof.
  intros Ha. unfold pinv_r, dims2. rewrite Ha. cbn [mbind option_bind]. destruct (transp_is a m n Ha) as (t & -> & Ht & HT). cbn [mbind option_bind].
  destruct (decide (m < n)) as [Hlt|Hge].
  - destruct (dot_is a t m n m Ha Ht) as (g & -> & Hg & HG). cbn [mbind option_bind].
    assert (HGA : ∀ i j, i < m → j < m → e2 m g i j = mm n (e2 n a) (mt (e2 n a)) i j).
    { intros i j Hi Hj. rewrite HG by done. apply mm_ext; [done|]. intros k Hk. by apply HT. }
    destruct (inv_is g m Hg) as [Hs Hn]. destruct (np_inv g) as [x|] eqn:Ex; cbn [mbind option_bind].
    + left. destruct (Hs x eq_refl) as [Hx HX]. destruct (dot_is t x n m m Ht Hx) as (y & -> & Hy & HY).
      assert (HX' : is_inverse m (mm n (e2 n a) (mt (e2 n a))) (e2 m x)) by (by eapply inverse_ext_l).
      split.
      * exists y. split_and!; [done|done|]. eapply mp_ext; [done| |exact (mp_wide m n _ _ HX')].
        intros i j Hi Hj. rewrite HY by done. symmetry. apply mm_ext; [|done]. intros k Hk. by apply HT.
      * assert (HX2 : is_inverse m (mm n (mt (mt (e2 n a))) (mt (e2 n a))) (e2 m x)) by exact HX'.
        exact (proj1 (gram_inverse n m (mt (e2 n a))) (ex_intro _ _ HX2)).
    + right. split; [done|]. destruct (Classical_Prop.classic (rows_dependent m n (e2 n a))) as [|Hnd]; [done|]. exfalso.
      apply (gram_inverse n m (mt (e2 n a))) in Hnd as [X HX]. destruct Hn as [Hn _]. destruct (Hn eq_refl). exists X. eapply inverse_ext_l; [|exact HX].
      intros i j Hi Hj. symmetry. rewrite HGA by done. done.
  - destruct (dot_is t a n m n Ht Ha) as (g & -> & Hg & HG). cbn [mbind option_bind].
    assert (HGA : ∀ i j, i < n → j < n → e2 n g i j = mm m (mt (e2 n a)) (e2 n a) i j).
    { intros i j Hi Hj. rewrite HG by done. apply mm_ext; [|done]. intros k Hk. by apply HT. }
    destruct (inv_is g n Hg) as [Hs Hn]. destruct (np_inv g) as [x|] eqn:Ex; cbn [mbind option_bind].
    + left. destruct (Hs x eq_refl) as [Hx HX]. destruct (dot_is x t n n m Hx Ht) as (y & -> & Hy & HY).
      assert (HX' : is_inverse n (mm m (mt (e2 n a)) (e2 n a)) (e2 n x)) by (by eapply inverse_ext_l).
      split.
      * exists y. split_and!; [done|done|]. eapply mp_ext; [done| |exact (mp_tall m n _ _ HX')].
        intros i j Hi Hj. rewrite HY by done. symmetry. apply mm_ext; [done|]. intros k Hk. by apply HT.
      * exact (proj1 (gram_inverse m n (e2 n a)) (ex_intro _ _ HX')).
    + right. split; [done|]. destruct (Classical_Prop.classic (columns_dependent m n (e2 n a))) as [|Hnd]; [done|]. exfalso.
      apply (gram_inverse m n (e2 n a)) in Hnd as [X HX]. destruct Hn as [Hn _]. destruct (Hn eq_refl). exists X. eapply inverse_ext_l; [|exact HX].
      intros i j Hi Hj. symmetry. by apply HGA.
Qed.
Lemma pinv_is a y : pinv_r a = Some y → ∃ m n, sh a = [m; n] ∧ sh y = [n; m] ∧ moore_penrose m n (e2 n a) (e2 m y).
Proof.
  intros Hy. assert (Hd : ∃ m n, sh a = [m; n]).
  { unfold pinv_r, dims2 in Hy. destruct (sh a) as [|m [|n [|? ?]]]; try done. by exists m, n. }
  destruct Hd as (m & n & Ha). exists m, n. split; [done|].
  destruct (pinv_cases a m n Ha) as [[(y' & E & H) _]|[E _]]; rewrite Hy in E; [|done]. by injection E as <-.
Qed.

Lemma mp_matrix a y m n : sh a = [m; n] → sh y = [n; m] → moore_penrose m n (e2 n a) (e2 m y) ↔ moore_penrose m n (matrix_at a []) (matrix_at y []).
Proof. intros Ha Hy. split; apply mp_ext; intros; first [by rewrite (matrix_e2 a m n)|by rewrite (matrix_e2 y n m)]. Qed.
Lemma pinv_value a y : pinv_r a = Some y → ∃ m n, sh a = [m; n] ∧ sh y = [n; m] ∧
  moore_penrose m n (matrix_at a []) (matrix_at y []) ∧
  ∀ Q, moore_penrose m n (matrix_at a []) Q → ∀ i j, i < n → j < m → Q i j = matrix_at y [] i j.
Proof.
  intros Hy. destruct (pinv_is a y Hy) as (m & n & Ha & Hsy & H). apply (mp_matrix a y m n Ha Hsy) in H. exists m, n. split_and!; try done.
  intros Q HQ i j Hi Hj. by apply (mp_unique m n (matrix_at a [])).
Qed.
Lemma dependent_ext m n A A' : (∀ i j, i < m → j < n → A i j = A' i j) → columns_dependent m n A → columns_dependent m n A'.
Proof.
  intros HA (z & Hz & Hs). exists z. split; [done|]. intros i Hi. rewrite <- (Hs i Hi). apply rs_ext. intros j Hj. by rewrite HA.
Qed.
Lemma pinv_raises a m n : sh a = [m; n] →
  pinv_r a = None ↔ if decide (m < n) then rows_dependent m n (matrix_at a []) else columns_dependent m n (matrix_at a []).
Proof.
  intros Ha.
  assert (Heq : (if decide (m < n) then rows_dependent m n (e2 n a) else columns_dependent m n (e2 n a)) ↔
     if decide (m < n) then rows_dependent m n (matrix_at a []) else columns_dependent m n (matrix_at a [])).
  { destruct (decide (m < n)); split; apply dependent_ext; intros; by rewrite (matrix_e2 a m n). }
  rewrite <- Heq. destruct (pinv_cases a m n Ha) as [[(y & -> & _) Hn]|[-> Hd]]; by split.
Qed.

(* ------------------------------------------------------------------ *)
(** lstsq *)
Lemma lstsq_shapes a b x m n : sh a = [m; n] → lstsq_x a b = Some x → sh b = [m] ∨ (∃ k, sh b = [m; k]) →
  ∃ P, moore_penrose m n (e2 n a) P ∧ columns x = columns b ∧
    (sh x = n :: drop 1 (sh b)) ∧ ∀ c i, c < columns b → i < n → column x c i = mv m P (column b c) i.
Proof.
  intros Ha Hx Hb. unfold lstsq_x in Hx. apply bind_Some in Hx as (p & Hp & Hx). destruct (pinv_is a p Hp) as (m' & n' & E & Hsp & HP).
  rewrite Ha in E. injection E as <- <-. exists (e2 m p). split; [done|].
  destruct Hb as [Hb|[k Hb]].
  - destruct (dot_is_v p b n m Hsp Hb) as (x' & Ex & Hsx & HX). rewrite Hx in Ex. injection Ex as <-.
    unfold columns. rewrite Hb, Hsx. split_and!; [done|done|]. intros c i Hc Hi. unfold column. rewrite Hb, Hsx.
    rewrite (at_1 x n) by done. rewrite HX. apply rs_ext. intros j Hj. by rewrite (at_1 b m).
  - destruct (dot_is p b n m k Hsp Hb) as (x' & Ex & Hsx & HX). rewrite Hx in Ex. injection Ex as <-.
    unfold columns. rewrite Hb, Hsx. split_and!; [done|done|]. intros c i Hc Hi. unfold column. rewrite Hb, Hsx.
    rewrite (at_2 x n k) by done. fold (e2 k x i c). rewrite HX by done. apply rs_ext. intros j Hj. by rewrite (at_2 b m k).
Qed.
Lemma misfit_ext m n A A' b y y' : (∀ i j, i < m → j < n → A i j = A' i j) → (∀ j, j < n → y j = y' j) → misfit m n A b y = misfit m n A' b y'.
Proof. intros HA Hy. apply sq_ext. intros i Hi. f_equal. apply rs_ext. intros j Hj. by rewrite HA, Hy. Qed.
Lemma lstsq_least a b x m n : sh a = [m; n] → sh b = [m] ∨ (∃ k, sh b = [m; k]) → lstsq_x a b = Some x →
  columns x = columns b ∧ sh x = n :: drop 1 (sh b) ∧
  ∀ c y, c < columns b →
    (misfit m n (matrix_at a []) (column b c) (column x c) <= misfit m n (matrix_at a []) (column b c) y)%R ∧
    (misfit m n (matrix_at a []) (column b c) y = misfit m n (matrix_at a []) (column b c) (column x c) → (sq n (column x c) <= sq n y)%R).
Proof.
  intros Ha Hb Hx. destruct (lstsq_shapes a b x m n Ha Hx Hb) as (P & HP & Hc & Hs & HX). split; [done|]. split; [done|].
  intros c y Hcb. destruct (mp_least m n _ P (column b c) y HP) as [H1 H2].
  assert (HM : ∀ i j, i < m → j < n → matrix_at a [] i j = e2 n a i j) by (intros; by apply (matrix_e2 a m n)).
  rewrite (misfit_ext m n _ (e2 n a) (column b c) (column x c) (mv m P (column b c)) HM) by (intros; by apply HX).
  rewrite (misfit_ext m n _ (e2 n a) (column b c) y y HM) by done. split; [exact H1|].
  rewrite (sq_ext n (column x c) (mv m P (column b c))) by (intros; by apply HX). exact H2.
Qed.
