(** Moore-Penrose inverses, least squares and singular Gram matrices. *)
From Coq Require Import Reals Lra.
From stdpp Require Import list list_numbers numbers gmap.
From Verif Require Import ArrModel ArrThms LinModel LinSpec LinThms PinvSpec SvdThms.
Local Open Scope R_scope.

Notation mt A := (λ i j, A j i).

Lemma mm_assoc2 k l A B C i j : mm l (mm k A B) C i j = mm k A (mm l B C) i j.
Proof.
  unfold mm. transitivity (rs l (λ q, rs k (λ p, A i p * B p q * C q j))).
  - apply rs_ext. intros q _. by rewrite <- rs_scal_r.
  - rewrite rs_swap. apply rs_ext. intros p _. rewrite <- rs_scal. apply rs_ext. intros. ring.
Qed.
Lemma mm_t k A B i j : mm k A B i j = mm k (mt B) (mt A) j i.
Proof. unfold mm. apply rs_ext. intros. ring. Qed.
Lemma mm_1l k A X B i j : (∀ p, (p < k)%nat → mm k A X i p = delta i p) → (i < k)%nat → mm k (mm k A X) B i j = B i j.
Proof. intros H Hi. rewrite (mm_ext k _ delta B B); [by apply mm_one_l|done|done]. Qed.
Lemma mm_ext2 k A A' B B' i j : (∀ p, (p < k)%nat → A i p = A' i p) → (∀ p, (p < k)%nat → B p j = B' p j) → mm k A B i j = mm k A' B' i j.
Proof. apply mm_ext. Qed.

(** The inverse of a symmetric matrix is symmetric. *)
Lemma inverse_sym n G X : (∀ i j, G i j = G j i) → is_inverse n G X → ∀ i j, (i < n)%nat → (j < n)%nat → X i j = X j i.
Proof.
  intros HG HX. apply (inverse_unique n G X (mt X) HX). intros i j Hi Hj.
  assert (E1 : mm n G (mt X) i j = mm n X G j i). { rewrite mm_t. apply mm_ext; [done|]. intros p Hp. apply HG. }
  assert (E2 : mm n (mt X) G i j = mm n G X j i). { rewrite mm_t. apply mm_ext; [|done]. intros p Hp. apply HG. }
  rewrite E1, E2. destruct (HX j i Hj Hi) as [-> ->]. split; repeat case_decide; congruence.
Qed.

(** A left inverse P with A P symmetric, and a right inverse with P A symmetric, are
    Moore-Penrose inverses. *)
Lemma mp_left m n A P : (∀ i j, (i < n)%nat → (j < n)%nat → mm m P A i j = delta i j) →
  (∀ i j, (i < m)%nat → (j < m)%nat → mm n A P i j = mm n A P j i) → moore_penrose m n A P.
Proof.
  intros HL HS. split_and!; [| |done|].
  - intros i j Hi Hj. rewrite mm_assoc2. rewrite (mm_ext2 n A A (mm m P A) delta); [by apply mm_one_r|done|]. intros. by apply HL.
  - intros i j Hi Hj. rewrite (mm_ext2 n (mm m P A) delta P P); [by apply mm_one_l| |done]. intros. by apply HL.
  - intros i j Hi Hj. rewrite !HL by done. unfold delta. repeat case_decide; congruence.
Qed.
Lemma mp_right m n A P : (∀ i j, (i < m)%nat → (j < m)%nat → mm n A P i j = delta i j) →
  (∀ i j, (i < n)%nat → (j < n)%nat → mm m P A i j = mm m P A j i) → moore_penrose m n A P.
Proof.
  intros HL HS. split_and!; [| | |done].
  - intros i j Hi Hj. rewrite (mm_ext2 m (mm n A P) delta A A); [by apply mm_one_l| |done]. intros. by apply HL.
  - intros i j Hi Hj. rewrite mm_assoc2. rewrite (mm_ext2 m P P (mm n A P) delta); [by apply mm_one_r|done|]. intros. by apply HL.
  - intros i j Hi Hj. rewrite !HL by done. unfold delta. repeat case_decide; congruence.
Qed.
(** (A^T A)^-1 A^T *)
Lemma mp_tall m n A X : is_inverse n (mm m (mt A) A) X → moore_penrose m n A (mm n X (mt A)).
Proof.
  intros HX. pose proof (inverse_sym n _ X (λ i j, mm_t m (mt A) A i j) HX) as HS. apply mp_left.
  - intros i j Hi Hj. rewrite mm_assoc2. by destruct (HX i j Hi Hj).
  - intros i j Hi Hj. rewrite <- !mm_assoc2. rewrite (mm_t n (mm n A X) (mt A)).
    transitivity (mm n A (mt (mm n A X)) j i); [done|]. symmetry. rewrite mm_assoc2. apply mm_ext2; [done|].
    intros p Hp. rewrite mm_t. apply mm_ext2; [done|]. intros q Hq. by apply HS.
Qed.
(** A^T (A A^T)^-1 *)
Lemma mp_wide m n A X : is_inverse m (mm n A (mt A)) X → moore_penrose m n A (mm m (mt A) X).
Proof.
  intros HX. pose proof (inverse_sym m _ X (λ i j, mm_t n A (mt A) i j) HX) as HS. apply mp_right.
  - intros i j Hi Hj. rewrite <- mm_assoc2. by destruct (HX i j Hi Hj).
  - intros i j Hi Hj. rewrite (mm_t m (mm m (mt A) X) A). symmetry. rewrite mm_assoc2. apply mm_ext2; [done|].
    intros p Hp. rewrite mm_t. apply mm_ext2; [done|]. intros q Hq. by apply HS.
Qed.
(** There is only one. *)
Lemma mp_AP m n A P Q : moore_penrose m n A P → moore_penrose m n A Q →
  ∀ i j, (i < m)%nat → (j < m)%nat → mm n A P i j = mm n A Q i j.
Proof.
  intros (P1 & _ & P3 & _) (Q1 & _ & Q3 & _) i j Hi Hj.
  (* A P = A Q A P, transposed A P = A P A Q = A Q *)
  assert (E : ∀ a b, (a < m)%nat → (b < m)%nat → mm n A P a b = mm m (mm n A Q) (mm n A P) a b).
  { intros a b Ha Hb. rewrite <- mm_assoc2. apply mm_ext2; [|done]. intros p Hp. by rewrite Q1. }
  rewrite P3, E by done. rewrite mm_t.
  transitivity (mm m (mm n A P) (mm n A Q) i j).
  - apply mm_ext2; intros p Hp; [by apply P3|by apply Q3].
  - rewrite <- mm_assoc2. apply mm_ext2; [|done]. intros p Hp. by rewrite P1.
Qed.
Lemma mp_transpose m n A P : moore_penrose m n A P → moore_penrose n m (mt A) (mt P).
Proof.
  intros (P1 & P2 & P3 & P4). split_and!.
  - intros i j Hi Hj. rewrite mm_t. rewrite <- (P1 j i Hj Hi). rewrite mm_assoc2. apply mm_ext2; [done|]. intros p Hp. by rewrite mm_t.
  - intros i j Hi Hj. rewrite mm_t. rewrite <- (P2 j i Hj Hi). rewrite mm_assoc2. apply mm_ext2; [done|]. intros p Hp. by rewrite mm_t.
  - intros i j Hi Hj. rewrite mm_t, (mm_t m (mt A)). by apply P4.
  - intros i j Hi Hj. rewrite mm_t, (mm_t n (mt P)). by apply P3.
Qed.
Lemma mp_unique m n A P Q : moore_penrose m n A P → moore_penrose m n A Q →
  ∀ i j, (i < n)%nat → (j < m)%nat → P i j = Q i j.
Proof.
  intros HP HQ i j Hi Hj. pose proof (mp_AP _ _ _ _ _ HP HQ) as HA.
  pose proof (mp_AP _ _ _ _ _ (mp_transpose _ _ _ _ HP) (mp_transpose _ _ _ _ HQ)) as HB.
  destruct HP as (_ & P2 & _), HQ as (_ & Q2 & _). rewrite <- (P2 i j Hi Hj), <- (Q2 i j Hi Hj).
  rewrite mm_assoc2. transitivity (mm m P (mm n A Q) i j).
  - apply mm_ext2; [done|]. intros p Hp. by apply HA.
  - rewrite <- mm_assoc2. apply mm_ext2; [|done]. intros p Hp. rewrite mm_t, (mm_t m Q). by apply HB.
Qed.

(* ------------------------------------------------------------------ *)
(** Least squares. *)
Definition mv (n : nat) (A : nat → nat → R) (y : nat → R) (i : nat) : R := rs n (λ j, A i j * y j).
Definition ip (n : nat) (u v : nat → R) : R := rs n (λ i, u i * v i).
Lemma ip_sym n u v : ip n u v = ip n v u.
Proof. apply rs_ext. intros. ring. Qed.
Lemma ip_ext n u u' v v' : (∀ i, (i < n)%nat → u i = u' i) → (∀ i, (i < n)%nat → v i = v' i) → ip n u v = ip n u' v'.
Proof. intros H1 H2. apply rs_ext. intros i Hi. by rewrite H1, H2. Qed.
Lemma ip_plus n u v w : ip n (λ i, u i + v i) w = ip n u w + ip n v w.
Proof. unfold ip. rewrite <- rs_plus. apply rs_ext. intros. ring. Qed.
Lemma ip_minus n u v w : ip n (λ i, u i - v i) w = ip n u w - ip n v w.
Proof. unfold ip. rewrite <- rs_minus. apply rs_ext. intros. ring. Qed.
Lemma ip_mv m n A y z : ip m (mv n A y) z = ip n y (mv m (mt A) z).
Proof.
  unfold ip, mv. transitivity (rs m (λ i, rs n (λ j, A i j * y j * z i))).
  - apply rs_ext. intros. by rewrite <- rs_scal_r.
  - rewrite rs_swap. apply rs_ext. intros j _. rewrite <- rs_scal. apply rs_ext. intros. ring.
Qed.
Lemma mv_mm k l A B y i : mv l (mm k A B) y i = mv k A (mv l B y) i.
Proof.
  unfold mv, mm. transitivity (rs l (λ j, rs k (λ p, A i p * B p j * y j))).
  - apply rs_ext. intros. by rewrite <- rs_scal_r.
  - rewrite rs_swap. apply rs_ext. intros p _. rewrite <- rs_scal. apply rs_ext. intros. ring.
Qed.
Lemma mv_ext n A A' y y' i : (∀ j, (j < n)%nat → A i j = A' i j) → (∀ j, (j < n)%nat → y j = y' j) → mv n A y i = mv n A' y' i.
Proof. intros H1 H2. apply rs_ext. intros j Hj. by rewrite H1, H2. Qed.
Lemma mv_minus n A y z i : mv n A (λ j, y j - z j) i = mv n A y i - mv n A z i.
Proof. unfold mv. rewrite <- rs_minus. apply rs_ext. intros. ring. Qed.
Lemma sq_ip n z : sq n z = ip n z z. Proof. done. Qed.
Lemma sq_ext n u v : (∀ i, (i < n)%nat → u i = v i) → sq n u = sq n v.
Proof. intros H. apply ip_ext; done. Qed.
Lemma sq_plus n u v : sq n (λ i, u i + v i) = sq n u + sq n v + 2 * ip n u v.
Proof. rewrite !sq_ip, ip_plus, (ip_sym n u), (ip_sym n v), !ip_plus, (ip_sym n v u). ring. Qed.
Lemma sq_nonneg n u : 0 <= sq n u.
Proof.
  unfold sq. generalize (seq 0 n). intros l. induction l as [|a l IH]; [simpl; lra|]. rewrite fmap_cons, rsum_cons. nra.
Qed.
Lemma sq_zero n u : sq n u = 0 → ∀ i, (i < n)%nat → u i = 0.
Proof.
  induction n as [|n IH]; [lia|]. unfold sq. rewrite seq_S, fmap_app, rsum_app. simpl. intros E i Hi.
  pose proof (sq_nonneg n u) as Hn. unfold sq in Hn.
  assert (E0 : u n = 0) by nra. destruct (decide (i = n)) as [->|]; [done|]. apply IH; [|lia]. unfold sq. nra.
Qed.

Lemma mp_least m n A P b y : moore_penrose m n A P →
  let x := mv m P b in misfit m n A b x <= misfit m n A b y ∧ (misfit m n A b y = misfit m n A b x → sq n x <= sq n y).
Proof.
  intros (P1 & P2 & P3 & P4) x.
  set (w := λ j, y j - x j).
  assert (Horth : ip m (λ i, mv n A x i - b i) (mv n A w) = 0).
  { rewrite ip_minus. rewrite (ip_ext m (mv n A x) (mv m (mm n A P) b) (mv n A w) (mv n A w));
      [|intros; unfold x; by rewrite mv_mm|done].
    rewrite ip_mv. rewrite (ip_ext m b b (mv m (mt (mm n A P)) (mv n A w)) (mv n A w)); [ring|done|].
    intros i Hi. rewrite (mv_ext m _ (mm n A P) (mv n A w) (mv n A w)); [|intros j Hj; by apply P3|done].
    rewrite <- mv_mm. apply mv_ext; [|done]. intros j Hj. by apply P1. }
  assert (E : misfit m n A b y = misfit m n A b x + sq m (mv n A w)).
  { unfold misfit. fold (mv n A y) (mv n A x). change (λ i, rs n (λ j, A i j * y j) - b i) with (λ i, mv n A y i - b i).
    change (λ i, rs n (λ j, A i j * x j) - b i) with (λ i, mv n A x i - b i).
    rewrite (sq_ext m (λ i, mv n A y i - b i) (λ i, (mv n A x i - b i) + mv n A w i)).
    - rewrite sq_plus, Horth. ring.
    - intros i Hi. unfold w. rewrite mv_minus. ring. }
  split; [rewrite E; pose proof (sq_nonneg m (mv n A w)); lra|]. intros Eq.
  assert (Hw : ∀ i, (i < m)%nat → mv n A w i = 0) by (apply sq_zero; lra).
  assert (Hxw : ip n x w = 0).
  { rewrite (ip_ext n x (mv n (mm m P A) x) w w); [|intros i Hi; unfold x; rewrite <- mv_mm; apply mv_ext; [intros j Hj; by rewrite P2|done]|done].
    rewrite ip_mv. unfold ip. apply rs_zero. intros i Hi.
    rewrite (mv_ext n _ (mm m P A) w w); [|intros j Hj; by apply P4|done]. rewrite mv_mm. unfold mv at 1.
    rewrite rs_zero; [ring|]. intros j Hj. rewrite Hw by done. ring. }
  rewrite (sq_ext n y (λ j, x j + w j)) by (intros; unfold w; ring). rewrite sq_plus, Hxw. pose proof (sq_nonneg n w). lra.
Qed.

(* ------------------------------------------------------------------ *)
(** More unknowns than equations: a solution other than 0. *)
Lemma kernel m : ∀ n (B : nat → nat → R), (m < n)%nat →
  ∃ z, (∃ j, (j < n)%nat ∧ z j ≠ 0) ∧ ∀ i, (i < m)%nat → rs n (λ j, B i j * z j) = 0.
Proof.
  induction m as [|m IH]; intros n B Hmn.
  - exists (λ _, 1). split; [exists 0%nat; split; [done|lra]|]. intros i Hi. lia.
  - destruct n as [|n]; [lia|].
    destruct (decide (Exists (λ j, is_Some (if Req_EM_T (B m j) 0 then None else Some ())) (seq 0 (S n)))) as [HE|HN].
    + apply list.Exists_exists in HE as (p & Hp%elem_of_seq & Hne).
      assert (Hp' : (p ≤ n)%nat) by lia. assert (Hr : B m p ≠ 0) by (destruct (Req_EM_T (B m p) 0); [by destruct Hne|done]). clear Hne.
      destruct (IH n (λ i k, B i (skip p k) - B i p * B m (skip p k) / B m p)) as (z & (j & Hj & Hz) & Hs); [lia|].
      set (zp := - rs n (λ k, B m (skip p k) * z k) / B m p).
      set (unskip c := if decide (c < p)%nat then c else (c - 1)%nat).
      assert (Hus : ∀ k, unskip (skip p k) = k). { intros k. unfold unskip, skip. repeat case_decide; lia. }
      exists (λ c, if decide (c = p) then zp else z (unskip c)). split.
      { exists (skip p j). split; [by apply skip_bound|]. rewrite decide_False by apply skip_ne. by rewrite Hus. }
      assert (Hsum : ∀ i, rs (S n) (λ c, B i c * (if decide (c = p) then zp else z (unskip c))) = B i p * zp + rs n (λ k, B i (skip p k) * z k)).
      { intros i. rewrite (rsum_skip (λ c, B i c * (if decide (c = p) then zp else z (unskip c))) p n Hp'). rewrite decide_True by done.
        f_equal. apply rs_ext. intros k Hk. rewrite decide_False by apply skip_ne. by rewrite Hus. }
      intros i Hi. rewrite Hsum. destruct (decide (i = m)) as [->|Hne]; [unfold zp; field; done|].
      assert (Him : (i < m)%nat) by lia. specialize (Hs i Him). unfold zp.
      transitivity (rs n (λ k, (B i (skip p k) - B i p * B m (skip p k) / B m p) * z k)); [|done].
      transitivity (rs n (λ k, B i (skip p k) * z k) - B i p / B m p * rs n (λ k, B m (skip p k) * z k)); [field; done|].
      rewrite <- rs_scal, <- rs_minus. apply rs_ext. intros k Hk. field. done.
    + destruct (IH (S n) B) as (z & Hz & Hs); [lia|]. exists z. split; [done|]. intros i Hi.
      destruct (decide (i = m)) as [->|]; [|apply Hs; lia]. apply rs_zero. intros j Hj.
      destruct (Req_EM_T (B m j) 0) as [->|Hne]; [ring|]. destruct HN. apply list.Exists_exists. exists j.
      split; [apply elem_of_seq; lia|]. by destruct (Req_EM_T (B m j) 0).
Qed.
(** A square matrix without such a solution has an inverse. *)
Lemma injective_inverse n B : (∀ z, (∀ i, (i < n)%nat → rs n (λ j, B i j * z j) = 0) → ∀ j, (j < n)%nat → z j = 0) → ∃ X, is_inverse n B X.
Proof.
  intros Hinj.
  assert (Hcol : ∀ p, (p < n)%nat → ∃ x, ∀ i, (i < n)%nat → rs n (λ j, B i j * x j) = delta i p).
  { intros p Hp.
    destruct (kernel n (S n) (λ i j, if decide (j < n)%nat then B i j else - delta i p)) as (z & (j & Hj & Hz) & Hs); [lia|].
    assert (Hs' : ∀ i, (i < n)%nat → rs n (λ j, B i j * z j) = z n * delta i p).
    { intros i Hi. specialize (Hs i Hi). rewrite seq_S, fmap_app, rsum_app in Hs. simpl in Hs. rewrite decide_False in Hs by lia.
      assert (E : rs n (λ j, (if decide (j < n)%nat then B i j else - delta i p) * z j) = rs n (λ j, B i j * z j)).
      { apply rs_ext. intros k Hk. by rewrite decide_True. }
      rewrite E in Hs. lra. }
    assert (Hc : z n ≠ 0).
    { intros E. apply Hz. destruct (decide (j = n)) as [->|]; [done|]. apply (Hinj z); [|lia]. intros i Hi. rewrite Hs', E by done. ring. }
    exists (λ j, z j / z n). intros i Hi. transitivity (rs n (λ j, B i j * z j) / z n).
    - unfold Rdiv. rewrite <- rs_scal_r. apply rs_ext. intros. ring.
    - rewrite Hs' by done. field. done. }
  assert (HX : ∃ X : nat → nat → R, ∀ p, (p < n)%nat → ∀ i, (i < n)%nat → rs n (λ j, B i j * X j p) = delta i p).
  { assert (HN : ∀ N, (N ≤ n)%nat → ∃ X : nat → nat → R, ∀ p, (p < N)%nat → ∀ i, (i < n)%nat → rs n (λ j, B i j * X j p) = delta i p).
    { induction N as [|N IHN]; intros HN; [exists (λ _ _, 0); lia|]. destruct IHN as [X HX]; [lia|]. destruct (Hcol N) as [x Hx]; [lia|].
      exists (λ j p, if decide (p = N) then x j else X j p). intros p Hp i Hi. destruct (decide (p = N)) as [->|]; [by apply Hx|].
      apply HX; [lia|done]. }
    by apply HN. }
  destruct HX as [X HX]. exists X. apply rinv_both. intros i j Hi Hj. by apply HX.
Qed.
(** A^T A has an inverse exactly if the columns of A are independent. *)
Lemma gram_inverse m n A : (∃ X, is_inverse n (mm m (mt A) A) X) ↔ ¬ columns_dependent m n A.
Proof.
  split.
  - intros [X HX] (z & (j & Hj & Hz) & Hs). apply Hz.
    assert (E : mv n (mm n X (mm m (mt A) A)) z j = z j).
    { unfold mv. rewrite (rs_single n _ j Hj).
      - destruct (HX j j Hj Hj) as [_ ->]. rewrite decide_True by done. ring.
      - intros i Hi Hne. destruct (HX j i Hj Hi) as [_ ->]. rewrite decide_False by done. ring. }
    rewrite <- E, mv_mm. unfold mv at 1. apply rs_zero. intros i Hi.
    assert (E0 : mv n (mm m (mt A) A) z i = 0). { rewrite mv_mm. apply rs_zero. intros k Hk. unfold mv. rewrite Hs by done. ring. }
    rewrite E0. ring.
  - intros HN. apply injective_inverse. intros z Hz j Hj. destruct (Req_EM_T (z j) 0) as [|Hne]; [done|].
    destruct HN. exists z. split; [by exists j|].
    assert (E : sq m (mv n A z) = 0).
    { rewrite sq_ip, ip_mv. apply rs_zero. intros i Hi. rewrite <- mv_mm. unfold mv. rewrite Hz by done. ring. }
    intros i Hi. exact (sq_zero m _ E i Hi).
Qed.
