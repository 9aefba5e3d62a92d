(** dr_wrt is the Jacobian, for whole histories; and the worked cases. *)
From Coq Require Import Reals Lra.
From stdpp Require Import gmap strings list list_numbers relations.
From Verif Require Import EngineModel EngineSpec EngineEval EngineInv EngineHist EngineThms GraphSpec RevModel RevSpec RevThms
  ArrModel Curve ArrThms AdSpec AdThms.

Section hist.
Context {L : lib} (M : real_sem L).
Notation graph := (gmap oid (core L)).
Notation after l := (exec L l (init L)).
Notation attrs l := (gexec L l ∅).

Lemma hist_graph_ok l : lib_ok L → valid L l → graph_ok L (attrs l).
Proof. intros Hlib Hv. destruct (exec_ok L l Hlib Hv) as [[Hi _ _] Hc]. rewrite <- Hc. apply Hi. Qed.

(** In terms of given values for [w]. *)
Lemma hist_chain_rule l : lib_ok L → valid L l → sem_ok M → local_derivatives L → ∀ o w gam v j,
  not_view L (attrs l) w → reads L (after l) w QR (gam 0%R) → moves M gam v → o ≠ w →
  (∀ x, rtc (points L (attrs l)) o x → x ≠ w → right_at M (attrs l) x ∧ no_repeat (attrs l) w x) →
  reads_dr L (after l) o w j →
  ∃ y, reads L (after l) o QR (y 0%R) ∧ near (λ t, denotes_env (only w (gam t)) (attrs l) o (y t)) ∧ moves M y (jact M j v).
Proof.
  intros Hlib Hv Hsem Hloc o w gam v j Hnv Hw0 Hm Hne Hright Hdr.
  apply hist_reads in Hw0; [|done..]. apply hist_reads_dr in Hdr as [n Hn]; [|done..].
  destruct (chain_rule M Hsem (attrs l) w gam v (hist_graph_ok l Hlib Hv) Hnv Hw0 Hm n o j Hne Hright Hloc Hn) as (y & Hy & Hmy).
  exists y. split_and!; [|done|done]. apply hist_reads; [done..|]. apply near_0 in Hy.
  by apply (env_denotes (attrs l) (attrs l) w (gam 0%R)).
Qed.

(** In terms of assignments to a basic object. *)
Lemma hist_jacobian l : lib_ok L → valid L l → sem_ok M → local_derivatives L → ∀ o w c (vals : R → Val L) o' gam v j,
  attrs l !! w = Some c → is_base L (c_cls L c) = true → o' ∉ dom (attrs l) →
  near (λ t, reads L (after (l ++ [OSet L w "x" (AVal (vals t)) o'])) w QR (gam t)) →
  reads L (after l) w QR (gam 0%R) → moves M gam v → o ≠ w →
  (∀ x, rtc (points L (attrs l)) o x → x ≠ w → right_at M (attrs l) x ∧ no_repeat (attrs l) w x) →
  reads_dr L (after l) o w j →
  ∃ y, reads L (after l) o QR (y 0%R) ∧
    near (λ t, reads L (after (l ++ [OSet L w "x" (AVal (vals t)) o'])) o QR (y t)) ∧ moves M y (jact M j v).
Proof.
  intros Hlib Hv Hsem Hloc o w c vals o' gam v j Hc Hb Ho' Hset Hw0 Hm Hne Hright Hdr.
  assert (Hnv : not_view L (attrs l) w).
  { exists c. split; [done|]. destruct (hist_graph_ok l Hlib Hv w c Hc) as [Hcls _].
    destruct (is_permute L (c_cls L c)) eqn:E; [|done]. destruct (co_permute _ _ _ _ Hcls E). congruence. }
  destruct (hist_chain_rule l Hlib Hv Hsem Hloc o w gam v j Hnv Hw0 Hm Hne Hright Hdr) as (y & Hy0 & Hy & Hmy).
  exists y. split_and!; [done| |done].
  eapply near_mono; [|exact (near_and _ _ Hset Hy)]. intros t [Hr Ht].
  assert (Hv' : valid L (l ++ [OSet L w "x" (AVal (vals t)) o'])).
  { unfold valid. apply valid_app. split; [done|]. split; [|done]. exists c. split_and!; try done. eauto. }
  apply hist_reads in Hr; [|done..]. apply hist_reads; [done..|].
  revert Hr. unfold gexec. rewrite foldl_app. fold (gexec L l ∅). simpl. rewrite Hc, Hb. intros Hr.
  eapply (env_denotes (attrs l)); [|exact Hr|exact Ht].
  intros p Hp. by rewrite lookup_insert_ne.
Qed.
End hist.
