(** Labelled concatenations, shared parts, decimals and second profilers. *)
From Coq Require Import Reals String Sorted Lia Lra.
From stdpp Require Import list gmap.
From Verif Require Import ReportModel ReportSpec ReportThms.

Lemma sumsq_app l k : sumsq (l ++ k) = (sumsq l + sumsq k)%R.
Proof. induction l as [|x l IH]; cbn; [lra|]. rewrite IH. lra. Qed.
Lemma one_line g rank k l fuel : well_founded_by g rank → rank k < fuel → o_label (g k) = Some l → (∀ n p j, leads g k (n :: p) j → o_label (g j) = None) →
  print_labeled_residuals fuel g false 2 k = Some [Part l 2 (sumsq (o_r (g k)))].
Proof.
  intros Hw Hf Hl Hn. destruct (print_good g rank false 2 Hw fuel k Hf) as (ls & E & ps & S1 & M1 & F1). rewrite E, app_nil_r. f_equal.
  assert (Hps : ∀ x, x ∈ ps → x = ([], k)).
  { intros [p j] [Hx Hs]%M1. cbn in *. destruct p as [|n p]; [by inversion Hx|]. rewrite (Hn n p j Hx) in Hs. by destruct Hs. }
  destruct ps as [|x ps]; [exfalso; apply (not_elem_of_nil ([] : list nat, k)); apply M1; split; cbn; [constructor|by rewrite Hl]|]. assert (x = ([], k)) as -> by (apply Hps; left).
  destruct ps as [|y ps].
  - inversion F1 as [|? c ? ? Hc F2]; subst. inversion F2; subst. destruct Hc as (l' & Hl' & ->). cbn in *. rewrite Hl in Hl'. by injection Hl' as <-.
  - assert (y = ([], k)) as -> by (apply Hps; right; left). cbn in S1. inversion S1 as [|? ? _ Hb]; subst. inversion Hb as [|? ? Hbb]; subst. inversion Hbb.
Qed.
Lemma print_adds g rank i d fuel : well_founded_by g rank → rank i < fuel → o_label (g i) = None → o_r (g i) = concat (map (λ k, o_r (g k)) (o_terms (g i))) →
  (∀ k, k ∈ o_terms (g i) → is_Some (o_label (g k)) ∧ ∀ n p j, leads g k (n :: p) j → o_label (g j) = None) →
  ∃ ls, print_labeled_residuals fuel g true d i = Some (ls ++ [Total d (sumsq (o_r (g i)))]) ∧
    Forall2 (λ k c, ∃ l, o_label (g k) = Some l ∧ c = Part l 2 (sumsq (o_r (g k)))) (o_terms (g i)) ls ∧ shares ls = sumsq (o_r (g i)).
Proof.
  intros Hw Hf Hl Hr Hk. destruct fuel as [|fuel]; [lia|]. cbn. rewrite Hl, Hr. cbn.
  assert (H : ∀ ks, (∀ k, k ∈ ks → k ∈ o_terms (g i)) → ∃ lss, mapM (λ k, print_labeled_residuals fuel g false 2 k) ks = Some lss ∧
    Forall2 (λ k c, ∃ l, o_label (g k) = Some l ∧ c = Part l 2 (sumsq (o_r (g k)))) ks (concat lss) ∧ shares (concat lss) = sumsq (concat (map (λ k, o_r (g k)) ks))).
  { intros ks. induction ks as [|k ks IH]; intros Hks; [exists []; split_and!; [done|constructor|done]|].
    destruct IH as (lss & E & F & S); [intros; apply Hks; by right|]. destruct (Hk k) as [[l Hlk] Hn]; [apply Hks; left|].
    exists ([Part l 2 (sumsq (o_r (g k)))] :: lss). split_and!.
    - cbn. rewrite (one_line g rank k l fuel Hw); [by rewrite E| |done|done]. assert (rank k < rank i) by (apply Hw, Hks; left). lia.
    - cbn. constructor; [by exists l|done].
    - cbn. by rewrite sumsq_app, S. }
  destruct (H (o_terms (g i))) as (lss & E & F & S); [done|]. rewrite E. exists (concat lss). by split_and!.
Qed.

(** x0 has a label; x1 = x0 + x0, x2 = x1 + x1 and so on *)
Definition doubled : graph := λ i, match i with O => Object (Some "x"%string) [] [1%R] | S j => Object None [j; j] [(2 ^ i)%R] end.
Lemma doubled_rank : well_founded_by doubled (λ i, i).
Proof. intros [|i] k Hk; cbn in Hk; [by apply elem_of_nil in Hk|]. apply elem_of_cons in Hk as [->|Hk]; [lia|]. apply elem_of_list_singleton in Hk as ->. lia. Qed.
Lemma doubled_label j : is_Some (o_label (doubled j)) → j = 0.
Proof. destruct j; [done|]. cbn. by intros []. Qed.
Lemma doubled_print n : ∀ fuel, n < fuel → print_labeled_residuals fuel doubled false 2 n = Some (repeat (Part "x" 2 1) (2 ^ n)).
Proof.
  induction n as [|n IH]; intros fuel Hf; (destruct fuel as [|fuel]; [lia|]).
  - cbn. do 3 f_equal. lra.
  - cbn. rewrite !(IH fuel) by lia. cbn. f_equal. rewrite !app_nil_r, Nat.add_0_r. symmetry. apply repeat_app.
Qed.
Lemma shared_print n d fuel : n < fuel → 0 < n → print_labeled_residuals fuel doubled true d n = Some (repeat (Part "x" 2 1) (2 ^ n) ++ [Total d (2 ^ n * 2 ^ n)]).
Proof.
  intros Hf Hn. destruct n as [|n]; [lia|]. destruct fuel as [|fuel]; [lia|]. cbn. rewrite !(doubled_print n fuel) by lia. cbn.
  rewrite Nat.add_0_r, app_nil_r, Rplus_0_r. f_equal. f_equal. symmetry. apply repeat_app.
Qed.
(** a concatenation of labelled parts: x = [1, 2] and y = [3] *)
Definition joined : graph := λ i, match i with 0 => Object (Some "x"%string) [] [1%R; 2%R] | 1 => Object (Some "y"%string) [] [3%R] | 2 => Object None [0; 1] [1%R; 2%R; 3%R] | _ => Object None [] [] end.
Lemma joined_rank : well_founded_by joined (λ i, i).
Proof.
  intros i k Hk. destruct i as [|[|[|i]]]; cbn in Hk; try by apply elem_of_nil in Hk. apply elem_of_cons in Hk as [->|Hk]; [lia|]. apply elem_of_list_singleton in Hk as ->. lia.
Qed.
(** y = x + x once more, and a loop: 0 -> 1, 1 -> 0 *)
Definition looped : graph := λ i, match i with 0 => Object None [1; 1] [] | 1 => Object None [0] [] | _ => Object None [] [] end.
Lemma looped_below : objects_below looped 2.
Proof.
  intros i k Hi Hk. destruct i as [|[|i]]; [| |lia]; cbn in Hk; repeat (apply elem_of_cons in Hk as [->|Hk]; [lia|]); by apply elem_of_nil in Hk.
Qed.
Lemma second_dump g i fuel M e M' fuel' : dump_tree fuel g i M = Some (e, M') → 0 < fuel' → dump_tree fuel' g i M' = Some (Indirect i, M').
Proof.
  intros E Hf. destruct (dump_ok g fuel i M e M' E) as (A & _ & _ & _ & _ & _ & _ & B). destruct fuel' as [|fuel']; [lia|]. cbn.
  destruct (decide (i ∈ M')) as [|Hn]; [done|]. exfalso. apply Hn. rewrite <- A. apply B. left.
Qed.
Lemma shared_often : ∃ g rank, well_founded_by g rank ∧ (∀ j, is_Some (o_label (g j)) → j = 0) ∧
  ∀ n d, 0 < n → ∃ v t, ∀ fuel, n < fuel → print_labeled_residuals fuel g true d n = Some (repeat (Part "x" 2 v) (2 ^ n) ++ [Total d t]).
Proof. exists doubled, (λ i, i). split_and!; [apply doubled_rank|apply doubled_label|]. intros n d Hn. eexists _, _. intros fuel Hf. by apply shared_print. Qed.
Lemma two_decimals : ∃ g, ∀ d fuel, 2 < fuel → ∃ v w t, print_labeled_residuals fuel g true d 2 = Some [Part "x" 2 v; Part "y" 2 w; Total d t].
Proof. exists joined. intros d fuel Hf. destruct fuel as [|[|[|fuel]]]; [lia..|]. by eexists _, _, _. Qed.
