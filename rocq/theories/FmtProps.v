(** Property C63: requested storage formats and cached derivatives. *)
From Coq Require Import Reals Lra.
From stdpp Require Import gmap list list_numbers.
From Verif Require Import ArrModel RepModel RepSpec RepThms RepDemo RepOpsSpec RepOps FmtModel FmtSpec FmtThms FmtDemo.

(** C63. After any history of calls on any objects with any numbers of parents, and of
    dropped cache entries, whatever dr_wrt returns is the matrix of the chain rule, for any
    setting of make_dense, and of make_sparse where there is a dependence (see
    C63_none_refuted) and the object is no mere handle of the variable (see
    C63_handle_refuted).  The classes are as in C49_operators_partial. *)
Theorem C63_entries_partial (blank : option rep) (g : fgraph) size w J T : sound_graph (plain g) → chain_rule (plain g) size w J T →
  fine (plain g) size w J → flags_fit g size w J →
  ∀ n h par o res, Forall (other w) h → o ≠ w → ¬ alias (plain g) size w J o →
  answer blank n g w h par o = Some res → result_is res (size o) (size w) (T o).
Proof. exact (answer_right blank g size w J T). Qed.
Print Assumptions C63_entries_partial.

(** C63. No call raises, if make_sparse is not set where LinearOperators come in (see
    C63_operator_refuted) and no object with one element adds up several derivatives with
    respect to a variable with one element (see C49_scalar_refuted); [rank] bounds the
    depth of the recursion. *)
Theorem C63_returns_partial (blank : option rep) (g : fgraph) size w J T : sound_graph (plain g) → chain_rule (plain g) size w J T →
  fine (plain g) size w J → flags_fit g size w J →
  ∀ rank n h par o, (∀ o nd p, g !! o = Some nd → p ∈ ops (base nd) → rank p < rank o) →
  (∀ o nd, g !! o = Some nd → size o * size w ≠ 1 ∨ length (ops (base nd)) ≤ 1) →
  (∀ o nd, g !! o = Some nd → sparse nd = true → operator_free (plain g) size J o) →
  Forall (other w) h → is_Some (g !! o) → o ≠ w → rank o < n → is_Some (answer blank n g w h par o).
Proof. exact (answer_total blank g size w J T). Qed.
Print Assumptions C63_returns_partial.
(** s = sum(e + ChHandle(x)), e made dense, e + ChHandle(x) and s made sparse; s is asked
    three times, the last time with a new parent, e in between, and caches are dropped. *)
Example C63_entries_case : sound_graph (plain g_flag) ∧ chain_rule (plain g_flag) n_mix 0 J_mix T_mix ∧
  fine (plain g_flag) n_mix 0 J_mix ∧ flags_fit g_flag n_mix 0 J_mix ∧
  (∀ o nd p, g_flag !! o = Some nd → p ∈ ops (base nd) → p < o) ∧
  (∀ o nd, g_flag !! o = Some nd → n_mix o * n_mix 0 ≠ 1 ∨ length (ops (base nd)) ≤ 1) ∧
  (∀ o nd, g_flag !! o = Some nd → sparse nd = true → operator_free (plain g_flag) n_mix J_mix o) ∧
  ¬ alias (plain g_flag) n_mix 0 J_mix 4 ∧
  Forall (other 0) [Ask (λ _, 0) 4; Ask (λ _, 2) 1; Drop [1; 4]; Ask (λ _, 0) 4; Ask (λ _, 1) 4].
Proof.
  split_and!; [unfold g_flag; rewrite plain_flag..| | | | | |].
  - exact mix_sound.
  - exact mix_chain.
  - exact (no_operators_fine _ _ _ _ mix_fine).
  - exact flag_fit.
  - exact flag_rank.
  - exact flag_sizes.
  - exact flag_free.
  - unfold g_flag. rewrite plain_flag. exact mix_alias.
  - repeat constructor; discriminate.
Qed.

(** C63. The format is the one asked for whenever the result was not cached; [blank] is what
    sp.csc_matrix(None) returns, if it does not raise. *)
Theorem C63_first_partial (blank : option rep) n g par w c o nd res : (∀ r, blank = Some r → is_sparse r = true) →
  g !! o = Some nd → c !! o = None → (fdr blank n g par w c o).2 = Some res → as_asked nd res.
Proof. exact (fdr_asked blank n g par w c o nd res). Qed.
Print Assumptions C63_first_partial.

(** C63. Hence it always is the one asked for, whatever was called before, for objects that
    have one parent in all calls before. *)
Theorem C63_one_parent_partial (blank : option rep) n g w h par o nd res : (∀ r, blank = Some r → is_sparse r = true) →
  g !! o = Some nd → Forall (single o) h → answer blank n g w h par o = Some res → as_asked nd res.
Proof. exact (single_asked blank n g w h par o nd res). Qed.
Print Assumptions C63_one_parent_partial.
(** A dense matrix from an object that is asked twice and has one parent, of which a sparse
    Jacobian is the local one. *)
Example C63_one_parent_case blank : Forall (single 1) [Ask (λ _, 1) 1; Ask (λ _, 1) 1] ∧
  answer blank 1 (flag (g_one (Some sp_id)) at1 off) 0 [Ask (λ _, 1) 1; Ask (λ _, 1) 1] (λ _, 1) 1 =
    Some (Some (densify sp_id)).
Proof. split; [repeat constructor|reflexivity]. Qed.

(* ------------------------------------------------------------------ *)
(** C63 is false for objects without parents (or with several): results are cached before
    they are converted, so the second call of dr_wrt returns a sparse matrix although
    make_dense is set, and a dense one although make_sparse is set. *)
Theorem C63_second_refuted : ∃ (g g' : fgraph) size w J J' T T' o,
  (sound_graph (plain g) ∧ chain_rule (plain g) size w J T ∧ fine (plain g) size w J ∧ flags_fit g size w J) ∧
  (sound_graph (plain g') ∧ chain_rule (plain g') size w J' T' ∧ fine (plain g') size w J' ∧ flags_fit g' size w J') ∧
  ∀ blank n, ∃ nd nd' r r',
    g !! o = Some nd ∧ dense nd = true ∧ sparse nd = false ∧ g' !! o = Some nd' ∧ dense nd' = false ∧ sparse nd' = true ∧
    answer blank (S n) g w [Ask (λ _, 0) o] (λ _, 0) o = Some (Some r) ∧ is_sparse r = true ∧
    answer blank (S n) g' w [Ask (λ _, 0) o] (λ _, 0) o = Some (Some r') ∧ is_sparse r' = false.
Proof.
  exists (flag (g_one (Some sp_id)) at1 off), (flag (g_one (Some ones)) off at1), (λ _, 2), 0, (λ _ _, mscal 1), (λ _ _ _ _, 1%R).
  exists (λ o, match o with 0 => mscal 1 | _ => mscal 1 end), (λ o, match o with 0 => mscal 1 | _ => λ _ _, 1%R end), 1.
  rewrite !plain_flag. split; [|split].
  - split_and!; [exact (one_sound _)|exact (one_chain _ _)| |exact (off_fit _ _ _ _ _)].
    apply one_fine. exact sp_id_is.
  - split_and!; [exact (one_sound _)|exact (one_chain _ _)| |exact (one_fit _ _ _ ones_no_number)].
    apply one_fine. exact ones_is.
  - intros blank n.
    exists (FNode (RNode [0] (λ p, if decide (p = 0) then Some sp_id else None)) true false),
      (FNode (RNode [0] (λ p, if decide (p = 0) then Some ones else None)) false true), sp_id, ones.
    do 6 (split; [reflexivity|]). split; [exact (one_second n blank (Some sp_id) at1 off _ eq_refl)|].
    split; [reflexivity|]. split; [exact (one_second n blank (Some ones) off at1 _ ones_conclude)|reflexivity].
Qed.
Print Assumptions C63_second_refuted.

(** C63 is false where there is no dependence: with make_sparse the first call raises or
    returns what sp.csc_matrix makes of None, and the second one returns None. *)
Theorem C63_none_refuted : ∃ (g : fgraph) size w J T o,
  sound_graph (plain g) ∧ chain_rule (plain g) size w J T ∧ fine (plain g) size w J ∧
  ∀ blank n, answer blank (S n) g w [] (λ _, 0) o = Some <$> blank ∧
    answer blank (S n) g w [Ask (λ _, 0) o] (λ _, 0) o = Some None.
Proof.
  exists (flag (g_one None) off at1), (λ _, 2), 0, (λ _ _, mzero), (λ o, match o with 0 => mscal 1 | _ => mzero end), 1.
  rewrite plain_flag. split_and!; [exact (one_sound _)|exact (one_chain _ _)| |].
  - apply one_fine. exact mzero_is.
  - intros blank n. split; [exact (one_first n blank None off at1)|exact (one_second n blank None off at1 _ eq_refl)].
Qed.
Print Assumptions C63_none_refuted.

(** C63 is false for LinearOperators: with make_sparse the first call raises, and the second
    one returns the operator. *)
Theorem C63_operator_refuted : ∃ (g : fgraph) size w J T o r,
  sound_graph (plain g) ∧ chain_rule (plain g) size w J T ∧ fine (plain g) size w J ∧ flags_fit g size w J ∧ is_lin r = true ∧
  ∀ blank n, answer blank n g w [] (λ _, 0) o = None ∧
    answer blank (S n) g w [Ask (λ _, 0) o] (λ _, 0) o = Some (Some r).
Proof.
  exists (flag (g_one (Some op_id)) off at1), (λ _, 2), 0, (λ _ _, mscal 1), (λ o, match o with 0 => mscal 1 | _ => mscal 1 end), 1, op_id.
  rewrite plain_flag. split_and!; [exact (one_sound _)|exact (one_chain _ _)| |exact (one_fit _ _ _ op_no_number)|reflexivity|].
  - apply one_fine. exact id_is.
  - intros blank n. split; [|exact (one_second n blank (Some op_id) off at1 _ eq_refl)].
    destruct n as [|n]; [reflexivity|exact (one_first n blank (Some op_id) off at1)].
Qed.
Print Assumptions C63_operator_refuted.

(** C63 is false for handles: made sparse, ChHandle(x) stands for a 1 x 1 matrix and no
    longer for a multiple of the identity, and the derivative of an object above raises,
    though it does not without the flag. *)
Theorem C63_handle_refuted : ∃ (g : rgraph) (s : nat → bool) size w J T o,
  sound_graph g ∧ chain_rule g size w J T ∧ fine g size w J ∧ o ≠ w ∧ ¬ alias g size w J o ∧
  (∀ o nd, flag g (λ _, false) s !! o = Some nd → sparse nd = true → linked g w o) ∧
  (∃ res, returns g o w res) ∧
  ∀ blank n par, answer blank n (flag g (λ _, false) s) w [] par o = None.
Proof.
  exists g_under, at1, (λ _, 2), 0, (λ _ _, mscal 1), (λ _, mscal 1), 2.
  exact (conj under_sound (conj under_chain (conj under_fine (conj (Nat.neq_succ_0 1) (conj under_alias
    (conj under_linked (conj under_returns (λ blank n par, under_raises n blank par)))))))).
Qed.
Print Assumptions C63_handle_refuted.
