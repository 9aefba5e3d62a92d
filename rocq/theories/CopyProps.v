(** C16: copies of object graphs.  Statements only; proofs are in CopyThms.v, CopyInv.v
    and CopyHist.v. *)
From stdpp Require Import gmap strings list relations.
From Verif Require Import EngineModel EngineSpec EngineDemo CopyModel CopySpec CopyHist CopyDemo.

Notation after L l := (perform L l (init L)).
Notation graph_after L l := (cores L (st_h L (perform L l (init L)))).

(** Every object below which nothing refers to itself in a circle can be pickled in the
    order the other theorems ask for, whatever new ids the copies get. *)
Theorem C16_order : ∀ (L : lib) l o (rank : oid → nat) rn,
  lib_ok L → acts_ok L ∅ l (init L) → o ∈ dom (graph_after L l) →
  (∀ x p, reach L (graph_after L l) o x → refers L (graph_after L l) x p → rank p < rank x) →
  (∀ x, rn x ∉ dom (graph_after L l)) → (∀ x y, rn x = rn y → x = y) →
  ∃ ord, copy_ok L (graph_after L l) rn ord o (walk_order L (S (rank o)) (graph_after L l) o []).
Proof. exact walk_copy_ok. Qed.
Print Assumptions C16_order.
Example C16_order_case : walk_order demo 3 (graph_after demo made) 4 [] = [1; 2; 3; 4].
Proof. vm_compute. reflexivity. Qed.

(** copy() raises exactly when some object below holds one object under two of its
    dterms. Full C16 asks that it never raises; that is false (C16_square_refuted). *)
Theorem C16_raises_iff_partial : ∀ (L : lib) l rn ord o out,
  lib_ok L → acts_ok L ∅ l (init L) → copy_ok L (graph_after L l) rn ord o out →
  copy_state L rn ord out (after L l) = None ↔ ¬ no_double L (graph_after L l) out.
Proof. exact copy_raises. Qed.
Print Assumptions C16_raises_iff_partial.

(** y*y can be evaluated but not copied. *)
Theorem C16_square_refuted : ∃ (L : lib) l rn ord o out v,
  lib_ok L ∧ acts_ok L ∅ l (init L) ∧ copy_ok L (graph_after L l) rn ord o out ∧
  reads L (after L l) o QR v ∧ copy_state L rn ord out (after L l) = None.
Proof. exact square_raises. Qed.
Print Assumptions C16_square_refuted.

(** The copy is a graph of new objects with the same sharing; values and derivatives
    agree, and those of the originals are what they were. *)
Theorem C16_equal_partial : ∀ (L : lib) l rn ord o out st',
  lib_ok L → acts_ok L ∅ l (init L) → copy_ok L (graph_after L l) rn ord o out →
  copy_state L rn ord out (after L l) = Some st' →
  copied_graph L rn out (graph_after L l) (cores L (st_h L st')) ∧
  (∀ x w v, x ∈ out → reads L st' (rn x) w v ↔ reads L (after L l) x w v) ∧
  (∀ x w j, x ∈ out → w ∈ out → not_view L (graph_after L l) w →
     reads_dr L st' (rn x) (rn w) j ↔ reads_dr L (after L l) x w j) ∧
  (∀ x w v, x ∈ dom (graph_after L l) → reads L st' x w v ↔ reads L (after L l) x w v) ∧
  (∀ x w j, x ∈ dom (graph_after L l) → not_view L (graph_after L l) w →
     reads_dr L st' x w j ↔ reads_dr L (after L l) x w j).
Proof. exact copied_equal. Qed.
Print Assumptions C16_equal_partial.

(** Copying calls none of the code that users give (on_changed, compute_r, compute_dr_wrt):
    the log of its calls stays as it is.  C16_case meets the hypothesis. *)
Theorem C16_no_calls : ∀ (L : lib) rn ord out st st',
  copy_state L rn ord out st = Some st' → st_log L st' = st_log L st.
Proof. exact copied_log. Qed.
Print Assumptions C16_no_calls.
Example C16_no_calls_case : ∃ st', copy_state demo plus10 ab post (after demo made) = Some st'.
Proof.
  destruct made_ok as (Hl & Ha & Hc & Hd).
  destruct (copy_state demo plus10 ab post (after demo made)) as [st'|] eqn:E; [by exists st'|].
  exfalso. by apply (proj1 (C16_raises_iff_partial demo made plus10 ab 4 post Hl Ha Hc) E).
Qed.

(** Parent links are right: in every history of calls and copies, values and derivatives
    read are those recomputed from the attributes. *)
Theorem C16_histories : ∀ (L : lib) l, lib_ok L → acts_ok L ∅ l (init L) →
  (∀ x w v, reads L (after L l) x w v ↔ denotes L (graph_after L l) x w v) ∧
  (∀ x w j, not_view L (graph_after L l) w →
     reads_dr L (after L l) x w j ↔ dr_denotes L (graph_after L l) x w j).
Proof. exact after_all. Qed.
Print Assumptions C16_histories.

(** Whatever later happens to other objects, the copies keep their values and
    derivatives; and so do the originals. *)
Theorem C16_independent_partial : ∀ (L : lib) l rn ord o out st' l2,
  lib_ok L → acts_ok L ∅ l (init L) → copy_ok L (graph_after L l) rn ord o out →
  copy_state L rn ord out (after L l) = Some st' → acts_ok L (tags_after L l ∅) l2 st' →
  ((∀ a, a ∈ l2 → avoids L (the_copies rn out) a) →
   (∀ x w v, x ∈ out → reads L (perform L l2 st') (rn x) w v ↔ reads L (after L l) x w v) ∧
   (∀ x w j, x ∈ out → w ∈ out → not_view L (graph_after L l) w →
     reads_dr L (perform L l2 st') (rn x) (rn w) j ↔ reads_dr L (after L l) x w j)) ∧
  ((∀ a, a ∈ l2 → avoids L (the_originals out) a) →
   (∀ x w v, x ∈ out → reads L (perform L l2 st') x w v ↔ reads L (after L l) x w v) ∧
   (∀ x w j, x ∈ out → w ∈ out → not_view L (graph_after L l) w →
     reads_dr L (perform L l2 st') x w j ↔ reads_dr L (after L l) x w j)).
Proof. exact copied_independent. Qed.
Print Assumptions C16_independent_partial.

(** t = (x+y)*x and its copy; then x changes, then the copy of x. *)
Example C16_case :
  lib_ok demo ∧ acts_ok demo ∅ made (init demo) ∧
  copy_ok demo (graph_after demo made) plus10 ab 4 post ∧
  no_double demo (graph_after demo made) post.
Proof. exact made_ok. Qed.
Example C16_case_values :
  (λ x, (read demo 9 x QR (perform demo (made ++ [Copy demo plus10 ab 4 post]) (init demo))).2) <$> [4; 14]
  = [Some [24; 40]%Z; Some [24; 40]%Z].
Proof. vm_compute. reflexivity. Qed.
Example C16_case_later :
  acts_ok demo ∅ (made ++ Copy demo plus10 ab 4 post :: later) (init demo) ∧
  (∀ a, a ∈ take 1 later → avoids demo (the_copies plus10 post) a) ∧
  (∀ a, a ∈ drop 1 later → avoids demo (the_originals post) a).
Proof. exact later_ok. Qed.
Example C16_case_later_values :
  (λ m, (λ x, (read demo 9 x QR (perform demo (made ++ Copy demo plus10 ab 4 post :: take m later)
                                  (init demo))).2) <$> [4; 14]) <$> [1; 2]
  = [[Some [6; 7]%Z; Some [24; 40]%Z]; [Some [6; 7]%Z; Some [14; 16]%Z]].
Proof. vm_compute. reflexivity. Qed.
