(** C46: timers. *)
From Coq Require Import Reals Sorting.Sorted Lra.
From stdpp Require Import list.
From Verif Require Import TimerModel TimerSpec TimerThms.

Theorem C46_reads t0 l i t : l !! i = Some (t, Read) → uses t0 l !! i = Some (Value (unpaused true t0 (take i l) t)).
Proof. exact (uses_read t0 l i t). Qed.
Print Assumptions C46_reads.
Theorem C46_rejects t0 l i t o : l !! i = Some (t, o) →
  uses t0 l !! i = Some Rejected ↔ o = Pause ∧ running true (take i l) = false ∨ o = Resume ∧ running true (take i l) = true.
Proof. exact (uses_reject t0 l i t o). Qed.
Print Assumptions C46_rejects.
Theorem C46_monotone t0 l i j ti tj x y : monotone t0 l → i ≤ j → l !! i = Some (ti, Read) → l !! j = Some (tj, Read) →
  uses t0 l !! i = Some (Value x) → uses t0 l !! j = Some (Value y) → (0 <= x <= y)%R ∧ (y <= tj - t0)%R.
Proof. exact (uses_monotone t0 l i j ti tj x y). Qed.
Print Assumptions C46_monotone.

(** paused from 5 to 9, a second pause rejected, read at 11: 6 *)
Example C46_example : let l := [(5%R, Pause); (7%R, Pause); (9%R, Resume); (11%R, Read)] in
  monotone 1 l ∧ uses 1 l !! 3 = Some (Value 6) ∧ uses 1 l !! 1 = Some Rejected.
Proof.
  split; [|split; [|done]].
  - unfold monotone. cbn. repeat (apply SSorted_cons; [|repeat (apply List.Forall_cons; [lra|]); apply List.Forall_nil]). apply SSorted_nil.
  - rewrite (uses_read _ _ _ 11) by done. cbn. do 2 f_equal. lra.
Qed.
