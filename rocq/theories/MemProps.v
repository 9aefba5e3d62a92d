(** C62: arrays handed over or read are not shared. *)
From Coq Require Import Reals.
From stdpp Require Import list list_numbers numbers.
From Verif Require Import MemModel MemSpec MemThms.

(** Histories without writes in place: the same calls raise as if everything were copied, every
    object has the value of its terms, and every array the user made or read keeps its elements. *)
Theorem C62_whole os : obeys whole os → let s := fst (run os) in let g := fst (grun os) in
  snd (run os) = snd (grun os) ∧ (∀ n, n < length (gobjs g) → now s n = value g n) ∧ ∀ h, look s h = gdata <$> garrs g !! h.
Proof. exact (whole_run os). Qed.
Print Assumptions C62_whole.
Example C62_whole_case : obeys whole whole_history ∧ let s := fst (run whole_history) in
  snd (run whole_history) = replicate 13 true ∧ now s 0 = [2; 4]%R ∧ now s 3 = [4; 8]%R ∧ now s 4 = [1; 2]%R ∧ look s 1 = Some [2; 4]%R ∧ look s 3 = Some [10; 4]%R ∧ look s 0 = Some [1; 2]%R.
Proof. exact whole_case. Qed.

(** Histories with writes in place, if arrays are handed over once and not written to
    afterwards: values are right, and so are the arrays whose memory no object has written to. *)
Theorem C62_tidy_partial os : obeys tidy os → let s := fst (run os) in let g := fst (grun os) in
  snd (run os) = snd (grun os) ∧ (∀ n, n < length (gobjs g) → now s n = value g n) ∧
  ∀ h a, garrs g !! h = Some a → gtag a ≠ Stale → look s h = Some (gdata a).
Proof. exact (tidy_run os). Qed.
Print Assumptions C62_tidy_partial.
Example C62_tidy_case : obeys tidy tidy_history ∧ let s := fst (run tidy_history) in let g := fst (grun tidy_history) in
  snd (run tidy_history) = replicate 16 true ∧ now s 2 = [10; 8]%R ∧ now s 3 = [9; 4]%R ∧ (∀ h, h ∈ [1; 2; 4; 6] → ∃ a, garrs g !! h = Some a ∧ gtag a ≠ Stale) ∧
  look s 1 = Some [2; 4]%R ∧ look s 2 = Some [10; 4]%R.
Proof. exact tidy_case. Qed.

(** Refuted: old = c.r; c[0] = 5. The array that was read, and the caller's array, change. *)
Theorem C62_snapshot_refuted : let s := fst (run snapshot) in let g := fst (grun snapshot) in
  obeys tidy snapshot ∧ snd (run snapshot) = replicate 4 true ∧ gdata <$> garrs g !! 1 = Some [1; 2]%R ∧ look s 1 = Some [5; 2]%R ∧ look s 0 = Some [5; 2]%R ∧ look s 1 ≠ (gdata <$> garrs g !! 1).
Proof. exact snapshot_case. Qed.
Print Assumptions C62_snapshot_refuted.
(** Refuted: c = Ch(a); d = Ch(a); e = 2 * d; e.r; c[0] = 5. d changes too, and e is stale. *)
Theorem C62_twins_refuted : let s := fst (run twins) in
  snd (run twins) = replicate 6 true ∧ now s 1 = [5; 2]%R ∧ value (fst (grun twins)) 1 = [1; 2]%R ∧ now s 2 = [2; 4]%R ∧ now s 2 ≠ twice [now s 1].
Proof. exact twins_case. Qed.
Print Assumptions C62_twins_refuted.
(** Refuted: c = Ch(a); e = 2 * c; e.r; a[0] = 5. c changes, and e is stale. *)
Theorem C62_behind_refuted : let s := fst (run behind) in
  snd (run behind) = replicate 5 true ∧ now s 0 = [5; 2]%R ∧ value (fst (grun behind)) 0 = [1; 2]%R ∧ now s 1 = [2; 4]%R ∧ now s 1 ≠ twice [now s 0].
Proof. exact behind_case. Qed.
Print Assumptions C62_behind_refuted.
(** Refuted: d = Ch(c.r); e = 2 * d; e.r; d[0] = 7 raises; c[0] = 5 changes d, and e is stale. *)
Theorem C62_rebuilt_refuted : let s := fst (run rebuilt) in
  snd (run rebuilt) = [true; true; true; true; true; true; false; true] ∧ snd (grun rebuilt) = replicate 8 true ∧
  now s 1 = [5; 2]%R ∧ value (fst (grun rebuilt)) 1 = [7; 2]%R ∧ now s 2 = [2; 4]%R ∧ now s 2 ≠ twice [now s 1].
Proof. exact rebuilt_case. Qed.
Print Assumptions C62_rebuilt_refuted.
(** Refuted: c.x = np.array([1, 2]); c[0] = 0.5. The element becomes 0. *)
Theorem C62_integers_refuted : let s := fst (run whole_numbers) in
  snd (run whole_numbers) = replicate 5 true ∧ now s 0 = [0; 2]%R ∧ value (fst (grun whole_numbers)) 0 = [1/2; 2]%R.
Proof. exact whole_numbers_case. Qed.
Print Assumptions C62_integers_refuted.
(** Refuted: c = Ch(a); e = 2 * c; e.r; c.x[0] = 5. c changes, and e is stale. *)
Theorem C62_attribute_refuted : let s := fst (run attribute) in
  snd (run attribute) = replicate 6 true ∧ now s 0 = [5; 2]%R ∧ value (fst (grun attribute)) 0 = [1; 2]%R ∧ now s 1 = [2; 4]%R ∧ now s 1 ≠ twice [now s 0].
Proof. exact attribute_case. Qed.
Print Assumptions C62_attribute_refuted.
(** For an array in Fortran order old = c.r; c[0] = 5 leaves what was read, but not the caller's
    array. *)
Example C62_fortran_case : let s := fst (run fortran) in
  snd (run fortran) = replicate 4 true ∧ now s 0 = [5; 2]%R ∧ look s 1 = Some [1; 2]%R ∧ look s 0 = Some [5; 2]%R.
Proof. exact fortran_case. Qed.
