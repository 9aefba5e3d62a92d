(** What reports should say, in terms of paths through the expression. *)
From Coq Require Import Reals String Sorted.
From stdpp Require Import list gmap.
From Verif Require Import ReportModel.

(** [leads g i p j]: taking the operands with the numbers in [p] leads from [i] to [j]. *)
Inductive leads (g : graph) : nat → list nat → nat → Prop :=
| leads_here i : leads g i [] i
| leads_step i n k p j : o_terms (g i) !! n = Some k → leads g k p j → leads g i (n :: p) j.
(** lexicographic order: an object before its operands, operands from left to right *)
Inductive before : list nat → list nat → Prop :=
| before_nil a p : before [] (a :: p)
| before_less a b p q : a < b → before (a :: p) (b :: q)
| before_more a p q : before p q → before (a :: p) (a :: q).
(** No object is an operand of itself, also not indirectly. *)
Definition well_founded_by (g : graph) (rank : nat → nat) : Prop := ∀ i k, k ∈ o_terms (g i) → rank k < rank i.
(** the figure for the object [j] reached by [p] *)
Definition figure (g : graph) (d : nat) (x : list nat * nat) (c : piece) : Prop :=
  ∃ l, o_label (g x.2) = Some l ∧ c = Part l (match x.1 with [] => d | _ => 2 end) (sumsq (o_r (g x.2))).
(** [clear g M i j]: a path from [i] to [j] on which no object is in [M]. *)
Inductive clear (g : graph) (M : gset nat) : nat → nat → Prop :=
| clear_here i : i ∉ M → clear g M i i
| clear_step i k j : i ∉ M → k ∈ o_terms (g i) → clear g M k j → clear g M i j.
(** the object an entry is about *)
Definition about (e : entry) : nat := match e with Full i _ => i | Indirect i => i end.
(** [within e f]: [f] is the entry [e] or one in it. *)
Inductive within : entry → entry → Prop :=
| within_here e : within e e
| within_child i cs c f : c ∈ cs → within c f → within (Full i cs) f.
(** the objects described in full, in the order of the file *)
Fixpoint described (e : entry) : list nat :=
  match e with Full i cs => i :: concat (map described cs) | Indirect _ => [] end.
(** [g] has the objects below [N] only. *)
Definition objects_below (g : graph) (N : nat) : Prop := ∀ i k, i < N → k ∈ o_terms (g i) → k < N.
(** the sum of the figures *)
Fixpoint shares (ls : list piece) : R := match ls with [] => 0%R | Part _ _ v :: ls | Total _ v :: ls => (v + shares ls)%R end.
