(** A spreadsheet: cells with values, and names with formulas over cells. *)
From stdpp Require Import list numbers gmap.
From Verif Require Import BlendModel BlendSpec SessModel.

Section spec.
  Context {N : numpy}.
  Notation V := (arrays N).
  Record sheet := Sheet { count : nat; value : nat → V; formula : nat → option (prog N) }.
  Definition put {A} (f : nat → A) (k : nat) (x : A) : nat → A := λ i, if decide (i = k) then x else f i.
  Definition blank (v : V) : sheet := Sheet 0 (λ _, v) (λ _, None).
  (** An expression with the formulas of its names. *)
  Fixpoint inline (f : nat → option (prog N)) (p : prog N) : option (prog N) :=
    match p with
    | PVar y => f y
    | PArr v => Some (PArr v)
    | POper o p q => p' ← inline f p; q' ← inline f q; Some (POper o p' q')
    | PCh1 g p => PCh1 g <$> inline f p
    | PCh2 g p q => p' ← inline f p; q' ← inline f q; Some (PCh2 g p' q')
    | PNp1 g p => PNp1 g <$> inline f p
    | PNp2 g p q => p' ← inline f p; q' ← inline f q; Some (PNp2 g p' q')
    | PArray p => PArray <$> inline f p
    | PAsarray p => PAsarray <$> inline f p
    end.
  (** The cell a formula is another name of. *)
  Fixpoint cell_of (p : prog N) : option nat :=
    match p with PVar k => Some k | PAsarray p => cell_of p | _ => None end.
  Definition sheet_step (t : sheet) (s : stmt N) : option sheet :=
    match s with
    | SNew y v => Some (Sheet (S (count t)) (put (value t) (count t) v) (put (formula t) y (Some (PVar (count t)))))
    | SBind y p => q ← inline (formula t) p; Some (Sheet (count t) (value t) (put (formula t) y (Some q)))
    | SAssign y v => q ← formula t y; k ← cell_of q; Some (Sheet (count t) (put (value t) k v) (formula t))
    end.
  Fixpoint sheet_run (t : sheet) (l : list (stmt N)) : option sheet :=
    match l with [] => Some t | s :: l => t' ← sheet_step t s; sheet_run t' l end.
  (** All formulas apply numpy's own functions and ch.array to arrays only. *)
  Definition clean_stmt (t : sheet) (s : stmt N) : Prop :=
    match s with SBind _ p => ∀ q, inline (formula t) p = Some q → open q | _ => True end.
  Fixpoint clean (t : sheet) (l : list (stmt N)) : Prop :=
    match l with [] => True | s :: l => clean_stmt t s ∧ ∀ t', sheet_step t s = Some t' → clean t' l end.
  (** No statement raises in numpy, divides an array by an object or assigns to what is not
      a cell. *)
  Definition fine_stmt (t : sheet) (s : stmt N) : Prop :=
    match s with
    | SNew _ _ => True
    | SBind _ p => ∃ q, inline (formula t) p = Some q ∧ divides_objects q ∧ is_Some (meaning (value t) q)
    | SAssign y _ => ∃ q k, formula t y = Some q ∧ cell_of q = Some k
    end.
  Fixpoint fine (t : sheet) (l : list (stmt N)) : Prop :=
    match l with [] => True | s :: l => fine_stmt t s ∧ ∀ t', sheet_step t s = Some t' → fine t' l end.
  Definition shown (t : sheet) (y : nat) : option V := q ← formula t y; meaning (value t) q.
  (** For sessions that also apply numpy's own functions and ch.array to objects: the
      expression with what these give now. *)
  Fixpoint freeze (e : nat → V) (p : prog N) : option (prog N) :=
    match p with
    | PVar k => Some (PVar k)
    | PArr v => Some (PArr v)
    | POper o p q => p' ← freeze e p; q' ← freeze e q; Some (POper o p' q')
    | PCh1 g p => PCh1 g <$> freeze e p
    | PCh2 g p q => p' ← freeze e p; q' ← freeze e q; Some (PCh2 g p' q')
    | PNp1 _ _ | PNp2 _ _ _ => PArr <$> meaning e p
    | PArray p => v ← meaning e p; Some (PArray (PArr v))
    | PAsarray p => PAsarray <$> freeze e p
    end.
  Definition frozen_step (t : sheet) (s : stmt N) : option sheet :=
    match s with
    | SBind y p =>
        q ← inline (formula t) p; q' ← freeze (value t) q;
        Some (Sheet (count t) (value t) (put (formula t) y (Some q')))
    | _ => sheet_step t s
    end.
  Fixpoint frozen_run (t : sheet) (l : list (stmt N)) : option sheet :=
    match l with [] => Some t | s :: l => t' ← frozen_step t s; frozen_run t' l end.
End spec.
Arguments sheet : clear implicits.
