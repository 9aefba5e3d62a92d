(** Specification: dependence and formats. *)
From Coq Require Import Reals.
From stdpp Require Import gmap list.
From Verif Require Import ArrModel RepModel RepSpec RepOpsSpec FmtModel.

(** The graph without its flags. *)
Definition plain (g : fgraph) : rgraph := base <$> g.

(** There is a path of local Jacobians other than None from [o] to [w]. *)
Inductive linked (g : rgraph) (w : nat) : nat → Prop :=
| linked_here o nd : g !! o = Some nd → is_Some (jac nd w) → linked g w o
| linked_below o nd p : g !! o = Some nd → p ∈ ops nd → p ≠ w → is_Some (jac nd p) → linked g w p → linked g w o.

(** The format is the one that was asked for. *)
Definition as_asked (nd : fnode) (res : option rep) : Prop :=
  match res with
  | Some (Spr _ _ _) => dense nd = true → sparse nd = true
  | Some _ => sparse nd = false
  | None => True
  end.

(** The condition on the classes from C49. *)
Definition fine (g : rgraph) (size : nat → nat) (w : nat) (J : nat → nat → mat) : Prop :=
  ∀ o, proper g size J (λ _, true) o ∧ sums_few g size w J o ∨ handle g size J o.

(** make_sparse is only set on objects that depend on [w] and are no mere handles of [w]. *)
Definition flags_fit (g : fgraph) (size : nat → nat) (w : nat) (J : nat → nat → mat) : Prop :=
  ∀ o nd, g !! o = Some nd → sparse nd = true → linked (plain g) w o ∧ ¬ alias (plain g) size w J o.

(** A call on another object than the variable. *)
Definition other (w : nat) (e : event) : Prop := match e with Ask _ o => o ≠ w | Drop _ => True end.
(** [o] has one parent at the time of the call. *)
Definition single (o : nat) (e : event) : Prop := match e with Ask par _ => par o = 1 | Drop _ => True end.
