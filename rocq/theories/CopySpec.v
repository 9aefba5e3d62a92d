(** What a copy of an object graph should be.  Nothing here mentions caches or parent
    links. *)
From stdpp Require Import gmap strings list relations.
From Verif Require Import EngineModel EngineSpec CopyModel.

Section spec.
Context (L : lib).
Notation graph := (gmap oid (core L)).

(** [refers g x p]: some attribute of [x] holds [p]. *)
Definition refers (g : graph) (x p : oid) : Prop :=
  ∃ c k, g !! x = Some c ∧ c_attr L c !! k = Some (ARef p).
(** Everything pickled along with [o]. *)
Definition reach (g : graph) : oid → oid → Prop := rtc (refers g).

Definition before {A} (l : list A) (a b : A) : Prop :=
  ∃ i j, l !! i = Some a ∧ l !! j = Some b ∧ i < j.

(** The order in which pickle rebuilds objects that do not refer to themselves in a
    circle: everything reachable from [o], once, what an object refers to before it. *)
Record pickle_order (g : graph) (o : oid) (out : list oid) : Prop := {
  po_once : NoDup out;
  po_all : ∀ x, x ∈ out ↔ reach g o x;
  po_first : ∀ x p, x ∈ out → refers g x p → before out p x
}.

(** [ord x] enumerates the dterms of [x] that are set. *)
Definition set_order (g : graph) (ord : oid → list name) (out : list oid) : Prop :=
  ∀ x c, x ∈ out → g !! x = Some c →
    NoDup (ord x) ∧ ∀ k, k ∈ ord x ↔ k ∈ c_dt L c ∧ is_Some (c_attr L c !! k).

(** The copies are new objects, one for each original. *)
Definition new_ids (g : graph) (rn : oid → oid) (out : list oid) : Prop :=
  (∀ x, x ∈ out → rn x ∉ dom g) ∧ (∀ x y, x ∈ out → y ∈ out → rn x = rn y → x = y).

(** No object holds the same object under two of its dterms. *)
Definition no_double (g : graph) (out : list oid) : Prop :=
  ∀ x k1 k2 p, x ∈ out → edge L g x k1 p → edge L g x k2 p → k1 = k2.

(** [c'] is [c] with every object replaced by its copy. *)
Record corresponds (rn : oid → oid) (c c' : core L) : Prop := {
  cr_cls : c_cls L c' = c_cls L c;
  cr_dt : c_dt L c' = c_dt L c;
  cr_tm : c_tm L c' = c_tm L c;
  cr_val : ∀ k t, c_attr L c' !! k = Some (AVal t) ↔ c_attr L c !! k = Some (AVal t);
  cr_ref : ∀ k p', c_attr L c' !! k = Some (ARef p') ↔ ∃ p, c_attr L c !! k = Some (ARef p) ∧ p' = rn p
}.

(** The graph after copying: the old objects are what they were, each object copied has
    a counterpart that refers to the counterparts, and there is nothing else. *)
Record copied_graph (rn : oid → oid) (out : list oid) (g g' : graph) : Prop := {
  cg_old : ∀ x, x ∈ dom g → g' !! x = g !! x;
  cg_new : ∀ x c, x ∈ out → g !! x = Some c → ∃ c', g' !! rn x = Some c' ∧ corresponds rn c c';
  cg_only : ∀ y, y ∈ dom g' → y ∈ dom g ∨ ∃ x, x ∈ out ∧ y = rn x
}.

(** A copy is made of an existing object, and pickle does its job. *)
Definition copy_ok (g : graph) (rn : oid → oid) (ord : oid → list name) (o : oid) (out : list oid) : Prop :=
  o ∈ dom g ∧ pickle_order g o out ∧ set_order g ord out ∧ new_ids g rn out.

(** Histories of calls and copies that make sense. *)
Definition act_ok (used : gset Z) (a : act L) (g : graph) : Prop :=
  match a with
  | Op _ b => op_ok L used b g
  | Copy _ rn ord o out => copy_ok g rn ord o out
  end.
Definition act_tags (a : act L) : gset Z := match a with Op _ b => op_tags L b | _ => ∅ end.
Fixpoint tags_after (l : list (act L)) (used : gset Z) : gset Z :=
  match l with [] => used | a :: l' => tags_after l' (act_tags a ∪ used) end.
Fixpoint acts_ok (used : gset Z) (l : list (act L)) (st : state L) : Prop :=
  match l with
  | [] => True
  | a :: l' => act_ok used a (cores L (st_h L st)) ∧ acts_ok (act_tags a ∪ used) l' (act_step L a st)
  end.

(** The call does not assign to an object of [X], nor collect it. *)
Definition avoids (X : oid → Prop) (a : act L) : Prop :=
  match a with
  | Op _ (OCollect _ Y) => ∀ x, x ∈ Y → ¬ X x
  | Op _ b => ∀ s, s ∈ assignments L b → ¬ X s.1.1.1
  | Copy _ _ _ _ _ => True
  end.

Definition the_copies (rn : oid → oid) (out : list oid) (y : oid) : Prop := ∃ x, x ∈ out ∧ y = rn x.
Definition the_originals (out : list oid) (y : oid) : Prop := y ∈ out.

End spec.
