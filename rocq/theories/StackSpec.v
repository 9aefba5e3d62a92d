(** Specification of the optimizer's flat vector: which elements of which basic
    object a free variable shows, and what it means that graph [g'] is [g] with a
    vector spread over the free variables. *)
From stdpp Require Import gmap strings list.
From Verif Require Import EngineModel EngineSpec StackModel.

Section spec.
Context (L : lib) (A : arrays L).
Notation graph := (gmap oid (core L)).
Notation flat := (flat L A).
Notation ravel := (ravel L A).

(** What is needed of arrays: overwriting keeps the shape, a basic object shows its
    x, and a Select (reordering.py:276-288) shows the chosen elements of its operand. *)
Record arrays_ok : Prop := {
  ao_refill : ∀ t l, length l = length (flat t) → flat (refill L A t l) = l;
  ao_base : ∀ c ts t, is_base L c = true → ts !! "x"%string = Some t →
    ∃ v, (∀ ask, runp L ask (compute_r L c ts) = Some v) ∧ ravel v = flat t;
  ao_sel : ∀ c, is_sel L A c = true → is_base L c = false;
  ao_sel_r : ∀ c ts s u ask, is_sel L A c = true → ts !! "idxs"%string = Some s →
    ask (RChild "a") = Some u → Forall (λ j, j < length (ravel u)) (idx L A s) →
    ∃ v, runp L ask (compute_r L c ts) = Some v ∧
         Forall2 (λ j e, ravel u !! j = Some e) (idx L A s) (ravel v)
}.

(** [shows g d f a ix]: the elements of [f] are the elements [ix] of the basic object
    [a], through [d] nested Selects. *)
Inductive shows (g : graph) : nat → oid → oid → list nat → Prop :=
| shows_base a c t :
    g !! a = Some c → is_base L (c_cls L c) = true → c_attr L c !! "x"%string = Some (AVal t) →
    shows g 0 a a (seq 0 (length (flat t)))
| shows_sel d f a p c s ix ix' :
    g !! f = Some c → is_sel L A (c_cls L c) = true → c_dt L c = ["a"%string] →
    c_attr L c !! "a"%string = Some (ARef p) → c_attr L c !! "idxs"%string = Some (AVal s) →
    shows g d p a ix →
    Forall2 (λ j e, ix !! j = Some e) (idx L A s) ix' →
    shows g (S d) f a ix'.

(** A free variable with what it shows. *)
Record item := Item { i_var : oid; i_depth : nat; i_base : oid; i_ix : list nat }.
Definition total (its : list item) : nat := sum_list ((λ it, length (i_ix it)) <$> its).

(** The new contents of one base: the elements [ix] are a segment of the vector,
    the others are as before, nothing but x changes. *)
Definition spread1 (g g' : graph) (vec : list (El L A)) (pos : nat) (it : item) : Prop :=
  ∃ c t t', g !! i_base it = Some c ∧ c_attr L c !! "x"%string = Some (AVal t) ∧
    g' !! i_base it = Some (write L "x"%string (AVal t') c) ∧
    length (flat t') = length (flat t) ∧
    (∀ q j, i_ix it !! q = Some j → flat t' !! j = vec !! (pos + q)) ∧
    (∀ j, j ∉ i_ix it → flat t' !! j = flat t !! j).

Fixpoint spread_items (g g' : graph) (vec : list (El L A)) (pos : nat) (its : list item) : Prop :=
  match its with
  | [] => True
  | it :: its' => spread1 g g' vec pos it ∧
                  spread_items g g' vec (pos + length (i_ix it)) its'
  end.

(** [g'] is [g] with [vec] spread over the items. *)
Definition spread (g g' : graph) (vec : list (El L A)) (its : list item) : Prop :=
  spread_items g g' vec 0 its ∧ ∀ x, x ∉ (i_base <$> its) → g' !! x = g !! x.

(** Every variable reads as its segment of the vector. *)
Fixpoint segments (rd : oid → Arr L → Prop) (vec : list (El L A)) (pos : nat) (its : list item) : Prop :=
  match its with
  | [] => True
  | it :: its' => (∃ v, rd (i_var it) v ∧ ravel v = take (length (i_ix it)) (drop pos vec)) ∧
                  segments rd vec (pos + length (i_ix it)) its'
  end.

(** The free variables considered: each shows distinct elements of its own base. *)
Record items_ok (g : graph) (X : oid) (its : list item) : Prop := {
  io_shows : Forall (λ it, shows g (i_depth it) (i_var it) (i_base it) (i_ix it)) its;
  io_nodup : Forall (λ it, NoDup (i_ix it)) its;
  io_bases : NoDup (i_base <$> its);
  io_x : X ∉ (i_base <$> its)
}.

(** The vector of the optimizer, held by the basic object [X]. *)
Definition holds (g : graph) (X : oid) (vec : list (El L A)) : Prop :=
  ∃ c t, g !! X = Some c ∧ is_base L (c_cls L c) = true ∧
         c_attr L c !! "x"%string = Some (AVal t) ∧ flat t = vec.

(** A call of on_changed makes sense: a number not used before, variables as above,
    a vector long enough, and stack enough for the nested Selects. *)
Record sync_ready (used : gset Z) (g : graph) (n : nat) (i : Z) (X : oid) (its : list item)
    (vec : list (El L A)) (which : gset name) : Prop := {
  sr_new : i ∉ used;
  sr_9999 : i ≠ 9999%Z;
  sr_items : items_ok g X its;
  sr_holds : holds g X vec;
  sr_total : total its ≤ length vec;
  sr_stack : Forall (λ it, i_depth it < n) its;
  sr_which : "x"%string ∈ which
}.

(** States reached by ordinary calls and by on_changed of stacked objects, with the
    numbers used. *)
Inductive reached : gset Z → state L → Prop :=
| reached_init : reached ∅ (init L)
| reached_op used st a : reached used st → op_ok L used a (cores L (st_h L st)) →
    reached (op_tags L a ∪ used) (step L a st)
| reached_sync used st n i s X its vec which st' p : reached used st →
    sync_ready used (cores L (st_h L st)) n i X its vec which →
    stacked_changed L A n i s X (i_var <$> its) which st = (st', Some p) →
    reached ({[i]} ∪ used) st'.

End spec.
