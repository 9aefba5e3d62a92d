(** Functions that walk the object graph (chumpy/ch.py).  They look at attributes
    only, so they are modelled over the attribute graph. *)
From stdpp Require Import gmap strings list.
From Verif Require Import EngineModel EngineSpec.

Section graph.
Context (L : lib).
Notation graph := (gmap oid (core L)).

(** [getattr(self, k) for k in ks if hasattr(self, k)], those that are Ch objects.
    Attributes that are Python properties are not modelled. *)
Definition refs (c : core L) (ks : list name) : list oid :=
  omap (λ k, match c_attr L c !! k with Some (ARef p) => Some p | _ => None end) ks.
Definition kids (c : core L) : list oid := refs c (c_dt L c).

(** is_dr_wrt (ch.py:485-489).  any(\[...\]) evaluates the whole list first; [n]
    bounds the recursion depth. *)
Fixpoint is_dr_wrt (n : nat) (g : graph) (o w : oid) : option bool :=
  match n with
  | O => None
  | S n' =>
    match g !! o with
    | None => None
    | Some c =>
      if is_base L (c_cls L c) then Some (bool_decide (o = w))
      else if decide (w ∈ kids c) then Some true
      else existsb id <$> mapM (λ d, is_dr_wrt n' g d w) (kids c)
    end
  end.

(** tree_iterator (ch.py:1088-1110), without [path]: the objects yielded, in order,
    and the visited set (one mutable set shared by the recursive calls). *)
Fixpoint tree (n : nat) (g : graph) (o : oid) (vis : gset oid) : option (list oid * gset oid) :=
  match n with
  | O => None
  | S n' =>
    match g !! o with
    | None => None
    | Some c =>
      if decide (o ∈ vis) then Some ([], vis)
      else foldl (λ acc p, '(l, vis) ← acc; '(l', vis') ← tree n' g p vis; Some (l ++ l', vis'))
                 (Some ([o], {[o]} ∪ vis)) (kids c)
    end
  end.
Definition tree_iterator (g : graph) (o : oid) : option (list oid) :=
  fst <$> tree (S (size g)) g o ∅.

(** dfs_do_func_on_graph (utils.py:36-41) calls a function on what tree_iterator
    yields; the function must not change the graph. *)
Definition dfs_do_func {A} (f : oid → A) (g : graph) (o : oid) : option (list A) :=
  match tree_iterator g o with Some l => Some (f <$> l) | None => None end.

(** loop_children_do (ch.py:852-859): no visited set. *)
Fixpoint loop_children (n : nat) (g : graph) (o : oid) : option (list oid) :=
  match n with
  | O => None
  | S n' =>
    match g !! o with
    | None => None
    | Some c => ls ← mapM (loop_children n' g) (kids c); Some (o :: concat ls)
    end
  end.

(** replace (ch.py:454-464) for Ch objects [old] and [new].  Assignments are
    recorded (most recent last) and applied to the attribute graph as they happen;
    [w] is the unused wrapper id that [gassign] asks for. *)
Fixpoint replace (n : nat) (w o old new : oid) (g : graph)
  : option (graph * list (oid * name * aval L * oid)) :=
  match n with
  | O => None
  | S n' =>
    match g !! o with
    | None => None
    | Some c =>
      foldl (λ acc k,
        '(g, l) ← acc;
        match g !! o with
        | None => None
        | Some c =>
          match c_attr L c !! k with
          | Some (ARef p) =>
            if decide (p = old) then
              let s := (o, k, ARef new, w) in Some (gassign L g s, l ++ [s])
            else '(g', l') ← replace n' w p old new g; Some (g', l ++ l')
          | _ => Some (g, l)
          end
        end) (Some (g, []))
        (filter (λ k, is_Some (c_attr L c !! k)) (c_dt L c ++ c_tm L c))
    end
  end.

End graph.
