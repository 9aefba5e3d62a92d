(** Model of copying an object graph: copy() is pickle.loads(pickle.dumps(self))
    (chumpy/ch_ops.py:96-97), with __getstate__ and __setstate__ of ch.py:344-359. *)
From stdpp Require Import gmap strings list.
From Verif Require Import EngineModel.

Section copy.
Context (L : lib).
Notation heap := (gmap oid (node L)).
Notation node := (node L).

(** The objects held in the attributes of an object, and the order in which pickle
    finishes objects: depth first, each once (save and its memo; Python's dict order of
    attributes is replaced by that of [map_to_list]).  [n] bounds the depth. *)
Definition held (g : gmap oid (core L)) (x : oid) : list oid :=
  match g !! x with
  | Some c => omap (λ kv : name * aval L, match kv.2 with ARef p => Some p | _ => None end)
                (map_to_list (c_attr L c))
  | None => []
  end.
Fixpoint walk_order (n : nat) (g : gmap oid (core L)) (x : oid) (seen : list oid) : list oid :=
  if decide (x ∈ seen) then seen
  else match n with
       | O => seen
       | S n' => foldl (λ s p, walk_order n' g p s) seen (held g x) ++ [x]
       end.

(** pickle replaces every reference to an object by a reference to its copy, the same
    copy each time (the memo of the pickle module, which is not modelled). [rn] says
    which new object stands for which old one. *)
Definition ren_val (rn : oid → oid) (a : aval L) : aval L :=
  match a with AVal t => AVal t | ARef p => ARef (rn p) end.
Definition ren_core (rn : oid → oid) (c : core L) : core L :=
  Core L (c_cls L c) (c_dt L c) (c_tm L c) (ren_val rn <$> c_attr L c).

(** The new object after [object.__setattr__(self, '__dict__', d)] (ch.py:344-355): the
    attributes, _dirty_vars, _itr and _depends_on_deps come from the pickle, the two
    weak dictionaries are new. *)
Definition restored (rn : oid → oid) (n : node) : node :=
  Node L (ren_core rn (n_core L n)) ∅ None ∅ (n_dirty L n) (n_itr L n) (n_pc L n).

(** [term._parents[self]['varnames'].remove(name)] raises KeyError (ch.py:385-387): the
    object held already knows [self] as a parent, but not under this name. *)
Definition remove_fails (h : heap) (self : oid) (k : name) : bool :=
  match h !! self with
  | None => false
  | Some nd =>
    if is_base L (c_cls L (n_core L nd)) then false
    else if decide (k ∈ c_dt L (n_core L nd)) then
      match c_attr L (n_core L nd) !! k with
      | Some (ARef p) =>
        match h !! p with
        | Some np => match n_par L np !! self with
                     | Some ks => bool_decide (k ∉ ks)
                     | None => false
                     end
        | None => false
        end
      | _ => false
      end
    else false
  end.

(** The loop of __setstate__ (ch.py:358-359) over [ks], the names in
    set(self.dterms).intersection(self.__dict__) in the order the set yields them.
    [None] is KeyError.  (Dterms of every object but a basic one hold objects, which
    need no wrapping.) *)
Fixpoint relink (h : heap) (self : oid) (c : core L) (ks : list name) : option heap :=
  match ks with
  | [] => Some h
  | k :: ks' =>
    match c_attr L c !! k with
    | None => relink h self c ks'
    | Some v =>
      if remove_fails h self k then None
      else relink (set_attr L None h self k v) self c ks'
    end
  end.

(** pickle.loads: the objects of [out] are rebuilt one after the other from their states
    in [h0], the heap when dumps ran.  [ord x] is the order in which __setstate__ of the
    copy of [x] visits its names. *)
Fixpoint loads (rn : oid → oid) (ord : oid → list name) (h0 h : heap) (out : list oid)
  : option heap :=
  match out with
  | [] => Some h
  | x :: out' =>
    match h0 !! x with
    | None => None
    | Some nd =>
      match relink (<[rn x := restored rn nd]> h) (rn x) (ren_core rn (n_core L nd)) (ord x) with
      | None => None
      | Some h' => loads rn ord h0 h' out'
      end
    end
  end.

Definition copies (rn : oid → oid) (ord : oid → list name) (out : list oid) (h : heap) : option heap :=
  loads rn ord h h out.

(** The same on states: no user code runs. *)
Definition copy_state rn ord out (st : state L) : option (state L) :=
  match copies rn ord out (st_h L st) with
  | Some h => Some (St L h (st_log L st))
  | None => None
  end.

(** Histories in which objects are also copied.  A copy() that raises leaves nothing
    behind: the half-built objects are unreachable. *)
Inductive act :=
| Op (a : op L)
| Copy (rn : oid → oid) (ord : oid → list name) (o : oid) (out : list oid).

Definition act_step (a : act) (st : state L) : state L :=
  match a with
  | Op b => step L b st
  | Copy rn ord _ out => match copy_state rn ord out st with Some st' => st' | None => st end
  end.
Definition perform (l : list act) (st : state L) : state L := foldl (λ st a, act_step a st) st l.

End copy.
