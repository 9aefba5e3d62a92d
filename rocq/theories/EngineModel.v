(** Model of the object graph of chumpy: attributes, parent links, caches,
    invalidation, lazy evaluation and derivatives (chumpy/ch.py).

    Classes are described by a library record [lib]: [compute_r],
    [compute_dr_wrt] and @depends_on property bodies are programs that may read
    plain attributes, their own [.r], their own properties and the [.r] of
    objects held in attributes, in any order, and may raise. *)
From stdpp Require Import gmap strings list sorting.

Notation name := string.
Definition oid := nat.
Global Instance oid_eq_dec : EqDecision oid := _.
Global Instance oid_countable : Countable oid := _.

(** What a method body may ask for while it runs. *)
Inductive req :=
| RSelf                (* self.r                       *)
| RChild (k : name)    (* self.k.r                     *)
| RProp (k : name).    (* self.k, a @depends_on property *)

(** Method bodies; [A] is the type of array values. *)
Inductive prog (A R : Type) : Type :=
| PRet (r : R)
| PRaise
| PAsk (q : req) (f : A → prog A R).
Global Arguments PRet {A R}.
Global Arguments PRaise {A R}.
Global Arguments PAsk {A R}.

(** A class library.  [Val] are plain (non-Ch) attribute values, [Arr] the
    values of [.r] (after the atleast_1d/asarray of ch.py:596), [Jac] Jacobians.
    - [is_base]: type(self) == Ch (ch.py:366).
    - [is_permute]: issubclass(.., Permute) (ch.py:296).
    - [compute_dr c ts self names]: compute_dr_wrt(wrt) where [self] tells whether
      wrt is self and [names] are the dterms k with [wrt is self.k].
    - [prop_deps]: the declared dependencies of each @depends_on property
      (ch.py:1194-1201).
    - [as_array]: np.asarray(value, np.float64) of Ch(value) (ch.py:124).
    Sparse/dense representation of Jacobians is not modelled. *)
Record lib := Lib {
  Cls : Type; Val : Type; Arr : Type; Jac : Type;
  is_base : Cls → bool;
  is_permute : Cls → bool;
  compute_r : Cls → gmap name Val → prog Arr Arr;
  compute_dr : Cls → gmap name Val → bool → list name → prog Arr (option Jac);
  prop_deps : Cls → gmap name (gset name);
  compute_prop : Cls → name → gmap name Val → prog Arr Arr;
  as_array : Val → Val;
  base_cls : Cls;
  jadd : Jac → Jac → Jac;
  jmul : Jac → Jac → Jac;
  jT : Jac → Jac
}.

Section engine.
Context (L : lib).

(** An attribute holds a plain value or a Ch object. *)
Inductive aval := AVal (t : Val L) | ARef (o : oid).

(** The user-visible part of an object: its class, its dterms and terms and its
    attributes (ch.py:72-73, 1115-1117 for per-instance dterms). *)
Record core := Core {
  c_cls : Cls L;
  c_dt : list name;
  c_tm : list name;
  c_attr : gmap name aval
}.

(** The bookkeeping part: _parents, _cache['r'], _cache['drs'], _dirty_vars, _itr
    (ch.py:95-98) and the up-to-date entries of _depends_on_deps (ch.py:112-118);
    an out_of_date property is an absent entry. *)
Record node := Node {
  n_core : core;
  n_par : gmap oid (gset name);
  n_r : option (Arr L);
  n_dr : gmap oid (option (Jac L));
  n_dirty : gset name;
  n_itr : option Z;
  n_pc : gmap name (Arr L)
}.

Notation heap := (gmap oid node).
Definition cores (h : heap) : gmap oid core := n_core <$> h.

(** Plain attributes visible to method bodies. *)
Definition plain (c : core) : gmap name (Val L) :=
  omap (λ a, match a with AVal t => Some t | ARef _ => None end) (c_attr c).

(** dterms k with [w is self.k]. *)
Definition is_ref (w : oid) (a : option aval) : bool :=
  match a with Some (ARef p) => bool_decide (p = w) | _ => false end.
Definition matches (c : core) (w : oid) : list name :=
  filter (λ k, is_ref w (c_attr c !! k)) (c_dt c).

(* ------------------------------------------------------------------ *)
(** Record updates. *)
Definition map_core (f : core → core) (n : node) : node :=
  Node (f (n_core n)) (n_par n) (n_r n) (n_dr n) (n_dirty n) (n_itr n) (n_pc n).
Definition map_par (f : gmap oid (gset name) → gmap oid (gset name)) (n : node) : node :=
  Node (n_core n) (f (n_par n)) (n_r n) (n_dr n) (n_dirty n) (n_itr n) (n_pc n).
Definition set_r (r : option (Arr L)) (n : node) : node :=
  Node (n_core n) (n_par n) r (n_dr n) (n_dirty n) (n_itr n) (n_pc n).
Definition map_dr (f : gmap oid (option (Jac L)) → gmap oid (option (Jac L))) (n : node) : node :=
  Node (n_core n) (n_par n) (n_r n) (f (n_dr n)) (n_dirty n) (n_itr n) (n_pc n).
Definition set_dirty (d : gset name) (n : node) : node :=
  Node (n_core n) (n_par n) (n_r n) (n_dr n) d (n_itr n) (n_pc n).
Definition map_pc (f : gmap name (Arr L) → gmap name (Arr L)) (n : node) : node :=
  Node (n_core n) (n_par n) (n_r n) (n_dr n) (n_dirty n) (n_itr n) (f (n_pc n)).
Definition write (k : name) (v : aval) (c : core) : core :=
  Core (c_cls c) (c_dt c) (c_tm c) (<[k := v]> (c_attr c)).

(* ------------------------------------------------------------------ *)
(** _invalidate_cacheprop_names (ch.py:409-413). *)
Definition deps_of (c : core) (p : name) : gset name :=
  default ∅ (prop_deps L (c_cls c) !! p).

Definition invalidate (ks : gset name) (n : node) : node :=
  map_pc (filter (λ pv, deps_of (n_core n) pv.1 ∩ ks = ∅)) n.

(** What clear_cache does to one parent (ch.py:430-431). *)
Definition touch (ks : gset name) (n : node) : node :=
  invalidate ks (set_dirty (n_dirty n ∪ ks) n).

(** What clear_cache does to the node itself (ch.py:425-427). *)
Definition clear_node (itr : option Z) (n : node) : node :=
  Node (n_core n) (n_par n) None ∅ (n_dirty n) itr (n_pc n).

Definition touch_parents (ps : list (oid * gset name)) (h : heap) : heap :=
  foldl (λ h p, alter (touch p.2) p.1 h) h ps.

(** clear_cache (ch.py:416-435).  [todo] is the Python list with its end (the
    popped side) as head; [done] the set of ids; [cnt] is nodes_visited.  A
    collected parent has left the weak dictionary, so ids missing from the heap
    never occur; they are skipped. *)
Fixpoint clear_loop (fuel : nat) (itr : option Z) (h : heap)
    (todo : list oid) (done : gset oid) (cnt : nat) : option (heap * nat) :=
  match todo with
  | [] => Some (h, cnt)
  | nx :: todo' =>
    match fuel with
    | O => None
    | S fuel' =>
      match h !! nx with
      | None => clear_loop fuel' itr h todo' done (S cnt)
      | Some nd =>
        if decide (itr ≠ None ∧ itr = n_itr nd) then
          clear_loop fuel' itr h todo' done (S cnt)
        else if decide (nx ∈ done) then
          clear_loop fuel' itr h todo' done (S cnt)
        else
          let ps := map_to_list (n_par nd) in
          clear_loop fuel' itr
            (touch_parents ps (alter (clear_node itr) nx h))
            (reverse (ps.*1) ++ todo') ({[nx]} ∪ done) (S cnt)
      end
    end
  end.

(** Enough iterations for every graph: one plus the number of parent links
    (theorem [clear_cache_total]). *)
Definition n_parents (h : heap) (o : oid) : nat :=
  match h !! o with Some nd => size (n_par nd) | None => 0 end.
Definition n_links (h : heap) : nat :=
  sum_list_with (n_parents h) (elements (dom h)).

Definition clear_run (itr : option Z) (h : heap) (o : oid) : option (heap * nat) :=
  clear_loop (S (n_links h)) itr h [o] ∅ 0.

Definition clear_cache (itr : option Z) (h : heap) (o : oid) : heap :=
  match clear_run itr h o with Some (h', _) => h' | None => h end.

(* ------------------------------------------------------------------ *)
(** Parent bookkeeping of __setattr__ (ch.py:383-395).  [unlink]: self leaves the
    old value's _parents entry under this name, the entry goes when empty. *)
Definition unlink (self : oid) (k : name) (m : gmap oid (gset name)) : gmap oid (gset name) :=
  match m !! self with
  | None => m
  | Some ks => let ks' := ks ∖ {[k]} in
               if decide (ks' = ∅) then delete self m else <[self := ks']> m
  end.
Definition link (self : oid) (k : name) (m : gmap oid (gset name)) : gmap oid (gset name) :=
  match m !! self with
  | None => <[self := {[k]}]> m
  | Some ks => <[self := {[k]} ∪ ks]> m
  end.

(** __setattr__ (ch.py:361-407) for a value that needs no wrapping. Links change
    first, then the cache is cleared, and the attribute is written last. *)
Definition set_attr (itr : option Z) (h : heap) (o : oid) (k : name) (v : aval) : heap :=
  match h !! o with
  | None => h
  | Some nd =>
    if is_base L (c_cls (n_core nd)) then
      let h1 := if decide (k = "x"%string)
                then clear_cache itr (alter (λ n, set_dirty (n_dirty n ∪ {[k]}) n) o h) o
                else h in
      alter (map_core (write k v)) o h1
    else
      let h1 :=
        if decide (k ∈ c_dt (n_core nd)) then
          let h0 := match c_attr (n_core nd) !! k with
                    | Some (ARef old) => alter (map_par (unlink o k)) old h
                    | _ => h
                    end in
          match v with
          | ARef p => alter (map_par (link o k)) p h0
          | AVal _ => h0
          end
        else h in
      let h2 :=
        if decide (k ∈ c_dt (n_core nd) ∨ k ∈ c_tm (n_core nd)) then
          clear_cache itr
            (alter (λ n, invalidate {[k]} (set_dirty (n_dirty n ∪ {[k]}) n)) o h1) o
        else h1 in
      alter (map_core (write k v)) o h2
  end.

(** An object just created by __new__, before set() (ch.py:86-118). *)
Definition fresh_node (c : Cls L) (dt tm : list name) : node :=
  Node (Core c dt tm ∅) ∅ None ∅ ∅ None ∅.

(** Ch(value) (ch.py:123-129): the new object is given id [o]. *)
Definition new_base (h : heap) (o : oid) (t : Val L) : heap :=
  set_attr None (<[o := fresh_node (base_cls L) ["x"%string] []]> h) o "x"
           (AVal (as_array L t)).

(** __setattr__ with wrapping of plain values given to a dterm (ch.py:379-381);
    [o'] is the id of the wrapper, if one is made. *)
Definition assign (itr : option Z) (h : heap) (o : oid) (k : name) (v : aval) (o' : oid) : heap :=
  match h !! o, v with
  | Some nd, AVal t =>
    if is_base L (c_cls (n_core nd)) then set_attr itr h o k v
    else if decide (k ∈ c_dt (n_core nd)) then
      set_attr itr (new_base h o' t) o k (ARef o')
    else set_attr itr h o k v
  | _, _ => set_attr itr h o k v
  end.

(** set with keyword arguments (ch.py:467-482): [kws] lists the keywords in the order in which
    they are processed, each with the id its wrapper would get. *)
Fixpoint set_kw (h : heap) (o : oid) (kws : list (name * aval * oid)) : heap :=
  match kws with
  | [] => h
  | [(k, v, o')] => assign None h o k v o'
  | (k, v, o') :: kws' => set_kw (assign (Some 9999%Z) h o k v o') o kws'
  end.

(* ------------------------------------------------------------------ *)
(** Garbage collection of a set of objects: they disappear from the heap and from
    every weak dictionary (_parents, _cache['drs']; ch.py:97-98). *)
Definition forget (S : gset oid) (n : node) : node :=
  map_dr (filter (λ p, p.1 ∉ S)) (map_par (filter (λ p, p.1 ∉ S)) n).
Definition collect (S : gset oid) (h : heap) : heap :=
  forget S <$> filter (λ p, p.1 ∉ S) h.

(* ------------------------------------------------------------------ *)
(** Reads.  The log records the calls made into user code. *)
Inductive event :=
| EvChanged (o : oid) (ks : gset name)   (* on_changed(ks)    *)
| EvCompute (o : oid)                    (* compute_r()       *)
| EvDr (o w : oid)                       (* compute_dr_wrt(w) *)
| EvProp (o : oid) (k : name).           (* property body     *)

Record state := St { st_h : heap; st_log : list event }.

Definition on_heap (f : heap → heap) (st : state) : state := St (f (st_h st)) (st_log st).
Definition emit (e : event) (st : state) : state := St (st_h st) (e :: st_log st).

(** _call_on_changed (ch.py:580-590), without is_valid. *)
Definition fire (o : oid) (st : state) : state :=
  match st_h st !! o with
  | Some nd =>
    if decide (n_dirty nd = ∅) then st
    else emit (EvChanged o (n_dirty nd)) (on_heap (alter (set_dirty ∅) o) st)
  | None => st
  end.

(** Running a method body; [None] is a raised exception, the state reached is kept. *)
Fixpoint run {R} (ask : req → state → state * option (Arr L)) (st : state)
    (p : prog (Arr L) R) : state * option R :=
  match p with
  | PRet r => (st, Some r)
  | PRaise => (st, None)
  | PAsk q f =>
    match ask q st with
    | (st', Some v) => run ask st' (f v)
    | (st', None) => (st', None)
    end
  end.

(** What is being read of an object: [.r] or a property. *)
Inductive what := QR | QProp (k : name).

(** Resolving a request made by a method of [o] whose attributes are [c]. *)
Definition resolve {S T} (rd : oid → what → S → T) (fail : S → T)
    (o : oid) (c : core) (q : req) (st : S) : T :=
  match q with
  | RSelf => rd o QR st
  | RProp k => rd o (QProp k) st
  | RChild k => match c_attr c !! k with
                | Some (ARef p) => rd p QR st
                | _ => fail st
                end
  end.
Definition raise {A} (st : state) : state * option A := (st, None).

(** The r property (ch.py:592-600) and with_caching of @depends_on
    (ch.py:1207-1216).  [n] bounds the recursion depth: running out is RecursionError. *)
Fixpoint read (n : nat) (o : oid) (w : what) (st : state) : state * option (Arr L) :=
  match n with
  | O => (st, None)
  | S n' =>
    match st_h st !! o with
    | None => (st, None)
    | Some nd =>
      let c := n_core nd in
      match w with
      | QR =>
        let st1 := fire o st in
        match n_r nd with
        | Some v => (st1, Some v)
        | None =>
          match run (resolve (read n') raise o c) (emit (EvCompute o) st1)
                    (compute_r L (c_cls c) (plain c)) with
          | (st2, Some v) => (on_heap (alter (set_r (Some v)) o) st2, Some v)
          | (st2, None) => (st2, None)
          end
        end
      | QProp k =>
        match prop_deps L (c_cls c) !! k with
        | None => (st, None)
        | Some _ =>
          match n_pc nd !! k with
          | Some v => (st, Some v)
          | None =>
            match run (resolve (read n') raise o c) (emit (EvProp o k) st)
                      (compute_prop L (c_cls c) k (plain c)) with
            | (st2, Some v) => (on_heap (alter (map_pc (<[k := v]>)) o) st2, Some v)
            | (st2, None) => (st2, None)
            end
          end
        end
      end
    end
  end.

(** self.compute_dr_wrt(w) *)
Definition direct (n : nat) (o w : oid) (st : state) : state * option (option (Jac L)) :=
  match st_h st !! o with
  | None => (st, None)
  | Some nd =>
    let c := n_core nd in
    run (resolve (read n) raise o c) (emit (EvDr o w) st)
        (compute_dr L (c_cls c) (plain c) (bool_decide (o = w)) (matches c w))
  end.

(** The while loop of _compute_dr_wrt_sliced (ch.py:295-303): walk from the view
    [inner] to the arrays it is taken from, until one is found that [o] has a direct
    derivative for.  Running out of [m] stands for a loop that never ends (a
    cyclic chain of views). *)
Fixpoint walk (m n : nat) (o inner : oid) (st : state)
  : state * option (option (oid * Jac L)) :=
  match m with
  | O => (st, None)
  | S m' =>
    match st_h st !! inner with
    | None => (st, None)
    | Some ni =>
      if is_permute L (c_cls (n_core ni)) then
        match c_attr (n_core ni) !! "a"%string with
        | Some (ARef p) =>
          if decide (p = o) then (st, Some None)
          else match direct n o p st with
               | (st', Some (Some j)) => (st', Some (Some (p, j)))
               | (st', Some None) => walk m' n o p st'
               | (st', None) => (st', None)
               end
        | _ => (st, None)
        end
      else (st, Some None)
    end
  end.

(** _compute_dr_wrt_sliced (ch.py:283-312); None.T raises AttributeError. *)
Definition sliced (n : nat) (o w : oid) (st : state) : state * option (option (Jac L)) :=
  match direct n o w (fire o st) with
  | (st1, Some (Some j)) => (st1, Some (Some j))
  | (st1, Some None) =>
    match walk n n o w st1 with
    | (st2, Some (Some (inner, j))) =>
      match direct n w inner (fire w st2) with
      | (st3, Some (Some jw)) => (st3, Some (Some (jmul L j (jT L jw))))
      | (st3, _) => (st3, None)
      end
    | (st2, Some None) => (st2, Some None)
    | (st2, None) => (st2, None)
    end
  | (st1, None) => (st1, None)
  end.

(** The loop over dterms of dr_wrt (ch.py:757-786), forward mode, with compute_rop
    (ch.py:723-727) inlined; [acc] is drs. *)
Fixpoint dr_loop (rd : oid → state → state * option (option (Jac L))) (n : nat)
    (o w : oid) (c : core) (ks : list name) (acc : list (Jac L)) (st : state)
  : state * option (list (Jac L)) :=
  match ks with
  | [] => (st, Some acc)
  | k :: ks' =>
    match c_attr c !! k with
    | Some (ARef p) =>
      if decide (p = w) then dr_loop rd n o w c ks' acc st
      else match rd p st with
           | (st1, Some (Some j2)) =>
             match sliced n o p st1 with
             | (st2, Some (Some d)) => dr_loop rd n o w c ks' (acc ++ [jmul L d j2]) st2
             | (st2, Some None) => dr_loop rd n o w c ks' acc st2
             | (st2, None) => (st2, None)
             end
           | (st1, Some None) => dr_loop rd n o w c ks' acc st1
           | (st1, None) => (st1, None)
           end
    | _ => dr_loop rd n o w c ks' acc st
    end
  end.

(** reduce(lambda x, y: x+y, drs) (ch.py:788-797) *)
Definition reduce_jac (l : list (Jac L)) : option (Jac L) :=
  match l with
  | [] => None
  | j :: l' => Some (foldl (jadd L) j l')
  end.

Definition opt_list {A} (x : option A) : list A := match x with Some a => [a] | None => [] end.

(** dr_wrt (ch.py:729-834), forward mode. The result is cached when the number of
    parents is not one. *)
Fixpoint read_dr (n : nat) (o w : oid) (st : state) : state * option (option (Jac L)) :=
  match n with
  | O => (st, None)
  | S n' =>
    match st_h st !! o with
    | None => (st, None)
    | Some nd =>
      let c := n_core nd in
      let st1 := fire o st in
      match n_dr nd !! w with
      | Some jo => (st1, Some jo)
      | None =>
        match sliced n' o w st1 with
        | (st2, Some d) =>
          match dr_loop (λ p, read_dr n' p w) n' o w c (c_dt c) (opt_list d) st2 with
          | (st3, Some l) =>
            let jo := reduce_jac l in
            (if decide (size (n_par nd) = 1) then st3
             else on_heap (alter (map_dr (<[w := jo]>)) o) st3, Some jo)
          | (st3, None) => (st3, None)
          end
        | (st2, None) => (st2, None)
        end
      end
    end
  end.

(* ------------------------------------------------------------------ *)
(** Histories. *)
Inductive op :=
| ONew (o : oid) (c : Cls L) (dt tm : list name)
| OSet (o : oid) (k : name) (v : aval) (o' : oid)
| OSetKw (o : oid) (kws : list (name * aval * oid))
| OBatch (i : Z) (sets : list (oid * name * aval * oid))
| OClear (o : oid)
| ORead (n : nat) (o : oid) (w : what)
| OReadDr (n : nat) (o w : oid)
| OCollect (X : gset oid).

Definition batch (i : Z) (sets : list (oid * name * aval * oid)) (h : heap) : heap :=
  foldl (λ h s, match s with (o, k, v, o') => assign (Some i) h o k v o' end) h sets.

Definition step (a : op) (st : state) : state :=
  match a with
  | ONew o c dt tm => on_heap (<[o := fresh_node c dt tm]>) st
  | OSet o k v o' => on_heap (λ h, assign None h o k v o') st
  | OSetKw o kws => on_heap (λ h, set_kw h o kws) st
  | OBatch i sets => on_heap (batch i sets) st
  | OClear o => on_heap (λ h, clear_cache None h o) st
  | ORead n o w => fst (read n o w st)
  | OReadDr n o w => fst (read_dr n o w st)
  | OCollect X => on_heap (collect X) st
  end.

Definition init : state := St ∅ [].
Definition exec (l : list op) (st : state) : state := foldl (λ st a, step a st) st l.

End engine.

Global Arguments AVal {L}. Global Arguments ARef {L}.
