(** Model of ChLambda (chumpy/ch.py:1236-1273): an expression built once over
    placeholder handles, whose arguments are attributes of the lambda object.  Its
    on_changed method assigns to the handles, so reading now changes attributes;
    the rest of the object graph is the one of EngineModel. *)
From stdpp Require Import gmap strings list.
From Verif Require Import EngineModel EngineSpec GraphModel.

Section lam.
Context (L : lib).
Context (is_lam : Cls L → bool).
Notation heap := (gmap oid (node L)).
Notation state := (state L).

(** self.args of all lambda objects (ch.py:1258), inverted: handle, its lambda object,
    its argument name.  Simplified: only arguments the body depends on are recorded;
    on_changed assigns to the other handles too, which the body does not contain. *)
Definition registry := gmap oid (oid * name).

(** [ls_terms]: the names appended so far to the list ChLambda.terms, which is an
    attribute of the class (ch.py:1237, 1256). *)
Record lstate := LSt { ls_st : state; ls_reg : registry; ls_terms : list name }.

(** The body of the loop of on_changed (ch.py:1242-1243) for one argument:
    self.args\[argname\].x = getattr(self, argname). *)
Definition pass_arg (f : oid) (h : heap) (hd : oid) (k : name) : heap :=
  match h !! f with
  | Some nf => match c_attr L (n_core L nf) !! k with
               | Some v => set_attr L None h hd "x"%string v
               | None => h
               end
  | None => h
  end.

(** on_changed (ch.py:1241-1243): the arguments of [f] among [which].  Objects that
    are not lambda objects have no arguments (Ch.on_changed does nothing). *)
Definition on_changed (reg : registry) (f : oid) (which : gset name) (h : heap) : heap :=
  foldl (λ h e, if decide (e.2.1 = f ∧ e.2.2 ∈ which) then pass_arg f h e.1 e.2.2 else h)
        h (map_to_list reg).

(** _call_on_changed (ch.py:580-590): the dirty set is emptied after on_changed. *)
Definition fire_l (reg : registry) (o : oid) (st : state) : state :=
  match st_h L st !! o with
  | Some nd =>
    if decide (n_dirty L nd = ∅) then st
    else emit L (EvChanged o (n_dirty L nd))
           (on_heap L (λ h, alter (set_dirty L ∅) o (on_changed reg o (n_dirty L nd) h)) st)
  | None => st
  end.

(** What a method of [o] asks for, looked up when it asks.  @depends_on properties are
    left out here (see [lam_lib_ok]). *)
Definition ask_l (rd : oid → state → state * option (Arr L)) (o : oid) (q : req) (st : state)
  : state * option (Arr L) :=
  match q with
  | RSelf => rd o st
  | RProp _ => (st, None)
  | RChild k =>
    match st_h L st !! o with
    | Some nd => match c_attr L (n_core L nd) !! k with
                 | Some (ARef p) => rd p st
                 | _ => (st, None)
                 end
    | None => (st, None)
    end
  end.

(** The r property (ch.py:592-600): on_changed first, then the cache is looked at. *)
Fixpoint read_l (reg : registry) (n : nat) (o : oid) (st : state) : state * option (Arr L) :=
  match n with
  | O => (st, None)
  | S n' =>
    let st1 := fire_l reg o st in
    match st_h L st1 !! o with
    | None => (st1, None)
    | Some nd =>
      match n_r L nd with
      | Some v => (st1, Some v)
      | None =>
        match run L (ask_l (read_l reg n') o) (emit L (EvCompute o) st1)
                  (compute_r L (c_cls L (n_core L nd)) (plain L (n_core L nd))) with
        | (st2, Some v) => (on_heap L (alter (set_r L (Some v)) o) st2, Some v)
        | (st2, None) => (st2, None)
        end
      end
    end
  end.

(** self.terms.append(name) (ch.py:1256): the list belongs to the class, so every lambda
    object has the name among its terms from now on. *)
Definition add_term (k : name) (c : core L) : core L :=
  if is_lam (c_cls L c) then Core L (c_cls L c) (c_dt L c) (c_tm L c ++ [k]) (c_attr L c)
  else c.
Definition leak (k : name) (h : heap) : heap := map_core L (add_term k) <$> h.

(** The terms of ChLambda as written (ch.py:1237). *)
Definition lam_terms : list name := ["lmb"%string; "initial_args"%string].

Definition attr_of (h : heap) (o : oid) (k : name) : option (aval L) :=
  match h !! o with Some nd => c_attr L (n_core L nd) !! k | None => None end.

(** result.is_dr_wrt(cpl_args\[argname\].x) (ch.py:1253). *)
Definition uses_arg (h : heap) (result hd : oid) : option bool :=
  match attr_of h hd "x"%string with
  | Some (ARef p) => is_dr_wrt L (S (size h)) (cores L h) result p
  | _ => None
  end.

(** The loop over the arguments (ch.py:1252-1257), with the answers of is_dr_wrt. *)
Fixpoint take_args (f : oid) (args : list (name * oid * bool)) (h : heap) (ts : list name)
  : heap * list name :=
  match args with
  | [] => (h, ts)
  | (k, hd, used) :: args' =>
    match attr_of h hd "x"%string with
    | Some v =>
      if used then take_args f args' (set_attr L None h f k v) ts
      else take_args f args' (set_attr L None (leak k h) f k v) (ts ++ [k])
    | None => (h, ts)
    end
  end.

Fixpoint register (f : oid) (args : list (name * oid * bool)) (reg : registry) : registry :=
  match args with
  | [] => reg
  | (k, hd, used) :: args' =>
    register f args' (if used then <[hd := (f, k)]> reg else reg)
  end.

Fixpoint mark_args (h : heap) (result : oid) (args : list (name * oid)) : option (list (name * oid * bool)) :=
  match args with
  | [] => Some []
  | (k, hd) :: args' =>
    match uses_arg h result hd, mark_args h result args' with
    | Some b, Some l => Some ((k, hd, b) :: l)
    | _, _ => None
    end
  end.

Definition used_names (args : list (name * oid * bool)) : list name :=
  omap (λ a : name * oid * bool, if a.2 then Some a.1.1 else None) args.

(** __init__ (ch.py:1245-1259) once the handles exist and the function has been called on
    them: [args] are the argument names and handles, [result] what it returned.  The
    dterms added one by one by add_dterm (ch.py:337-339) are given to the new object at
    once.  If is_dr_wrt fails (attributes forming a cycle) nothing is made. *)
Definition make_lambda (c : Cls L) (f : oid) (args : list (name * oid)) (result : oid) (ls : lstate)
  : lstate :=
  let h := st_h L (ls_st ls) in
  match mark_args h result args with
  | None => ls
  | Some margs =>
    let h0 := <[f := fresh_node L c (used_names margs ++ ["_result"%string])
                       (lam_terms ++ ls_terms ls)]> h in
    let '(h1, ts) := take_args f margs h0 (ls_terms ls) in
    LSt (on_heap L (λ _, set_attr L None h1 f "_result"%string (ARef result)) (ls_st ls))
        (register f margs (ls_reg ls)) ts
  end.

(** The calls of a history: creating an object, assigning an attribute, reading .r,
    making a lambda object. *)
Inductive lop :=
| LNew (o : oid) (c : Cls L) (dt tm : list name)
| LSet (o : oid) (k : name) (v : aval L) (o' : oid)
| LRead (n : nat) (o : oid)
| LMake (c : Cls L) (f : oid) (args : list (name * oid)) (result : oid).

Definition lstep (a : lop) (ls : lstate) : lstate :=
  match a with
  | LNew o c dt tm =>
    LSt (on_heap L (<[o := fresh_node L c dt tm]>) (ls_st ls)) (ls_reg ls) (ls_terms ls)
  | LSet o k v o' =>
    LSt (on_heap L (λ h, assign L None h o k v o') (ls_st ls)) (ls_reg ls) (ls_terms ls)
  | LRead n o => LSt (read_l (ls_reg ls) n o (ls_st ls)).1 (ls_reg ls) (ls_terms ls)
  | LMake c f args result => make_lambda c f args result ls
  end.
Definition lexec (l : list lop) (ls : lstate) : lstate := foldl (λ ls a, lstep a ls) ls l.
Definition lstart : lstate := LSt (St L ∅ []) ∅ [].

End lam.
