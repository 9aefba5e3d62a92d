(** Specification of the object graph: cache-free evaluation, dependence, the
    contract classes must obey, and which histories are considered.  Nothing here
    mentions caches or parent links. *)
From stdpp Require Import gmap strings list relations.
From Verif Require Import EngineModel.

Section spec.
Context (L : lib).
Notation graph := (gmap oid (core L)).

(** Bottom-up recomputation from attributes only. *)
Fixpoint runp {R} (ask : req → option (Arr L)) (p : prog (Arr L) R) : option R :=
  match p with
  | PRet r => Some r
  | PRaise => None
  | PAsk q f => match ask q with Some v => runp ask (f v) | None => None end
  end.

Definition answer (rd : oid → what → option (Arr L)) (o : oid) (c : core L) (q : req)
  : option (Arr L) :=
  match q with
  | RSelf => rd o QR
  | RProp k => rd o (QProp k)
  | RChild k => match c_attr L c !! k with Some (ARef p) => rd p QR | _ => None end
  end.

Fixpoint eval (n : nat) (g : graph) (o : oid) (w : what) : option (Arr L) :=
  match n with
  | O => None
  | S n' =>
    match g !! o with
    | None => None
    | Some c =>
      match w with
      | QR => runp (answer (eval n' g) o c) (compute_r L (c_cls L c) (plain L c))
      | QProp k =>
        match prop_deps L (c_cls L c) !! k with
        | None => None
        | Some _ => runp (answer (eval n' g) o c) (compute_prop L (c_cls L c) k (plain L c))
        end
      end
    end
  end.

(** [denotes g o w v]: recomputing from scratch (with enough stack) gives [v]. *)
Definition denotes (g : graph) (o : oid) (w : what) (v : Arr L) : Prop :=
  ∃ n, eval n g o w = Some v.

(** The chain-rule recursion, from scratch. Outer [None]: raises. *)
Definition pdirect (n : nat) (g : graph) (o w : oid) : option (option (Jac L)) :=
  match g !! o with
  | None => None
  | Some c => runp (answer (eval n g) o c)
                (compute_dr L (c_cls L c) (plain L c) (bool_decide (o = w)) (matches L c w))
  end.

(** Following a reordering view to the array it is a view of. *)
Fixpoint pwalk (m n : nat) (g : graph) (o inner : oid) : option (option (oid * Jac L)) :=
  match m with
  | O => None
  | S m' =>
    match g !! inner with
    | None => None
    | Some c =>
      if is_permute L (c_cls L c) then
        match c_attr L c !! "a"%string with
        | Some (ARef p) =>
          if decide (p = o) then Some None
          else match pdirect n g o p with
               | Some (Some j) => Some (Some (p, j))
               | Some None => pwalk m' n g o p
               | None => None
               end
        | _ => None
        end
      else Some None
    end
  end.

Definition psliced (n : nat) (g : graph) (o w : oid) : option (option (Jac L)) :=
  match pdirect n g o w with
  | Some (Some j) => Some (Some j)
  | Some None =>
    match pwalk n n g o w with
    | Some (Some (inner, j)) =>
      match pdirect n g w inner with
      | Some (Some jw) => Some (Some (jmul L j (jT L jw)))
      | _ => None
      end
    | Some None => Some None
    | None => None
    end
  | None => None
  end.

Fixpoint pdr_loop (rd : oid → option (option (Jac L))) (n : nat) (g : graph)
    (o w : oid) (c : core L) (ks : list name) (acc : list (Jac L)) : option (list (Jac L)) :=
  match ks with
  | [] => Some acc
  | k :: ks' =>
    match c_attr L c !! k with
    | Some (ARef p) =>
      if decide (p = w) then pdr_loop rd n g o w c ks' acc
      else match rd p with
           | Some (Some j2) =>
             match psliced n g o p with
             | Some (Some d) => pdr_loop rd n g o w c ks' (acc ++ [jmul L d j2])
             | Some None => pdr_loop rd n g o w c ks' acc
             | None => None
             end
           | Some None => pdr_loop rd n g o w c ks' acc
           | None => None
           end
    | _ => pdr_loop rd n g o w c ks' acc
    end
  end.

Fixpoint drval (n : nat) (g : graph) (o w : oid) : option (option (Jac L)) :=
  match n with
  | O => None
  | S n' =>
    match g !! o with
    | None => None
    | Some c =>
      match psliced n' g o w with
      | Some d =>
        match pdr_loop (λ p, drval n' g p w) n' g o w c (c_dt L c) (opt_list d) with
        | Some l => Some (reduce_jac L l)
        | None => None
        end
      | None => None
      end
    end
  end.

Definition dr_denotes (g : graph) (o w : oid) (j : option (Jac L)) : Prop :=
  ∃ n, drval n g o w = Some j.

(** [w] is not a reordering view (subclass of Permute). *)
Definition not_view (g : graph) (w : oid) : Prop :=
  ∃ c, g !! w = Some c ∧ is_permute L (c_cls L c) = false.

(* ------------------------------------------------------------------ *)
(** Dependence. *)
Definition edge (g : graph) (o : oid) (k : name) (p : oid) : Prop :=
  ∃ c, g !! o = Some c ∧ is_base L (c_cls L c) = false ∧ k ∈ c_dt L c ∧
       c_attr L c !! k = Some (ARef p).
Definition child (g : graph) (o p : oid) : Prop := ∃ k, edge g o k p.
(** [dep g o p]: o is p or depends on p. *)
Definition dep (g : graph) : oid → oid → Prop := rtc (child g).

(* ------------------------------------------------------------------ *)
(** The class contract. *)
Fixpoint uses {R} (P : req → Prop) (p : prog (Arr L) R) : Prop :=
  match p with
  | PRet _ => True
  | PRaise => True
  | PAsk q f => P q ∧ ∀ v, uses P (f v)
  end.

(** compute_r and compute_dr_wrt read the values of dterms, of self and of
    declared properties only. *)
Definition asks_tracked (c : Cls L) (dt : list name) (q : req) : Prop :=
  match q with
  | RSelf => True
  | RChild k => k ∈ dt
  | RProp _ => True
  end.

(** A property body reads declared dependencies only, directly or through
    properties that declare no more than it does. *)
Definition asks_deps (c : Cls L) (ds : gset name) (q : req) : Prop :=
  match q with
  | RSelf => False
  | RChild k => k ∈ ds
  | RProp k => ∃ ds', prop_deps L c !! k = Some ds' ∧ ds' ⊆ ds
  end.

Definition agree (ks : gset name) (ts1 ts2 : gmap name (Val L)) : Prop :=
  ∀ k, k ∈ ks → ts1 !! k = ts2 !! k.

Definition tracked (dt tm : list name) : gset name := list_to_set dt ∪ list_to_set tm.

Record class_ok (c : Cls L) (dt tm : list name) : Prop := {
  co_r : ∀ ts, uses (asks_tracked c dt) (compute_r L c ts);
  co_r_agree : ∀ ts1 ts2, agree (tracked dt tm) ts1 ts2 →
    compute_r L c ts1 = compute_r L c ts2;
  co_dr : ∀ ts b ks, uses (asks_tracked c dt) (compute_dr L c ts b ks);
  co_dr_agree : ∀ ts1 ts2 b ks, agree (tracked dt tm) ts1 ts2 →
    compute_dr L c ts1 b ks = compute_dr L c ts2 b ks;
  co_deps : ∀ k ds, prop_deps L c !! k = Some ds → ds ⊆ tracked dt tm;
  co_prop : ∀ k ds ts, prop_deps L c !! k = Some ds →
    uses (λ q, asks_tracked c dt q ∧ asks_deps c ds q) (compute_prop L c k ts);
  co_prop_agree : ∀ k ds ts1 ts2, prop_deps L c !! k = Some ds → agree ds ts1 ts2 →
    compute_prop L c k ts1 = compute_prop L c k ts2;
  (* basic Ch objects have the one term x (ch.py:72-73) *)
  co_base : is_base L c = true → dt = ["x"%string] ∧ tm = [] ∧ prop_deps L c = ∅;
  (* reordering views keep their operand in the dterm a (reordering.py:18) *)
  co_permute : is_permute L c = true → is_base L c = false ∧ "a"%string ∈ dt
}.

Definition lib_ok : Prop :=
  is_base L (base_cls L) = true ∧ class_ok (base_cls L) ["x"%string] [].

(* ------------------------------------------------------------------ *)
(** Which operations make sense in a state: new ids are new, assigned objects
    exist, and the x of a basic Ch object is a plain value. *)
Definition assign_ok (g : graph) (o : oid) (k : name) (v : aval L) (o' : oid) : Prop :=
  ∃ c, g !! o = Some c ∧
  (is_base L (c_cls L c) = true → k = "x"%string → ∃ t, v = AVal t) ∧
  (∀ p, v = ARef p → p ∈ dom g) ∧
  o' ∉ dom g.

(** What an assignment does to attributes: a plain value given to a dterm is first
    wrapped in a new basic object [o']. *)
Definition base_core (t : Val L) : core L :=
  Core L (base_cls L) ["x"%string] [] {["x"%string := AVal (as_array L t)]}.

Definition gassign (g : graph) (s : oid * name * aval L * oid) : graph :=
  let '(o, k, v, o') := s in
  match g !! o with
  | None => g
  | Some c =>
    match v with
    | ARef _ => <[o := write L k v c]> g
    | AVal t =>
      if is_base L (c_cls L c) then <[o := write L k v c]> g
      else if decide (k ∈ c_dt L c)
      then <[o := write L k (ARef o') c]> (<[o' := base_core t]> g)
      else <[o := write L k v c]> g
    end
  end.

Fixpoint assigns_ok (g : graph) (sets : list (oid * name * aval L * oid)) : Prop :=
  match sets with
  | [] => True
  | (o, k, v, o') as s :: sets' => assign_ok g o k v o' ∧ assigns_ok (gassign g s) sets'
  end.

Definition kw_sets (o : oid) (kws : list (name * aval L * oid)) : list (oid * name * aval L * oid) :=
  (λ x, (o, x.1.1, x.1.2, x.2)) <$> kws.

Definition is_tracked (c : core L) (k : name) : Prop := k ∈ c_dt L c ∨ k ∈ c_tm L c.

(** set() clears the cache for good only when it processes its last keyword
    (ch.py:480-482); so either that one is a term or dterm, or none is. *)
Definition kws_ok (g : graph) (o : oid) (kws : list (name * aval L * oid)) : Prop :=
  ∀ c k v o', g !! o = Some c → last kws = Some (k, v, o') →
    is_tracked c k ∨ ∀ x, x ∈ kws → ¬ is_tracked c x.1.1.

(** The assignment of [o.k], which led to graph [g], concerns the attribute [d] of
    [x]: it is the assigned attribute, or an operand below which it happened. *)
Definition announced (g : graph) (o : oid) (k : name) (x : oid) (d : name) : Prop :=
  (x = o ∧ d = k) ∨ ∃ a, edge g x d a ∧ dep g a o.

(** No strong reference from the outside into a collected set. *)
Definition unreferenced (g : graph) (X : gset oid) : Prop :=
  ∀ o c k p, g !! o = Some c → c_attr L c !! k = Some (ARef p) → p ∈ X → o ∈ X.

(** A call makes sense in a graph; [used] are the iteration numbers of earlier
    tagged batches (9999 is the one set() uses). *)
Definition op_ok (used : gset Z) (a : op L) (g : graph) : Prop :=
  match a with
  | ONew _ o c dt tm => o ∉ dom g ∧ class_ok c dt tm
  | OSet _ o k v o' => assign_ok g o k v o'
  | OSetKw _ o kws => assigns_ok g (kw_sets o kws) ∧ kws_ok g o kws
  | OBatch _ i sets => i ∉ used ∧ i ≠ 9999%Z ∧ assigns_ok g sets
  | OClear _ o => True
  | ORead _ _ _ _ => True
  | OReadDr _ _ _ w => w ∈ dom g
  | OCollect _ X => unreferenced g X
  end.

Definition op_tags (a : op L) : gset Z :=
  match a with OBatch _ i _ => {[i]} | _ => ∅ end.

(** The machine without caches: what a call does to attributes. *)
Definition gstep (a : op L) (g : graph) : graph :=
  match a with
  | ONew _ o c dt tm => <[o := Core L c dt tm ∅]> g
  | OSet _ o k v o' => gassign g (o, k, v, o')
  | OSetKw _ o kws => foldl gassign g (kw_sets o kws)
  | OBatch _ _ sets => foldl gassign g sets
  | OClear _ _ => g
  | ORead _ _ _ _ => g
  | OReadDr _ _ _ _ => g
  | OCollect _ X => filter (λ p, p.1 ∉ X) g
  end.
Definition gexec (l : list (op L)) (g : graph) : graph := foldl (λ g a, gstep a g) g l.

Fixpoint valid_from (used : gset Z) (l : list (op L)) (g : graph) : Prop :=
  match l with
  | [] => True
  | a :: l' => op_ok used a g ∧ valid_from (op_tags a ∪ used) l' (gstep a g)
  end.

(** Histories that start with no objects. *)
Definition valid (l : list (op L)) : Prop := valid_from ∅ l ∅.

(* ------------------------------------------------------------------ *)
(** Which notifications are due.  [D x d]: the next on_changed call of [x] must
    report [d]. *)
Definition due := oid → name → Prop.
Definition nothing_due : due := λ _ _, False.

Definition tracks (g : graph) (o : oid) (k : name) : Prop :=
  ∃ c, g !! o = Some c ∧ is_tracked c k.

Definition due_assign (g : graph) (s : oid * name * aval L * oid) (D : due) : due := λ x d,
  let '(o, k, v, o') := s in
  D x d ∨ (tracks g o k ∧ announced (gassign g s) o k x d) ∨
  (* the x of a wrapper created by this assignment *)
  (g !! x = None ∧ is_Some (gassign g s !! x) ∧ d = "x"%string).

Fixpoint due_assigns (g : graph) (sets : list (oid * name * aval L * oid)) (D : due) : due :=
  match sets with
  | [] => D
  | s :: sets' => due_assigns (gassign g s) sets' (due_assign g s D)
  end.

(** [below g x d o]: o is, or is below, the operand [d] of [x]. *)
Definition below (g : graph) (x : oid) (d : name) (o : oid) : Prop :=
  ∃ a, edge g x d a ∧ dep g a o.

Definition assignments (a : op L) : list (oid * name * aval L * oid) :=
  match a with
  | OSet _ o k v o' => [(o, k, v, o')]
  | OSetKw _ o kws => kw_sets o kws
  | OBatch _ _ sets => sets
  | _ => []
  end.

(** Events added to the log (newest first) between two states. *)
Definition new_events (st st' : state L) : list event :=
  take (length (st_log L st') - length (st_log L st)) (st_log L st').

Definition due_step (a : op L) (g : graph) (evs : list event) (D : due) : due :=
  match a with
  | ONew _ o _ _ _ => λ x d, D x d ∧ x ≠ o
  | OClear _ o => λ x d, D x d ∨ below g x d o
  | ORead _ _ _ _ | OReadDr _ _ _ _ => λ x d, D x d ∧ ∀ ks, EvChanged x ks ∉ evs
  | OCollect _ X => λ x d, D x d ∧ x ∉ X
  | _ => due_assigns g (assignments a) D
  end.

Fixpoint due_after (l : list (op L)) (st : state L) (D : due) : due :=
  match l with
  | [] => D
  | a :: l' => due_after l' (step L a st) (due_step a (cores L (st_h L st)) (new_events st (step L a st)) D)
  end.

(* ------------------------------------------------------------------ *)
(** Histories that leave [o] alone: no assignment or explicit clearing of
    something [o] depends on, and [o] is not collected. *)
Fixpoint all_assigns (P : graph → oid → name → graph → Prop) (g : graph)
    (sets : list (oid * name * aval L * oid)) : Prop :=
  match sets with
  | [] => True
  | s :: sets' => P g s.1.1.1 s.1.1.2 (gassign g s) ∧ all_assigns P (gassign g s) sets'
  end.

Definition spares (P : graph → oid → name → graph → Prop) (C : graph → oid → Prop) (o : oid)
    (a : op L) (g : graph) : Prop :=
  match a with
  | OClear _ p => C g p
  | OCollect _ X => o ∉ X
  | _ => all_assigns P g (assignments a)
  end.
Fixpoint spares_all P C (o : oid) (l : list (op L)) (g : graph) : Prop :=
  match l with
  | [] => True
  | a :: l' => spares P C o a g ∧ spares_all P C o l' (gstep a g)
  end.

(** Nothing [o] depends on is touched. *)
Definition leaves_alone (o : oid) : list (op L) → graph → Prop :=
  spares_all (λ g p k _, tracks g p k → ¬ dep g o p) (λ g p, ¬ dep g o p) o.
(** None of the attributes [ds] of [o], nor anything below them, is touched. *)
Definition leaves_inputs_alone (o : oid) (ds : gset name) : list (op L) → graph → Prop :=
  spares_all (λ g p k g', tracks g p k → ∀ d, d ∈ ds → ¬ announced g' p k o d)
             (λ g p, ∀ d, d ∈ ds → ¬ below g o d p) o.

(* ------------------------------------------------------------------ *)
(** A call of user code that computes the value asked for. *)
Definition body (x : oid) (w : what) : event :=
  match w with QR => EvCompute x | QProp k => EvProp x k end.

(** Values and derivatives a user can obtain in a state, with enough stack. *)
Definition reads (st : state L) (o : oid) (w : what) (v : Arr L) : Prop :=
  ∃ m, (read L m o w st).2 = Some v.
Definition reads_dr (st : state L) (o w : oid) (j : option (Jac L)) : Prop :=
  ∃ m, (read_dr L m o w st).2 = Some j.

Definition is_read (a : op L) : Prop :=
  match a with ORead _ _ _ _ | OReadDr _ _ _ _ => True | _ => False end.

(** Separate assignments doing the same as a set() call or a tagged batch. *)
Definition separately (a : op L) : list (op L) :=
  (λ s, OSet L s.1.1.1 s.1.1.2 s.1.2 s.2) <$> assignments a.

(** A keyword list: different names, different new ids. *)
Definition kws_distinct (g : graph) (o : oid) (kws : list (name * aval L * oid)) : Prop :=
  is_Some (g !! o) ∧ NoDup ((λ x, x.1.1) <$> kws) ∧ NoDup (snd <$> kws) ∧
  ∀ x, x ∈ kws → x.2 ∉ dom g.

End spec.
