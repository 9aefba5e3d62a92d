(** Model of Ch.sid and Ch.remove_redundancy (chumpy/ch.py:184-249).

    Plain values are compared by [id] in the code; here by equality, so two arrays
    with the same contents that are different Python objects are different elements
    of [Val L] (a library may take pairs of an identity and contents). *)
From stdpp Require Import gmap strings list sorting.
From Verif Require Import EngineModel.

Section redun.
Context (L : lib) `{EqDecision (Cls L), EqDecision (Val L)}.
Notation heap := (gmap oid (node L)).

Global Instance aval_eq_dec : EqDecision (aval L).
Proof. solve_decision. Defined.

(** The semantic id (ch.py:184-189): the class and the identities of the terms and
    dterms that are set, in the order of their names. *)
Definition sid_t : Type := Cls L * list (name * aval L).
Definition name_le (a b : name) : Prop := String.leb a b = true.
Global Instance name_le_dec a b : Decision (name_le a b) := decide (String.leb a b = true).
Definition sid_names (c : core L) : list name := merge_sort name_le (c_tm L c ++ c_dt L c).
Definition sid (c : core L) : sid_t :=
  (c_cls L c, omap (λ k, (λ a, (k, a)) <$> c_attr L c !! k) (sid_names c)).

(** The dictionary [cache]: newest entry last; keys are never overwritten. *)
Definition memo : Type := list (sid_t * oid).
Fixpoint known (s : sid_t) (m : memo) : option oid :=
  match m with
  | [] => None
  | (s', p) :: m' => if decide (s' = s) then Some p else known s m'
  end.

(** [self.__dict__\[k\] = q] (ch.py:237): no links, no clearing. *)
Definition rewire (h : heap) (o : oid) (k : name) (q : oid) : heap :=
  alter (map_core L (write L k (ARef q))) o h.

Definition attr_of (h : heap) (o : oid) (k : name) : option (aval L) :=
  match h !! o with Some nd => c_attr L (n_core L nd) !! k | None => None end.

(** What happens to one operand [p] of [o] (ch.py:233-238): the new graph, the new
    dictionary and whether a replacement took place. *)
Definition merge1 (o : oid) (k : name) (p : oid) (np : node L) (h : heap) (m : memo)
  : heap * memo * bool :=
  match known (sid (n_core L np)) m with
  | None => (h, m ++ [(sid (n_core L np), p)], false)
  | Some q => if decide (p = q) then (h, m, false) else (rewire h o k q, m, true)
  end.

(** The loop over dterms (ch.py:228-240).  [rec] is the call on the operand; the
    result [None] is an exception (KeyError for a dterm that is not set). *)
Fixpoint merge_loop (rec : oid → heap → memo → heap * memo * option bool) (o : oid)
    (ks : list name) (h : heap) (m : memo) (occ : bool) : heap * memo * option bool :=
  match ks with
  | [] => (h, m, Some occ)
  | k :: ks' =>
    match attr_of h o k with
    | None => (h, m, None)
    | Some (AVal _) => merge_loop rec o ks' h m occ
    | Some (ARef p) =>
      match h !! p with
      | None => (h, m, None)
      | Some np =>
        let '(h1, m1, b) := merge1 o k p np h m in
        match rec p h1 m1 with
        | (h2, m2, Some b') => merge_loop rec o ks' h2 m2 (occ || b || b')
        | (h2, m2, None) => (h2, m2, None)
        end
      end
    end
  end.

(** remove_redundancy(cache, iterate=False); [n] bounds the recursion depth. *)
Fixpoint sweep (n : nat) (o : oid) (h : heap) (m : memo) : heap * memo * option bool :=
  match n with
  | O => (h, m, None)
  | S n' =>
    match h !! o with
    | None => (h, m, None)
    | Some nd => merge_loop (sweep n') o (c_dt L (n_core L nd)) h m false
    end
  end.

(** remove_redundancy(cache, iterate=True) (ch.py:242-249): [r] bounds the number
    of recursive calls of line 246.  [None]: an exception, among them the
    RecursionError of running out of [r] or [n]. *)
Fixpoint sweeps (r n : nat) (o : oid) (h : heap) (m : memo) : heap * option unit :=
  match r with
  | O => (h, None)
  | S r' =>
    match sweep n o h m with
    | (h', m', Some true) => sweeps r' n o h' m'
    | (h', _, Some false) => (h', Some tt)
    | (h', _, None) => (h', None)
    end
  end.

(** remove_redundancy() (ch.py:221-249): the value is read first. *)
Definition remove_redundancy (r n : nat) (o : oid) (st : state L) : state L * option unit :=
  match read L n o QR st with
  | (st1, Some _) =>
    let '(h', res) := sweeps r n o (st_h L st1) [] in (St L h' (st_log L st1), res)
  | (st1, None) => (st1, None)
  end.
End redun.
