(** Model of ChInputsStacked.on_changed and of the check and the initial vector of
    setup_objective (optimization_internal.py:73-98, 131-134, 144), on top of the object
    graph of EngineModel.v.

    Simplified: arrays are seen through [arrays] below (the list of their elements in
    C order and how an array of the same shape is made from another list); free
    variables other than basic objects and chains of Select over basic objects raise
    here, where the code raises AttributeError or replaces the operand of an operator
    that happens to have one called x; _giter is a parameter. *)
From stdpp Require Import gmap strings list.
From Verif Require Import EngineModel.

Section model.
Context (L : lib).
Notation heap := (gmap oid (node L)).
Notation state := (state L).

Record arrays := Arrays {
  El : Type;
  is_sel : Cls L → bool;                  (* isinstance(.., ch.Select)             *)
  ravel : Arr L → list El;                (* v.ravel()                             *)
  flat : Val L → list El;                 (* x.ravel()                             *)
  refill : Val L → list El → Val L;       (* x.copy() overwritten; .reshape(shape) *)
  idx : Val L → list nat                  (* the positions in Select.idxs          *)
}.
Context (A : arrays).

(** l[rng] for a list of positions; out of range is IndexError. *)
Definition take_at {X} (l : list X) (ix : list nat) : option (list X) :=
  mapM (λ j, l !! j) ix.

(** l[ix] = vs *)
Definition put_at {X} (l : list X) (ix : list nat) (vs : list X) : option (list X) :=
  if decide (length ix = length vs ∧ Forall (λ j, j < length l) ix)
  then Some (foldl (λ l' (p : nat * X), <[p.1 := p.2]> l') l (zip ix vs))
  else None.

(** The while loop over nested Selects (optimization_internal.py:82-86); [n] bounds it. *)
Fixpoint chase (n : nat) (h : heap) (a : oid) (selects : list (list nat))
  : option (list (list nat) * oid) :=
  match n with
  | O => None
  | S n' =>
    match h !! a with
    | None => None
    | Some nd =>
      if is_sel A (c_cls L (n_core L nd)) then
        match c_attr L (n_core L nd) !! "idxs"%string, c_attr L (n_core L nd) !! "a"%string with
        | Some (AVal s), Some (ARef p) => chase n' h p (idx A s :: selects)
        | _, _ => None
        end
      else Some (selects, a)
    end
  end.

(** idxs = selects.pop(), then idxs = idxs[selects.pop()]
    (optimization_internal.py:88-90); the head of the list is the last appended. *)
Definition compose (selects : list (list nat)) : option (list nat) :=
  match selects with
  | [] => None
  | ix :: rest => foldl (λ acc s, acc ≫= λ i, take_at i s) (Some ix) rest
  end.

(** One turn of the loop (optimization_internal.py:77-98). *)
Definition sync1 (n : nat) (i : Z) (X f : oid) (pos : nat) (st : state) : state * option nat :=
  match read L n f QR st with
  | (st1, Some v) =>
    let rng := seq pos (length (ravel A v)) in
    match chase n (st_h L st1) f [] with
    | None => (st1, None)
    | Some (selects, a) =>
      match (st_h L st1 !! a) ≫= λ nd,
              if is_base L (c_cls L (n_core L nd)) then c_attr L (n_core L nd) !! "x"%string else None with
      | Some (AVal t) =>
        match read L n X QR st1 with
        | (st2, Some u) =>
          let write := λ l : list (El A),
            (on_heap L (λ h, set_attr L (Some i) h a "x"%string (AVal (refill A t l))) st2,
             Some (pos + length (ravel A v))) in
          match take_at (ravel A u) rng with
          | None => (st2, None)
          | Some vs =>
            match selects with
            | [] => write vs
            | _ => match compose selects ≫= λ ix, put_at (flat A t) ix vs with
                   | Some l => write l
                   | None => (st2, None)
                   end
            end
          end
        | (st2, None) => (st2, None)
        end
      | _ => (st1, None)
      end
    end
  | (st1, None) => (st1, None)
  end.

Fixpoint sync (n : nat) (i : Z) (X : oid) (fs : list oid) (pos : nat) (st : state)
  : state * option nat :=
  match fs with
  | [] => (st, Some pos)
  | f :: fs' => match sync1 n i X f pos st with
                | (st1, Some pos') => sync n i X fs' pos' st1
                | (st1, None) => (st1, None)
                end
  end.

(** on_changed of the stacked object [s], called by _call_on_changed (ch.py:588-590):
    the dirty set is emptied after the call. [None]: an exception. *)
Definition stacked_changed (n : nat) (i : Z) (s X : oid) (fs : list oid) (which : gset name)
    (st : state) : state * option nat :=
  if decide ("x"%string ∈ which) then
    match sync n i X fs 0 st with
    | (st1, Some p) => (fire L s st1, Some p)
    | (st1, None) => (st1, None)
    end
  else (fire L s st, Some 0).

(** setup_objective: the check for duplicates and the initial vector
    (optimization_internal.py:131-134, 144); np.concatenate([]) raises. *)
Fixpoint ravel_all (n : nat) (fs : list oid) (st : state) : state * option (list (El A)) :=
  match fs with
  | [] => (st, Some [])
  | f :: fs' => match read L n f QR st with
                | (st1, Some v) =>
                  match ravel_all n fs' st1 with
                  | (st2, Some vs) => (st2, Some (ravel A v ++ vs))
                  | (st2, None) => (st2, None)
                  end
                | (st1, None) => (st1, None)
                end
  end.
Definition start_vector (n : nat) (fs : list oid) (st : state) : state * option (list (El A)) :=
  if decide (length (remove_dups fs) = length fs) then
    match fs with [] => (st, None) | _ => ravel_all n fs st end
  else (st, None).

End model.
