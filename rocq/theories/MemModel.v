(** Which arrays share memory: construction of basic objects, assignment of arrays and of
    elements, and the r property, over a memory of buffers. Derivatives, garbage collection and
    arrays that show part of another array are left out; elements are addressed by their
    position in C order. *)
From Coq Require Import Reals.
From stdpp Require Import list list_numbers numbers.

(** float64 in C order, float64 in another order, integers. *)
Inductive kind := Plain | Fort | Ints.
#[global] Instance kind_eq_dec : EqDecision kind.
Proof. solve_decision. Defined.

(** A buffer. *)
Record array := Arr { akind : kind; adata : list R }.

(** A numpy array: its buffer and flags.writeable. *)
Record ref := Ref { rloc : nat; rw : bool }.

(** Ch (ch.py:271-273); Reorder classes and Reshape whose result is a view of a.r
    (reordering.py:35-36, 170-171: reshape, ravel, ...); all other classes, whose compute_r
    fills a new buffer. *)
Inductive obj :=
| Leaf (x : ref)
| View (c : nat)
| Fun (f : list (list R) → list R) (cs : list nat).

(** An object and _cache['r']; _cache['rview'] shows the same buffer (ch.py:595-598). *)
Record cell := Cell { what : obj; memo : option nat }.

(** [seen]: the numpy arrays the user has. *)
Record st := St { mem : list array; objs : list cell; seen : list ref }.

Definition empty_st : st := St [] [] [].

Definition buf (s : st) (l : nat) : array := default (Arr Plain []) (mem s !! l).
Definition alloc (s : st) (a : array) : st * nat := (St (mem s ++ [a]) (objs s) (seen s), length (mem s)).
Definition push_obj (s : st) (o : obj) : st := St (mem s) (objs s ++ [Cell o None]) (seen s).
Definition push_ref (s : st) (x : ref) : st := St (mem s) (objs s) (seen s ++ [x]).
Definition set_memo (s : st) (n l : nat) : st := St (mem s) (alter (λ c, Cell (what c) (Some l)) n (objs s)) (seen s).
Definition set_what (s : st) (n : nat) (o : obj) : st := St (mem s) (alter (λ c, Cell o (memo c)) n (objs s)) (seen s).

(** Storing a number into an array: integer arrays drop the fraction. *)
Definition trunc (v : R) : R := if Rle_dec 0 v then IZR (Int_part v) else (- IZR (Int_part (- v)))%R.
Definition store (k : kind) (v : R) : R := match k with Ints => trunc v | _ => v end.
Definition poke (a : array) (i : nat) (v : R) : array := Arr (akind a) (<[i := store (akind a) v]> (adata a)).
Definition write (s : st) (l i : nat) (v : R) : st := St (alter (λ a, poke a i v) l (mem s)) (objs s) (seen s).

(** Does object n depend on object c (or is it c)? *)
Fixpoint dep (fuel : nat) (s : st) (n c : nat) : bool :=
  match fuel with
  | O => false
  | S f =>
    bool_decide (n = c) ||
    match what <$> objs s !! n with
    | Some (View d) => dep f s d c
    | Some (Fun _ ds) => existsb (λ d, dep f s d c) ds
    | _ => false
    end
  end.

(** clear_cache (ch.py:416-435) drops the cached values of the object and of all that depend on
    it (C06). *)
Definition clear (s : st) (c : nat) : st :=
  St (mem s) (imap (λ n e, if dep (S n) s n c then Cell (what e) None else e) (objs s)) (seen s).

(** The r property (ch.py:592-600): np.asarray(np.atleast_1d(compute_r()), float64, order='C')
    shares the buffer exactly for float64 arrays in C order. *)
Fixpoint get (fuel : nat) (s : st) (n : nat) : st * nat :=
  match fuel with
  | O => (s, 0)
  | S f =>
    match objs s !! n with
    | None => (s, 0)
    | Some e =>
      match memo e with
      | Some l => (s, l)
      | None =>
        let '(s1, l) :=
          match what e with
          | Leaf x =>
            let a := buf s (rloc x) in
            match akind a with Plain => (s, rloc x) | _ => alloc s (Arr Plain (adata a)) end
          | View c => get f s c
          | Fun g cs =>
            let '(s1, vs) :=
              foldl (λ '(s0, vs) c, let '(s1, l) := get f s0 c in (s1, vs ++ [adata (buf s1 l)])) (s, []) cs in
            alloc s1 (Arr Plain (g vs))
          end in
        (set_memo s1 n l, l)
      end
    end
  end.

Inductive op :=
| ONew (k : kind) (v : list R)          (* h = np.array(v) *)
| OCopy (h : nat)                       (* np.array(h) *)
| OLeaf (h : nat)                       (* Ch(h) *)
| OView (n : nat)                       (* n.ravel() *)
| OFun (f : list (list R) → list R) (ns : list nat)
| OAssign (n h : nat)                   (* n.x = h *)
| OSet (n i : nat) (v : R)              (* n[i] = v *)
| OWrite (h i : nat) (v : R)            (* h[i] = v *)
| ORead (n : nat)                       (* n.r *)
| OAttr (n : nat).                      (* n.x *)

(** The loop of __setitem__ down to the basic object (ch.py:526-531). *)
Fixpoint inner (fuel : nat) (s : st) (n : nat) : option nat :=
  match fuel with
  | O => None
  | S f =>
    match what <$> objs s !! n with
    | Some (Leaf _) => Some n
    | Some (View c) => inner f s c
    | _ => None
    end
  end.

(** One call; [false]: it raised. *)
Definition step (s : st) (o : op) : st * bool :=
  match o with
  | ONew k v => let '(s1, l) := alloc s (Arr k v) in (push_ref s1 (Ref l true), true)
  | OCopy h =>
    match seen s !! h with
    | Some x => let '(s1, l) := alloc s (buf s (rloc x)) in (push_ref s1 (Ref l true), true)
    | None => (s, false)
    end
  | OLeaf h =>
    (* ch.py:120-121: np.asarray(args[0], np.float64) copies integers only *)
    match seen s !! h with
    | Some x =>
      match akind (buf s (rloc x)) with
      | Ints => let '(s1, l) := alloc s (Arr Plain (adata (buf s (rloc x)))) in (push_obj s1 (Leaf (Ref l true)), true)
      | _ => (push_obj s (Leaf x), true)
      end
    | None => (s, false)
    end
  | OView n => if decide (n < length (objs s)) then (push_obj s (View n), true) else (s, false)
  | OFun f ns => if decide (Forall (λ n, n < length (objs s)) ns) then (push_obj s (Fun f ns), true) else (s, false)
  | OAssign n h =>
    (* ch.py:366-375: the array is kept as it is *)
    match what <$> objs s !! n, seen s !! h with
    | Some (Leaf _), Some x => (clear (set_what s n (Leaf x)) n, true)
    | _, _ => (s, false)
    end
  | OSet n i v =>
    match what <$> objs s !! n with
    | Some (Leaf x) =>
      (* ch.py:510-514: in place *)
      if decide (i < length (adata (buf s (rloc x)))) then
        if rw x then (clear (write s (rloc x) i v) n, true) else (s, false)
      else (s, false)
    | Some (View c) =>
      (* ch.py:525-545: a new array is assigned to the basic object; C36 is about its elements *)
      match inner (S n) s n with
      | Some b =>
        match what <$> objs s !! b with
        | Some (Leaf x) =>
          let d := adata (buf s (rloc x)) in
          if decide (i < length d) then
            let '(s1, l) := alloc s (Arr Plain (<[i := v]> d)) in (clear (set_what s1 b (Leaf (Ref l true))) b, true)
          else (s, false)
        | _ => (s, false)
        end
      | None => (s, false)
      end
    | _ => (s, false)
    end
  | OWrite h i v =>
    match seen s !! h with
    | Some x =>
      if decide (i < length (adata (buf s (rloc x)))) then
        if rw x then (write s (rloc x) i v, true) else (s, false)
      else (s, false)
    | None => (s, false)
    end
  | ORead n =>
    if decide (n < length (objs s)) then let '(s1, l) := get (S n) s n in (push_ref s1 (Ref l false), true) else (s, false)
  | OAttr n =>
    match what <$> objs s !! n with
    | Some (Leaf x) => (push_ref s x, true)
    | _ => (s, false)
    end
  end.

(** A history, and which of its calls raised. *)
Definition run (os : list op) : st * list bool :=
  foldl (λ '(s, bs) o, let '(s1, b) := step s o in (s1, bs ++ [b])) (empty_st, []) os.

(** What a user sees: the elements of an array, and of the value of an object. *)
Definition look (s : st) (h : nat) : option (list R) := (λ x, adata (buf s (rloc x))) <$> seen s !! h.
Definition now (s : st) (n : nat) : list R := let '(s1, l) := get (S n) s n in adata (buf s1 l).
