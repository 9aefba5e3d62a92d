(** Model of concatenation (chumpy/reordering.py:357-445). *)
From Coq Require Import Reals.
From stdpp Require Import gmap strings pretty list list_numbers numbers.
From Verif Require Import EngineModel ArrModel ElemModel ReorderModel NpModel.

(** Which operand, and where in it, when the operands have the lengths [ds]. *)
Fixpoint locate (ds : list nat) (k : nat) : option (nat * nat) :=
  match ds with
  | [] => None
  | d :: ds' => if decide (k < d) then Some (0, k) else (λ p, (S p.1, p.2)) <$> locate ds' (k - d)
  end.
Definition dims (k : nat) (vs : list (arr R)) : list nat := (λ v, nth k (sh v) 0) <$> vs.
(** np.concatenate (reordering.py:376-377), given its documented meaning; None if it raises *)
Definition concat (ax : Z) (vs : list (arr R)) : option (arr R) :=
  match vs with
  | [] => None
  | v0 :: _ =>
    k ← naxis (length (sh v0)) ax;
    if decide (Forall (λ v, length (sh v) = length (sh v0) ∧ delete k (sh v) = delete k (sh v0)) vs) then
      let out := <[k := sum_list (dims k vs)]> (sh v0) in
      Some (Arr_ out (λ i,
        let ix := unravel out i in
        match locate (dims k vs) (nth k ix 0) with
        | Some (t, j) => match vs !! t with Some v => at_ v (<[k := j]> ix) | None => 0%R end
        | None => 0%R
        end))
    else None
  end.

(** everything (reordering.py:379-384) *)
Definition everything (ax : Z) (out : shp) : option (arr nat) := reorder 0 (Swapaxes ax 0) (arange out).
(** e\[off:off+n\]: numpy cuts the bounds at the length *)
Definition rows_from (off n : nat) (e : arr nat) : arr nat :=
  let d := nth 0 (sh e) 0 in let rest := drop 1 (sh e) in
  let lo := off `min` d in let hi := (off + n) `min` d in
  Arr_ ((hi - lo) :: rest) (λ i, dat e (lo * size rest + i)).
(** The loop (reordering.py:400-409): the row and column indices; [ws] tells which
    operands the variable is. *)
Fixpoint conc_idx (ax : Z) (ev : arr nat) (off : nat) (vs : list (arr R)) (ws : list bool) : option (list nat * list nat) :=
  match vs, ws with
  | v :: vs', w :: ws' =>
    k ← naxis (length (sh v)) ax;
    let tsz := nth k (sh v) 0 in
    here ← (if w : bool then
              IS ← reorder 0 (Swapaxes ax 0) (rows_from off tsz ev);
              Some (elems IS, seq 0 (asize v))
            else Some ([], []));
    rest ← conc_idx ax ev (off + tsz) vs' ws';
    Some (here.1 ++ rest.1, here.2 ++ rest.2)
  | _, _ => Some ([], [])
  end.
(** wrt.size *)
Fixpoint wrt_size (vs : list (arr R)) (ws : list bool) : option nat :=
  match vs, ws with
  | v :: vs', w :: ws' => if w : bool then Some (asize v) else wrt_size vs' ws'
  | _, _ => None
  end.
(** compute_dr_wrt (reordering.py:392-413), with given [everything] and size of the
    value; scipy raises if the lengths differ or an index is out of range *)
Definition conc_jac_with (ev : arr nat) (n : nat) (ax : Z) (vs : list (arr R)) (ws : list bool) : option spm :=
  c ← wrt_size vs ws;
  p ← conc_idx ax ev 0 vs ws;
  if decide (length p.1 = length p.2) then
    let m := coo n c (replicate (length p.2) 1%R) p.1 p.2 in
    if decide (in_range m) then Some m else None
  else None.
Definition conc_jac (ax : Z) (vs : list (arr R)) (ws : list bool) : option spm :=
  r ← concat ax vs; ev ← everything ax (sh r); conc_jac_with ev (asize r) ax vs ws.

(* ------------------------------------------------------------------ *)
(** expand_concatenates (reordering.py:423-432).  Operands: arrays, or concatenations
    along an axis; isinstance(mtx, Concatenate) and mtx.axis == axis compares the axis
    numbers as they were given. *)
Inductive ctree := Leaf (a : arr R) | Conc (ax : Z) (l : list ctree).
Fixpoint expand (fuel : nat) (ax : Z) (todo done : list ctree) : option (list ctree) :=
  match fuel with
  | O => None
  | S fuel' =>
    match todo with
    | [] => Some done
    | Conc ax' l :: todo' =>
      if decide (ax' = ax) then expand fuel' ax (l ++ todo') done
      else expand fuel' ax todo' (done ++ [Conc ax' l])
    | t :: todo' => expand fuel' ax todo' (done ++ [t])
    end
  end.
Fixpoint weight (t : ctree) : nat :=
  match t with
  | Leaf _ => 1
  | Conc _ l => S (foldr (λ t n, weight t + n) 0 l)
  end.
Definition weights (l : list ctree) : nat := foldr (λ t n, weight t + n) 0 l.
(** concatenate (reordering.py:435-445) *)
Definition concatenate (ax : Z) (l : list ctree) : option ctree := Conc ax <$> expand (S (weights l)) ax l [].
(** The value r of an operand *)
Fixpoint cval (t : ctree) : option (arr R) :=
  match t with
  | Leaf a => Some a
  | Conc ax l =>
    vs ← (fix go l := match l with [] => Some [] | t :: l' => v ← cval t; vs ← go l'; Some (v :: vs) end) l;
    concat ax vs
  end.

(* ------------------------------------------------------------------ *)
(** The object with what it remembers: _our_terms, _everything, dr_cached
    (reordering.py:359-420).  [env] gives the current values of the operands. *)
Record cobj := CObj {
  co_ax : Z;
  co_attr : list oid;                 (* m0, m1, … *)
  co_our : option (list oid);         (* _our_terms *)
  co_ev : option (arr nat);           (* _everything *)
  co_dr : list (oid * spm)            (* dr_cached *)
}.
Definition fresh_conc (ax : Z) (ps : list oid) : cobj := CObj ax ps None None [].
(** our_terms (reordering.py:363-367) *)
Definition our_terms (o : cobj) : list oid := default (co_attr o) (co_our o).
Definition keep_our (o : cobj) : cobj := CObj (co_ax o) (co_attr o) (Some (our_terms o)) (co_ev o) (co_dr o).
(** compute_r (reordering.py:376-377) *)
Definition conc_r (env : oid → arr R) (o : cobj) : option (arr R) * cobj :=
  (concat (co_ax o) (env <$> our_terms o), keep_our o).
(** compute_dr_wrt (reordering.py:386-420); [one]: whether it has exactly one parent *)
Definition conc_dr (env : oid → arr R) (w : oid) (one : bool) (o : cobj) : option (option spm) * cobj :=
  match list_find (λ e, e.1 = w) (co_dr o) with
  | Some (_, (_, J)) => (Some (Some J), o)
  | None =>
    let o1 := keep_our o in
    let ps := our_terms o in
    if decide (w ∈ ps) then
      match concat (co_ax o) (env <$> ps) with
      | None => (None, o1)
      | Some r =>
        match (match co_ev o with Some ev => Some ev | None => everything (co_ax o) (sh r) end) with
        | None => (None, o1)
        | Some ev =>
          let o2 := CObj (co_ax o) (co_attr o) (Some ps) (Some ev) (co_dr o) in
          match conc_jac_with ev (asize r) (co_ax o) (env <$> ps) ((λ p, bool_decide (p = w)) <$> ps) with
          | None => (None, o2)
          | Some J => (Some (Some J), CObj (co_ax o) (co_attr o) (Some ps) (Some ev) (if one then co_dr o else (w, J) :: co_dr o))
          end
        end
      end
    else (Some None, o1)
  end.
(** What may happen to the object and its operands. *)
Inductive cevent :=
  | Assign (i : nat) (q : oid)       (* setattr(c, 'm%d' % i, q) *)
  | Put (q : oid) (a : arr R)        (* the value of an operand changes *)
  | AskR
  | AskDr (w : oid) (one : bool).
Inductive coutput := OutR (v : option (arr R)) | OutDr (d : option (option spm)).
Definition cstate : Type := (oid → arr R) * cobj.
Definition conc_step (e : cevent) (s : cstate) : option coutput * cstate :=
  let '(env, o) := s in
  match e with
  | Assign i q => (None, (env, CObj (co_ax o) (<[i := q]> (co_attr o)) (co_our o) (co_ev o) (co_dr o)))
  | Put q a => (None, (λ p, if decide (p = q) then a else env p, o))
  | AskR => let '(v, o') := conc_r env o in (Some (OutR v), (env, o'))
  | AskDr w one => let '(d, o') := conc_dr env w one o in (Some (OutDr d), (env, o'))
  end.

(* ------------------------------------------------------------------ *)
(** As a class of the array library: the dterms are made with the object and the axis is
    a plain attribute that is not a term (reordering.py:439-444), so both are fixed
    here. *)
Definition conc_names (n : nat) : list name := (λ i, String.append "m" (pretty i)) <$> seq 0 n.
Definition op_conc (ax : Z) (n : nat) : npop := {|
  np_dt := conc_names n; np_tm := []; np_perm := false;
  np_r _ vs := concat ax vs;
  np_jac _ vs ws := Some <$> conc_jac ax vs ws
|}.
