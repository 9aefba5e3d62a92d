(** The array stored in a basic Ch and its element type (chumpy/ch.py:124-125, 361-375, 506-547,
    590-600).  Arrays are flat lists and keys lists of positions; values are not broadcast. *)
From Coq Require Import ZArith.
From stdpp Require Import list numbers.
From Flocq Require Import IEEE754.BinarySingleNaN.
From Verif Require Import Dog64.

(** What is stored as x or handed over: integers (int64) or floats, in an array or (the flag is
    false) in a list or a number of Python. *)
Inductive held := Ints (is_array : bool) (l : list Z) | Flts (is_array : bool) (l : list b64).
Definition is_array (h : held) : bool := match h with Ints a _ | Flts a _ => a end.
(** np.asarray(..., np.float64): also what r gives (ch.py:596), compute_r of a basic object
    being x *)
Definition floats (h : held) : list b64 := match h with Ints _ l => of_int <$> l | Flts _ l => l end.
(** Ch(v) (ch.py:124-125) and Ch(x=v) (ch.py:127-129) *)
Definition by_position (v : held) : held := Flts true (floats v).
Definition by_name (v : held) : held := v.

(** numpy's conversion of a float to an integer; it raises for NaN, infinities and what does not
    fit (so for numbers of Python; numpy's own give the smallest integer instead) *)
Definition trunc64 (x : b64) : option Z :=
  z ← match x with
    | B754_zero _ => Some 0%Z
    | B754_finite s m e _ => let n := if decide (0 ≤ e)%Z then (Z.pos m * 2 ^ e)%Z else (Z.pos m / 2 ^ (- e))%Z in Some (if s then (- n)%Z else n)
    | _ => None
    end;
  if decide (- 2 ^ 63 ≤ z < 2 ^ 63)%Z then Some z else None.
(** data\[key\] = value *)
Definition put {A} (ps : list nat) (vs : list A) (l : list A) : option (list A) :=
  if decide (length ps = length vs ∧ Forall (λ p, p < length l) ps) then Some (foldl (λ l pv, <[pv.1 := pv.2]> l) l (zip ps vs)) else None.
(** __setitem__ of a basic object (ch.py:510-514): np.atleast_1d(x) keeps the element type, the
    value is cast to it *)
Definition setitem (ps : list nat) (v : held) (h : held) : option held :=
  match h with
  | Ints _ l => vs ← match v with Ints _ vs => Some vs | Flts _ vs => mapM trunc64 vs end; Ints true <$> put ps vs l
  | Flts _ l => Flts true <$> put ps (floats v) l
  end.
(** dr.T times a vector, dr having a one in row p and column ps\[p\] (ch.py:536, 541-542) *)
Definition spread (ps : list nat) (vs : list b64) (i : nat) : b64 :=
  foldl (λ t pv, if decide (pv.1 = i) then Bplus mode_NE t pv.2 else t) (B754_zero false) (zip ps vs).
(** __setitem__ of a view that shows the elements [ps] of the basic object (ch.py:527-546);
    x.ravel() raises if x is no array *)
Definition setview (ps : list nat) (v : held) (h : held) : option held :=
  let x := floats h in
  if decide (is_array h = true ∧ length ps = length (floats v) ∧ Forall (λ p, p < length x) ps) then
    let seen := (λ p, nth p x (B754_zero false)) <$> ps in
    Some (Flts true (imap (λ i xi, Bminus mode_NE (Bplus mode_NE xi (spread ps (floats v) i)) (spread ps seen i)) x))
  else None.
Inductive op := SetX (v : held) | SetItem (ps : list nat) (v : held) | SetView (ps : list nat) (v : held).
(** c.x = v stores what it is given (ch.py:366-375) *)
Definition step (h : held) (o : op) : option held :=
  match o with SetX v => Some v | SetItem ps v => setitem ps v h | SetView ps v => setview ps v h end.
Fixpoint run (h : held) (os : list op) : option held := match os with [] => Some h | o :: os' => h' ← step h o; run h' os' end.
