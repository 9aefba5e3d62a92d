(** Model of the elementwise operations (chumpy/ch_ops.py:219-292, 397-416, 453-607,
    704-721).  Real numbers stand for floats; sp.diags/csc results and dense 2-D
    results are both matrices. *)
From Coq Require Import Reals.
From stdpp Require Import list list_numbers numbers gmap.
From Verif Require Import ArrModel.

(* ------------------------------------------------------------------ *)
(** Unary functions (ch_ops.py:237-290). *)
Inductive ufun := Ureciprocal | Usquare | Usqrt | Uexp | Ulog | Usin | Uarcsin | Ucos | Uarccos
  | Utan | Uarctan | Unegative | Uabsolute.

(** _r *)
Definition u_r (f : ufun) (x : R) : R :=
  match f with
  | Ureciprocal => / x
  | Usquare => x * x
  | Usqrt => R_sqrt.sqrt x
  | Uexp => exp x
  | Ulog => ln x
  | Usin => sin x
  | Uarcsin => asin x
  | Ucos => cos x
  | Uarccos => acos x
  | Utan => tan x
  | Uarctan => atan x
  | Unegative => - x
  | Uabsolute => Rabs x
  end%R.

(** _d; my_power(x, -0.5) is a real power here (ch_ops.py:245-252). *)
Definition u_d (f : ufun) (x : R) : R :=
  match f with
  | Ureciprocal => - / (x * x)
  | Usquare => x * 2
  | Usqrt => / 2 * Rpower x (- (1 / 2))
  | Uexp => exp x
  | Ulog => / x
  | Usin => cos x
  | Uarcsin => / R_sqrt.sqrt (1 - x * x)
  | Ucos => - sin x
  | Uarccos => - / R_sqrt.sqrt (1 - x * x)
  | Utan => / (cos x * cos x)
  | Uarctan => / (x * x + 1)
  | Unegative => - 1
  | Uabsolute => (if Rlt_dec 0 x then 1 else 0) * 2 - 1
  end%R.

(** UnaryElemwise.compute_r (ch_ops.py:222-223) *)
Definition unary (f : ufun) (x : arr R) : arr R := amap (u_r f) x.

(** np.atleast_2d as a matrix; None when the array has more than two dimensions and
    is no matrix. *)
Definition atleast_2d (a : arr R) : option spm :=
  match sh a with
  | [] => Some (dense 1 1 (λ _ _, dat a 0))
  | [n] => Some (dense 1 n (λ _ j, dat a j))
  | [n; m] => Some (dense n m (λ i j, dat a (i * m + j)))
  | _ => None
  end.

(** UnaryElemwise.compute_dr_wrt(self.x) (ch_ops.py:225-228); len(result) is the
    first dimension. *)
Definition unary_jac (f : ufun) (x : arr R) : option spm :=
  let result := amap (u_d f) x in
  match sh result with
  | n :: _ => if decide (1 < n) then Some (diags (elems result)) else atleast_2d result
  | [] => None
  end.

(* ------------------------------------------------------------------ *)
(** numpy broadcasting. *)
Fixpoint bsh_rev (r1 r2 : shp) : option shp :=
  match r1, r2 with
  | [], r | r, [] => Some r
  | d1 :: r1', d2 :: r2' =>
    r ← bsh_rev r1' r2';
    if decide (d1 = d2) then Some (d1 :: r)
    else if decide (d1 = 1) then Some (d2 :: r)
    else if decide (d2 = 1) then Some (d1 :: r) else None
  end.
Definition bshape (s1 s2 : shp) : option shp := reverse <$> bsh_rev (reverse s1) (reverse s2).
(** Which element of an array of shape [s] is used for element [i] of the broadcast
    shape [out]: leading dimensions are dropped, dimensions of size 1 are held at 0. *)
Definition clamp (s ix : list nat) : list nat := zip_with (λ d k, if decide (d = 1) then 0 else k) s ix.
Definition bidx (s out : shp) (i : nat) : nat :=
  ravel s (clamp s (drop (length out - length s) (unravel out i))).
(** A broadcasting ufunc (shape \[\] if the shapes do not match and numpy raises). *)
Definition bop {T U V} (f : T → U → V) (a : arr T) (b : arr U) : arr V :=
  let out := default [] (bshape (sh a) (sh b)) in
  Arr_ out (λ i, f (dat a (bidx (sh a) out i)) (dat b (bidx (sh b) out i))).

(* ------------------------------------------------------------------ *)
(** _broadcast_matrix and its template caches (ch_ops.py:453-494). *)

(** Compressed columns: entries sorted by column, otherwise in the given order. *)
Definition csc {A} (nc : nat) (l : list (nat * nat * A)) : list (nat * nat * A) :=
  j ← seq 0 nc; filter (λ e, e.1.2 = j) l.

(** a.shape, b.shape, wrt is a, wrt is b *)
Definition uid2 : Type := shp * shp * bool * bool.
Record templates := Templates {
  t_same : gmap shp (list (nat * nat * unit));  (* _bs_setup_data1 *)
  t_diff : gmap uid2 (list (nat * nat * nat))   (* _bs_setup_data2 *)
}.
Definition no_templates : templates := Templates ∅ ∅.

(** ch_ops.py:459-462; the values are uninitialised memory *)
Definition build_same (s : shp) : list (nat * nat * unit) :=
  csc (size s) (zip (zip (seq 0 (size s)) (seq 0 (size s))) (replicate (size s) ())).

(** ch_ops.py:533-542 and 472-477: JS is the broadcast sum of index and zero arrays *)
Definition bcols (sa sb : shp) (wa wb : bool) : list nat :=
  let a2 := if wa then arange sa else full sa 0 in
  let b2 := if wb && negb wa then arange sb else full sb 0 in
  elems (bop Nat.add a2 b2).
Definition build_diff (u : uid2) : list (nat * nat * nat) :=
  let '(sa, sb, wa, wb) := u in
  let out := default [] (bshape sa sb) in
  csc (if wa then size sa else size sb) (zip (zip (seq 0 (size out)) (bcols sa sb wa wb)) (seq 0 (size out))).

(** The data argument: an array (raveled) or a scalar. *)
Inductive bdata := DArr (l : list R) | DScal (x : R).

(** Replacing the values of a template. *)
Definition fill {A} (t : list (nat * nat * A)) (d : bdata) : list (nat * nat * R) :=
  match d with
  | DArr l => zip (fst <$> t) l
  | DScal x => (λ e, (e.1, x)) <$> t
  end.
Definition pick (t : list (nat * nat * nat)) (d : bdata) : list (nat * nat * R) :=
  match d with
  | DArr l => (λ e, (e.1, nth e.2 l 0%R)) <$> t
  | DScal x => (λ e, (e.1, x)) <$> t
  end.

Definition broadcast_matrix (sa sb : shp) (wa wb : bool) (d : bdata) (st : templates) : templates * spm :=
  if decide (sa = sb) then
    let t := default (build_same sa) (t_same st !! sa) in
    (Templates (<[sa := t]> (t_same st)) (t_diff st), Spm (size sa) (size sa) (fill t d))
  else
    let u := (sa, sb, wa, wb) in
    let t := default (build_diff u) (t_diff st !! u) in
    (Templates (t_same st) (<[u := t]> (t_diff st)),
     Spm (size (default [] (bshape sa sb))) (if wa then size sa else size sb) (pick t d)).

(** _broadcast_setup (ch_ops.py:531-542), giving IS and JS *)
Definition broadcast_setup (sa sb : shp) (wa wb : bool) : list nat * list nat :=
  if decide (sa = sb) then (seq 0 (size sa), seq 0 (size sa))
  else (seq 0 (size (default [] (bshape sa sb))), bcols sa sb wa wb).

(* ------------------------------------------------------------------ *)
(** The binary operations. *)
Inductive bfun := Badd | Bsubtract | Bmultiply | Bdivide | Bpower.

(** np.power for a positive base, or any base and an exponent that is a whole number;
    other cases are nan and not modelled.  safe_power (ch_ops.py:603-607) replaces
    infinities by 0. *)
Definition npower (x s : R) : R :=
  if Rlt_dec 0 x then Rpower x s
  else if Req_EM_T s (IZR (Int_part s)) then
    (if Req_EM_T x 0 then (if Rlt_dec s 0 then 0 else powerRZ x (Int_part s)) else powerRZ x (Int_part s))
  else 0%R.

Definition b_f (f : bfun) (x y : R) : R :=
  match f with
  | Badd => x + y
  | Bsubtract => x - y
  | Bmultiply => x * y
  | Bdivide => x / y
  | Bpower => npower x y
  end%R.
(** compute_r of add, subtract, multiply, divide, power *)
Definition binary (f : bfun) (a b : arr R) : arr R := bop (b_f f) a b.

Definition ones (s : shp) : arr R := full s 1%R.

(** compute_dr_wrt(wrt), [wa] and [wb] telling whether wrt is the first resp. second
    operand (the operands are the same object if both). *)
Definition binary_jac (f : bfun) (wa wb : bool) (a b : arr R) (st : templates) : templates * option spm :=
  match f with
  | Badd =>                                                (* ch_ops.py:552-557 *)
    if negb wa && negb wb then (st, None)
    else let m := if wa && wb then 2%R else 1%R in
         let '(st', J) := broadcast_matrix (sh a) (sh b) wa wb (DScal m) st in (st', Some J)
  | Bsubtract =>                                           (* ch_ops.py:568-573 *)
    if eqb wa wb then (st, None)
    else let m := if wa then 1%R else (-1)%R in
         let '(st', J) := broadcast_matrix (sh a) (sh b) wa wb (DScal m) st in (st', Some J)
  | Bmultiply =>                                           (* ch_ops.py:710-721 *)
    if negb wa && negb wb then (st, None)
    else let a2 := if wb then a else ones (sh a) in
         let b2 := if wa && negb wb then b else ones (sh b) in
         let data := elems (bop Rmult a2 b2) in
         let data := if wa && wb then (λ x, x * 2)%R <$> data else data in
         let '(st', J) := broadcast_matrix (sh a) (sh b) wa wb (DArr data) st in (st', Some J)
  | Bdivide =>                                             (* ch_ops.py:403-416 *)
    if eqb wa wb then (st, None)
    else let '(IS, JS) := broadcast_setup (sh a) (sh b) wa wb in
         let data := if wa then elems (bop Rdiv (ones (sh a)) b)
                     else elems (bop (λ x y, (- x / (y * y))%R) a b) in
         (st, Some (coo (size (default [] (bshape (sh a) (sh b)))) (if wa then asize a else asize b) data IS JS))
  | Bpower =>                                              (* ch_ops.py:586-601 *)
    if negb wa && negb wb then (st, None)
    else let dx := bop (λ x s, (s * npower x (s - 1))%R) a b in
         let dp := bop (λ x s, (ln x * npower x s)%R) a b in
         let data := if wa then if wb then zip_with Rplus (elems dx) (elems dp) else elems dx else elems dp in
         let '(st', J) := broadcast_matrix (sh a) (sh b) wa wb (DArr data) st in (st', Some J)
  end.
