(** Model of dot, MatVecMult, Cross and tensordot (chumpy/ch_ops.py:116-183, 727-764,
    798-804, chumpy/ch.py:1171-1182, chumpy/np_tensordot.py:167-228).  The operands are
    values r, so they have at least one dimension. *)
From Coq Require Import Reals.
From stdpp Require Import list list_numbers numbers gmap.
From Verif Require Import ArrModel ElemModel ReorderModel.

(** sp.eye(n, n), sp.kron(a, b), np.kron(a, b) *)
Definition eye (n : nat) : spm := diags (replicate n 1%R).
Definition kron (a b : spm) : spm :=
  Spm (nrow a * nrow b) (ncol a * ncol b)
    (e ← trip a; f ← trip b; [(e.1.1 * nrow b + f.1.1, e.1.2 * ncol b + f.1.2, (e.2 * f.2)%R)]).
(** a two-dimensional array as a matrix; its transpose *)
Definition mat (r c : nat) (a : arr R) : spm := dense r c (λ i j, dat a (i * c + j)).
Definition mat_T (r c : nat) (a : arr R) : spm := dense c r (λ i j, dat a (j * c + i)).

(* ------------------------------------------------------------------ *)
(** numpy's a.dot(b) (ch_ops.py:730-731): the sum over the last axis of a and the last but
    one (or the only) axis of b.  The parts of b's shape: before the summed axis, the
    summed axis, after. *)
Definition b_parts (s : shp) : option (shp * nat * shp) :=
  match reverse s with
  | [] => None
  | [n] => Some ([], n, [])
  | p :: n :: sb => Some (reverse sb, n, [p])
  end.
Definition a_parts (s : shp) : option (shp * nat) :=
  match reverse s with
  | [] => None
  | n :: sa => Some (reverse sa, n)
  end.
Definition np_dot (a b : arr R) : option (arr R) :=
  '(sa, n) ← a_parts (sh a); '(sb, n', sp) ← b_parts (sh b);
  if decide (n = n') then
    let hb := size sb in let p := size sp in
    Some (Arr_ (sa ++ sb ++ sp) (λ o,
      let j := o mod p in let h := (o / p) mod hb in let i := o / p / hb in
      rsum ((λ l, dat a (i * n + l) * dat b ((h * n + l) * p + j))%R <$> seq 0 n)))
  else None.
(** ar and br (ch_ops.py:735-736, 746-747) with the two dimensions; reshape may raise *)
Definition dims2 (a : arr R) : option (nat * nat) := match sh a with [r; c] => Some (r, c) | _ => None end.
Definition dot_ar (a : arr R) : option (arr R) :=
  reshaped (if decide (length (sh a) < 2) then [1; -1]%Z else [(-1)%Z; Z.of_nat (default 0 (last (sh a)))]) a.
Definition dot_br (b : arr R) : option (arr R) :=
  reshaped (if decide (length (sh b) < 2) then [-1; 1]%Z else [Z.of_nat (nth 0 (sh b) 0); (-1)%Z]) b.
(** compute_d1 (ch_ops.py:733-741) *)
Definition dot_d1 (a b : arr R) : option spm :=
  ar ← dot_ar a; br ← dot_br b;
  '(m, _) ← dims2 ar; '(n, p) ← dims2 br;
  Some (kron (eye m) (mat_T n p br)).
(** compute_d2 (ch_ops.py:743-754) *)
Definition dot_d2 (a b : arr R) : option spm :=
  ar ← dot_ar a; br ← dot_br b;
  '(m, n) ← dims2 ar; '(_, p) ← dims2 br;
  Some (kron (mat m n ar) (eye p)).
(** compute_dr_wrt (ch_ops.py:757-764); [wa], [wb]: whether wrt is a, b.  Adding matrices
    of different dimensions raises. *)
Definition dot_jac (wa wb : bool) (a b : arr R) : option (option spm) :=
  match wa, wb with
  | true, true =>
    d1 ← dot_d1 a b; d2 ← dot_d2 a b;
    if decide (nrow d1 = nrow d2 ∧ ncol d1 = ncol d2) then Some (Some (madd d1 d2)) else None
  | true, false => Some <$> dot_d1 a b
  | false, true => Some <$> dot_d2 a b
  | false, false => Some None
  end.

(* ------------------------------------------------------------------ *)
(** MatVecMult (ch.py:1171-1182); the matrix is a sparse matrix *)
Definition matvec_r (m : spm) (v : arr R) : option (arr R) :=
  if decide (ncol m = asize v) then
    let res := Arr_ [nrow m] (mact m (elem v)) in
    if decide (1 < length (sh v) ∧ 1 < nth 1 (sh v) 0) then reshaped [(-1)%Z; Z.of_nat (nth 1 (sh v) 0)] res else Some res
  else None.

(* ------------------------------------------------------------------ *)
(** Cross (ch_ops.py:116-183) with the default axes, of two h x 3 arrays.  The indices
    kept in _IS, _JS and _tiled_identity are a function of h and w, which are compared. *)
Definition np_cross (a b : arr R) : option (arr R) :=
  match sh a, sh b with
  | [h; 3], [h'; 3] =>
    if decide (h = h') then
      Some (Arr_ [h; 3] (λ i, let r := i / 3 in let c := i mod 3 in
        let u := (c + 1) mod 3 in let v := (c + 2) mod 3 in
        (dat a (r * 3 + u)%nat * dat b (r * 3 + v)%nat - dat a (r * 3 + v)%nat * dat b (r * 3 + u)%nat)%R))
    else None
  | _, _ => None
  end.
Definition np_eye (w : nat) : arr R := Arr_ [w; w] (λ i, if decide (i / w = i mod w) then 1%R else 0%R).
(** compute_dr_wrt (ch_ops.py:144-183): the test for a comes first *)
Definition cross_jac (wa wb : bool) (a b : arr R) : option (option spm) :=
  match wa || wb, sh a with
  | false, _ => Some None
  | true, [h; w] =>
    let rng := arange [h * w] in
    JS ← reorder 0 (Repeat w (Some 0%Z)) (Arr_ [h; w] (dat rng));
    IS ← reorder 0 (Repeat w None) rng;
    tiled ← reorder 0%R (Tile [h; 1]) (np_eye w);
    result ← (if wa then rp ← reorder 0%R (Repeat w (Some 0%Z)) (amap Ropp b); np_cross tiled rp
              else rp ← reorder 0%R (Repeat w (Some 0%Z)) (amap Ropp a); np_cross rp tiled);
    r ← np_cross a b;
    if decide (asize result = asize IS) then
      Some (Some (coo (asize r) (if wa then asize a else asize b) (elems result) (elems IS) (elems JS)))
    else None
  | true, _ => None
  end.

(* ------------------------------------------------------------------ *)
(** tensordot (np_tensordot.py:167-228).  axes: a number, or the two lists of axes (one
    number stands for a list of one). *)
Inductive axes_arg := ANum (n : Z) | ALists (la lb : list Z).
Definition axes_lists (x : axes_arg) : list Z * list Z :=
  match x with
  | ANum n => ((λ i, Z.of_nat i - n)%Z <$> seq 0 (Z.to_nat n), Z.of_nat <$> seq 0 (Z.to_nat n))
  | ALists la lb => (la, lb)
  end.
Definition notin (n : nat) (ax : list nat) : list nat := filter (λ k, k ∉ ax) (seq 0 n).
Definition dims_at (s : shp) (ax : list nat) : shp := (λ k, nth k s 0) <$> ax.
Definition tensordot (x : axes_arg) (a b : arr R) : option (arr R) :=
  let '(la, lb) := axes_lists x in
  if decide (length la = length lb) then
    axa ← mapM (naxis (length (sh a))) la;
    axb ← mapM (naxis (length (sh b))) lb;
    if decide (dims_at (sh a) axa = dims_at (sh b) axb) then
      let na := notin (length (sh a)) axa in
      let nb := notin (length (sh b)) axb in
      let n2a := size (dims_at (sh a) axa) in
      let n2b := size (dims_at (sh b) axb) in
      at1 ← reorder 0%R (Transpose (Some (Z.of_nat <$> (na ++ axa)))) a;
      at2 ← reshaped [(-1)%Z; Z.of_nat n2a] at1;
      bt1 ← reorder 0%R (Transpose (Some (Z.of_nat <$> (axb ++ nb)))) b;
      bt2 ← reshaped [Z.of_nat n2b; (-1)%Z] bt1;
      res ← np_dot at2 bt2;
      reshaped (Z.of_nat <$> (dims_at (sh a) na ++ dims_at (sh b) nb)) res
    else None
  else None.
