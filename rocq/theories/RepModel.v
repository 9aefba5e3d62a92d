(** How Jacobians are stored (chumpy/ch.py): products (_superdot), sums and conversions
    in dr_wrt, lmult_wrt and lop.  A result None of type [option rep] is Python's None
    or an exception, as said; Jacobians are computed for given local ones, without
    caches. *)
From Coq Require Import Reals.
From stdpp Require Import gmap list list_numbers.
From Verif Require Import ArrModel ElemModel.

(** A number, a numpy array, a scipy.sparse matrix, a LinearOperator of a given shape
    with its matvec function (None: it raises). *)
Inductive rep :=
| Num (c : R)
| Arr (a : arr R)
| Spr (n m : nat) (f : nat → nat → R)
| Lin (n m : nat) (f : list R → option (list R)).

Definition arr2 (n m : nat) (f : nat → nat → R) : arr R := Arr_ [n; m] (λ k, f (k / m) (k mod m)).
Definition is_lin (r : rep) : bool := match r with Lin _ _ _ => true | _ => false end.

(** .shape, when it has two entries *)
Definition shape2 (r : rep) : option (nat * nat) :=
  match r with
  | Arr a => match sh a with [n; m] => Some (n, m) | _ => None end
  | Spr n m _ | Lin n m _ => Some (n, m)
  | Num _ => None
  end.
(** Entries of a matrix. *)
Definition ent (r : rep) (i j : nat) : R :=
  match r with
  | Arr a => match sh a with [_; m] => dat a (i * m + j) | _ => 0%R end
  | Spr _ _ f => f i j
  | _ => 0%R
  end.

Definition prodm (k : nat) (f g : nat → nat → R) (i j : nat) : R := rsum ((λ l, f i l * g l j)%R <$> seq 0 k).
Definition mulv (n m : nat) (f : nat → nat → R) (v : list R) : list R :=
  (λ i, rsum ((λ l, f i l * nth l v 0)%R <$> seq 0 m)) <$> seq 0 n.
Definition vadd (u v : list R) : option (list R) :=
  if decide (length u = length v) then Some (zip_with Rplus u v) else None.

(** r.dot(v) for a vector v; numpy, scipy.sparse and LinearOperator check lengths. *)
Definition apply1 (r : rep) (v : list R) : option (list R) :=
  match shape2 r with
  | None => None
  | Some (n, m) =>
    if decide (length v = m) then
      match r with
      | Lin _ _ f => u ← f v; if decide (length u = n) then Some u else None
      | _ => Some (mulv n m (ent r) v)
      end
    else None
  end.

(** ravel()\[0\] of arrays with one element (ch.py:610-614) *)
Definition scal (r : rep) : rep :=
  match r with
  | Arr a => if decide (asize a = 1) then Num (dat a 0) else r
  | _ => r
  end.

(** A number times a matrix. *)
Definition scale (c : R) (r : rep) : rep :=
  match r with
  | Num x => Num (c * x)
  | Arr a => Arr (amap (λ x, c * x)%R a)
  | Spr n m f => Spr n m (λ i j, c * f i j)%R
  | Lin n m f => Lin n m (λ v, match f v with Some u => Some ((λ x, c * x)%R <$> u) | None => None end)
  end.

Definition column (m : nat) (r : rep) (k j : nat) : list R := (λ i, ent r i j) <$> seq 0 k.

(** _superdot (ch.py:602-645) of two Jacobians other than None; None: it raises.
    convert_inputs_to_sparse_if_necessary converts nothing, as sparse_is_desireable
    returns False at once (utils.py:44-48). *)
Definition superdot (lhs rhs : rep) : option rep :=
  match scal lhs, scal rhs with
  | Num x, r => Some (scale x r)
  | r, Num x => Some (scale x r)
  | l, Lin k m f =>
    '(n, _) ← shape2 l; Some (Lin n m (λ v, u ← apply1 (Lin k m f) v; apply1 l u))
  | Lin n k f, Spr k' m g =>
    Some (Lin n m (λ v, u ← apply1 (Spr k' m g) v; apply1 (Lin n k f) u))
  | Lin n k f, r =>
    '(k', m) ← shape2 r;
    if decide (k' = k) then
      cols ← mapM (λ j, apply1 (Lin n k f) (column m r k j)) (seq 0 m);
      Some (Arr (arr2 n m (λ i j, nth i (nth j cols []) 0%R)))
    else None
  | l, r =>
    '(n, k) ← shape2 l; '(k', m) ← shape2 r;
    if decide (k = k') then
      match l, r with
      | Spr _ _ _, Spr _ _ _ => Some (Spr n m (prodm k (ent l) (ent r)))
      | _, _ => Some (Arr (arr2 n m (prodm k (ent l) (ent r))))
      end
    else None
  end.

(** The elements of a number or array, as an array. *)
Definition as_array (r : rep) : option (arr R) :=
  match r with Num c => Some (full [] c) | Arr a => Some a | _ => None end.

(** scipy.sparse + number, 0-d array or array: a nonzero number raises, an array is
    broadcast to the shape of the matrix. *)
Definition sp_add (n m : nat) (f : nat → nat → R) (a : arr R) : option rep :=
  match sh a with
  | [] => if Req_EM_T (dat a 0) 0 then Some (Spr n m f) else None
  | _ =>
    if decide (bshape (sh a) [n; m] = Some [n; m]) then
      Some (Arr (arr2 n m (λ i j, f i j + dat a (bidx (sh a) [n; m] (i * m + j)))%R))
    else None
  end.

(** x + y; None: it raises.  LinearOperators are not added here. *)
Definition radd (x y : rep) : option rep :=
  match x, y with
  | Num a, Num b => Some (Num (a + b))
  | Spr n m f, Spr n' m' g =>
    if decide (n = n' ∧ m = m') then Some (Spr n m (λ i j, f i j + g i j)%R) else None
  | Spr n m f, r => a ← as_array r; sp_add n m f a
  | r, Spr n m f => a ← as_array r; sp_add n m f a
  | _, _ =>
    a ← as_array x; b ← as_array y;
    match bshape (sh a) (sh b) with
    | Some _ => Some (Arr (bop Rplus a b))
    | None => None
    end
  end.
(** reduce(lambda x, y: x+y, drs) *)
Definition rsum_reps (d : rep) (drs : list rep) : option rep :=
  foldl (λ acc y, x ← acc; radd x y) (Some d) drs.

(** reduce(lambda a, b: a.dot(x)+b.dot(x), drs) (ch.py:796): from the second step on, a
    is the vector computed before, and a.dot(x) an inner product. *)
Definition inner (u v : list R) : R := rsum (zip_with Rmult u v).
Definition lin_step (v : list R) (acc : option (rep + list R)) (b : rep) : option (rep + list R) :=
  a ← acc; y ← apply1 b v;
  match a with
  | inl r => x ← apply1 r v; z ← vadd x y; Some (inr z)
  | inr u => if decide (length u = length v) then Some (inr ((λ z, inner u v + z)%R <$> y)) else None
  end.
Definition lin_reduce (d : rep) (drs : list rep) (v : list R) : option (list R) :=
  match foldl (lin_step v) (Some (inl d)) drs with
  | Some (inr u) => Some u
  | _ => None
  end.

(** The sum in dr_wrt (ch.py:784-796): outer None for an exception. *)
Definition dsum (drs : list rep) : option (option rep) :=
  match drs with
  | [] => Some None
  | [d] => Some (Some d)
  | d :: drs' =>
    if existsb is_lin drs then
      '(n, m) ← shape2 d; Some (Some (Lin n m (lin_reduce d drs')))
    else r ← rsum_reps d drs'; Some (Some r)
  end.

(** np.count_nonzero *)
Definition nonzeros (a : arr R) : nat :=
  length (List.filter (λ i, if Req_EM_T (dat a i) 0 then false else true) (seq 0 (asize a))).
(** sp.csc_matrix of a number or array; None: it raises *)
Definition to_sparse (a : arr R) : option rep :=
  match sh a with
  | [] => Some (Spr 1 1 (λ _ _, dat a 0))
  | [n] => Some (Spr 1 n (λ _ j, dat a j))
  | [n; m] => Some (Spr n m (λ i j, dat a (i * m + j)))
  | _ => None
  end.
(** np.atleast_2d *)
Definition two_dims (a : arr R) : arr R :=
  match sh a with
  | [] => Arr_ [1; 1] (dat a)
  | [n] => Arr_ [1; n] (dat a)
  | _ => a
  end.
(** The end of dr_wrt (ch.py:798-812): results with few nonzeros become sparse (np.float64
    has a size, int and float have none; for one element it makes no difference). *)
Definition finish (r : rep) : option rep :=
  match as_array r with
  | None => Some r
  | Some a =>
    if decide (nonzeros a = 0 ∨ 10 * nonzeros a ≤ asize a) then to_sparse a
    else Some (Arr (two_dims a))
  end.

(* ------------------------------------------------------------------ *)
(** Objects: the Ch objects among their dterms, once per dterm, in any order, and what
    _compute_dr_wrt_sliced returns for an object (None is Python's None). *)
Record rnode := RNode { ops : list nat; jac : nat → option rep }.
Notation rgraph := (gmap nat rnode).

(** One round of the loop over the operands in forward mode (ch.py:757-786); [f p] is
    p.dr_wrt(wrt). *)
Definition add_forward (w : nat) (nd : rnode) (f : nat → option (option rep)) (acc : option (list rep)) (p : nat)
    : option (list rep) :=
  l ← acc;
  if decide (p = w) then Some l
  else dr2 ← f p;
       match dr2, jac nd p with
       | Some d2, Some j => r ← superdot j d2; Some (l ++ [r])
       | _, _ => Some l
       end.
(** The sum and the conversions (ch.py:788-812). *)
Definition conclude (drs : list rep) : option (option rep) :=
  res ← dsum drs;
  match res with
  | None => Some None
  | Some r => r' ← finish r; Some (Some r')
  end.

(** dr_wrt (ch.py:729-834), forward mode, without caches and without _make_dense and
    _make_sparse.  None: it raises (or [n] is too small); Some None: Python's None. *)
Fixpoint rdr (n : nat) (g : rgraph) (o w : nat) : option (option rep) :=
  match n with
  | O => None
  | S n' =>
    nd ← g !! o;
    drs ← foldl (add_forward w nd (λ p, rdr n' g p w)) (Some (option_list (jac nd w))) (ops nd);
    conclude drs
  end.

(** is_dr_wrt (ch.py:485-489); objects without operands are basic objects *)
Fixpoint isdr (n : nat) (g : rgraph) (o w : nat) : option bool :=
  match n with
  | O => None
  | S n' =>
    nd ← g !! o;
    match ops nd with
    | [] => Some (bool_decide (o = w))
    | _ => if decide (w ∈ ops nd) then Some true
           else bs ← mapM (λ p, isdr n' g p w) (ops nd); Some (existsb (λ b : bool, b) bs)
    end
  end.

(** [if direct_dr != None] (ch.py:658) for a value other than None: numpy compares the
    elements, and a truth value of several elements raises (None); no element is false. *)
Definition truth_ne_none (r : rep) : option bool :=
  match r with
  | Arr a => if decide (asize a = 1) then Some true else if decide (asize a = 0) then Some false else None
  | _ => Some true
  end.

(** One round of the loops over the operands in lmult_wrt, lop and reverse mode
    (ch.py:661-670, 698-705, 757-786): [use p] tells whether the operand is looked at,
    [left j] is the new left factor, [f l p] the recursive call. *)
Definition add_reverse (w : nat) (nd : rnode) (use : nat → option bool) (left : rep → option rep)
    (f : rep → nat → option (option rep)) (acc : option (list rep)) (p : nat) : option (list rep) :=
  l ← acc;
  if decide (p = w) then Some l
  else b ← use p;
       if b : bool then
         match jac nd p with
         | Some j => l' ← left j; r ← f l' p; Some (l ++ option_list r)
         | None => Some l
         end
       else Some l.

(** lmult_wrt (ch.py:647-681), left factor not None. *)
Fixpoint rlmult (n : nat) (g : rgraph) (lhs : rep) (o w : nat) : option (option rep) :=
  match n with
  | O => None
  | S n' =>
    nd ← g !! o;
    direct ← match jac nd w with
             | None => Some []
             | Some j => t ← truth_ne_none j;
                         if t : bool then r ← superdot lhs j; Some [r] else Some []
             end;
    drs ← foldl (add_reverse w nd (λ p, isdr n' g p w) (superdot lhs) (λ l p, rlmult n' g l p w)) (Some direct) (ops nd);
    match drs with
    | [] => Some None
    | d :: drs' => r ← rsum_reps d drs'; Some (Some r)
    end
  end.

(** dr_wrt with reverse_mode=True (ch.py:729-834) *)
Definition rdr_rev (n : nat) (g : rgraph) (o w : nat) : option (option rep) :=
  nd ← g !! o;
  drs ← foldl (add_reverse w nd (λ _, Some true) Some (λ l p, rlmult n g l p w))
              (Some (option_list (jac nd w))) (ops nd);
  conclude drs.

(** todense() (ch.py:707-709) *)
Definition densify (r : rep) : rep :=
  match r with Spr n m f => Arr (arr2 n m f) | _ => r end.

(** lop (ch.py:684-721) *)
Fixpoint rlop (n : nat) (g : rgraph) (lhs : rep) (o w : nat) : option (option rep) :=
  match n with
  | O => None
  | S n' =>
    nd ← g !! o;
    direct ← match jac nd w with
             | None => Some []
             | Some j => r ← superdot lhs j; Some [r]
             end;
    drs ← foldl (add_reverse w nd (λ _, Some true) (superdot lhs) (λ l p, rlop n' g l p w)) (Some direct) (ops nd);
    match densify <$> drs with
    | [] => Some None
    | d :: drs' => r ← rsum_reps d drs'; Some (Some r)
    end
  end.
