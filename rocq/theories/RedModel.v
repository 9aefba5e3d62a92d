(** Model of the reductions, extrema and clip (chumpy/ch_ops.py:186-216, 294-394,
    613-701).  Real numbers stand for floats.  An axis is None or one number. *)
From Coq Require Import Reals.
From stdpp Require Import list list_numbers numbers gmap.
From Verif Require Import ArrModel ElemModel ReorderModel.

(* ------------------------------------------------------------------ *)
(** numpy's reductions: over all elements, or along an axis. *)
Definition insert_at (k j : nat) (ix : list nat) : list nat := take k ix ++ j :: drop k ix.
Definition fold_axis {T U} (f : list T → U) (k : nat) (a : arr T) : arr U :=
  let rest := delete k (sh a) in
  Arr_ rest (λ i, f ((λ j, at_ a (insert_at k j (unravel rest i))) <$> seq 0 (nth k (sh a) 0))).
Definition np_fold {T U} (f : list T → U) (ax : option Z) (a : arr T) : option (arr U) :=
  match ax with
  | None => Some (Arr_ [] (λ _, f (elems a)))
  | Some k => k' ← naxis (length (sh a)) k; Some (fold_axis f k' a)
  end.

(* ------------------------------------------------------------------ *)
(** sum and mean *)
Inductive rfun := Fsum | Fmean.
Definition f_red (m : rfun) (l : list R) : R :=
  match m with Fsum => rsum l | Fmean => (rsum l / INR (length l))%R end.
(** compute_r (ch_ops.py:318-319, 352-353) *)
Definition red_r (m : rfun) (ax : option Z) (a : arr R) : option (arr R) := np_fold (f_red m) ax a.
(** the data: ch_ops.py:334, 368 *)
Definition weight (m : rfun) (d : nat) : R := match m with Fsum => 1%R | Fmean => (1 / INR d)%R end.
(** compute_dr_wrt(self.x) without the dictionary (ch_ops.py:321-336, 355-370); len(x.r)
    is the first dimension *)
Definition red_jac (m : rfun) (ax : option Z) (a : arr R) : option spm :=
  match ax with
  | None =>
    match m with
    | Fsum => Some (dense 1 (asize a) (λ _ _, 1%R))
    | Fmean => let n := nth 0 (sh a) 0 in Some (dense 1 n (λ _ _, (1 / INR n)%R))
    end
  | Some k =>
    r ← atleast_1d <$> red_r m ax a;
    pre ← reorder 0 (Rollaxis k 0) (arange (sh a));
    post ← reorder 0 (Tile (nth 0 (sh pre) 0 :: replicate (length (sh pre) - 1) 1)) (arange (sh r));
    k' ← naxis (length (sh a)) k;
    Some (coo (asize r) (asize a) (replicate (asize post) (weight m (nth k' (sh a) 0))) (elems post) (elems pre))
  end.
(** with the dictionary dr_cache of the object (ch_ops.py:326-337, 360-371) *)
Definition red_uid (s : shp) (k : Z) : list Z := (Z.of_nat <$> s) ++ [k].
Notation dr_cache := (list (list Z * spm)).
Definition find_uid (u : list Z) (st : dr_cache) : option spm := snd <$> (snd <$> list_find (λ e, e.1 = u) st).
Definition red_jac_memo (m : rfun) (ax : option Z) (a : arr R) (st : dr_cache) : dr_cache * option spm :=
  match ax with
  | None => (st, red_jac m ax a)
  | Some k =>
    match find_uid (red_uid (sh a) k) st with
    | Some J => (st, Some J)
    | None => match red_jac m ax a with
              | Some J => ((red_uid (sh a) k, J) :: st, Some J)
              | None => (st, None)
              end
    end
  end.
(** var: the mean of a ** 2. (ch_ops.py:375-378) *)
Definition var_r (ax : option Z) (a : arr R) : option (arr R) := red_r Fmean ax (binary Bpower a (full [1] 2%R)).

(** SumOfSquares (ch_ops.py:386-394) *)
Definition sos_r (a : arr R) : arr R := Arr_ [] (λ _, rsum ((λ x, npower x 2) <$> elems a)).
Definition sos_jac (a : arr R) : spm := dense 1 (asize a) (λ _ j, (dat a j * 2)%R).

(* ------------------------------------------------------------------ *)
(** cumsum (ch_ops.py:186-216) *)
Definition cumsum_r (ax : option Z) (a : arr R) : option (arr R) :=
  match ax with
  | None => Some (Arr_ [asize a] (λ i, rsum (dat a <$> seq 0 (S i))))
  | Some k =>
    k' ← naxis (length (sh a)) k;
    Some (Arr_ (sh a) (λ i, let ix := unravel (sh a) i in rsum ((λ j, at_ a (<[k' := j]> ix)) <$> seq 0 (S (nth k' ix 0)))))
  end.
Definition cumsum_jac (ax : option Z) (a : arr R) : option spm :=
  match ax with
  | Some _ => None (* NotImplementedError *)
  | None =>
    let n := asize a in
    IS ← reorder 0 (Tile [n; 1]) (arange [1; n]);
    JS ← reorder 0 (Transpose None) IS;
    let which := filter (λ e, e.2 ≤ e.1) (zip (elems IS) (elems JS)) in
    Some (coo n n (replicate (length which) 1%R) which.*1 which.*2)
  end.

(* ------------------------------------------------------------------ *)
(** amax (true) and amin (false) *)
Global Instance R_eq_decision : EqDecision R := Req_EM_T.
Global Instance Rlt_decision : RelDecision Rlt := Rlt_dec.
Definition best (mx : bool) (x y : R) : R := if mx then Rmax x y else Rmin x y.
Definition beats (mx : bool) (x y : R) : bool := if mx then bool_decide (y < x)%R else bool_decide (x < y)%R.
Definition list_best (mx : bool) (l : list R) : R := match l with [] => 0%R | x :: l' => foldl (best mx) x l' end.
(** argmax and argmin: the first of equal elements *)
Fixpoint argbest_from (mx : bool) (x : R) (at_x i : nat) (l : list R) : nat :=
  match l with
  | [] => at_x
  | y :: l' => if beats mx y x then argbest_from mx y i (S i) l' else argbest_from mx x at_x (S i) l'
  end.
Definition argbest (mx : bool) (l : list R) : nat := match l with [] => 0 | x :: l' => argbest_from mx x 0 1 l' end.
Definition list_min (l : list nat) : nat := match l with [] => 0 | x :: l' => foldl Nat.min x l' end.

(** The elements reduced together; numpy raises if there are none. *)
Definition fold_count (ax : option Z) (s : shp) : option nat :=
  match ax with
  | None => Some (size s)
  | Some k => k' ← naxis (length s) k; s !! k'
  end.
Definition ext_r (mx : bool) (ax : option Z) (a : arr R) : option (arr R) :=
  n ← fold_count ax (sh a); if decide (n = 0) then None else np_fold (list_best mx) ax a.
(** The strides of a C-contiguous array, in elements. *)
Definition strides (s : shp) : list nat := (λ k, size (drop (S k) s)) <$> seq 0 (length s).
(** _stride_for_axis (ch_ops.py:642-653) *)
Definition stride_for_axis (ax : option Z) (a : arr R) : option (arr nat * nat) :=
  match ax with
  | None => Some (Arr_ [1] (λ _, 0), 1)
  | Some k =>
    mn ← np_fold list_min ax (arange (sh a));
    k' ← naxis (length (sh a)) k;
    Some (mn, nth k' (strides (sh a)) 0 / list_min (strides (sh a)))
  end.
(** compute_dr_wrt(self.a) (ch_ops.py:629-640); the scalar it returns for a single element
    is a 1 x 1 matrix here *)
Definition ext_jac (mx : bool) (ax : option Z) (a : arr R) : option spm :=
  r ← ext_r mx ax a;
  '(mn, stride) ← stride_for_axis ax a;
  argf ← np_fold (argbest mx) ax a;
  let JS := bop Nat.add mn (amap (λ i, stride * i) argf) in
  Some (coo (asize r) (asize a) (replicate (asize JS) 1%R) (seq 0 (asize JS)) (elems JS)).

(* ------------------------------------------------------------------ *)
(** maximum (true) and minimum (false) (ch_ops.py:677-701) *)
Definition ext2_r (mx : bool) (a b : arr R) : arr R := bop (best mx) a b.
Definition keep {A} (l : list A) (w : list bool) : list A := fst <$> filter (λ e, e.2 = true) (zip l w).
Definition ext2_jac (mx : bool) (wa wb : bool) (a b : arr R) : option spm :=
  if negb wa && negb wb then None
  else
    let '(IS, JS) := broadcast_setup (sh a) (sh b) wa wb in
    let shift x := (x - best mx 1 (-1))%R in
    let r := ext2_r mx a b in
    let other := if wa then ext2_r mx a (amap shift b) else ext2_r mx b (amap shift a) in
    let which := zip_with (λ x y, bool_decide (x = y)) (elems r) (elems other) in
    let JS' := keep JS which in
    Some (coo (asize r) (if wa then asize a else asize b) (replicate (length JS') 1%R) (keep IS which) JS').

(* ------------------------------------------------------------------ *)
(** clip with numbers a_min and a_max (ch_ops.py:294-305) *)
Definition clip1 (lo hi x : R) : R := Rmin (Rmax x lo) hi.
Definition clip_r (lo hi : R) (a : arr R) : arr R := amap (clip1 lo hi) a.
Definition clip_jac (lo hi : R) (a : arr R) : option spm :=
  let result := amap (λ y, if decide (y ≠ lo ∧ y ≠ hi) then 1%R else 0%R) (clip_r lo hi a) in
  match sh result with
  | n :: _ => if decide (1 < n) then Some (diags (elems result)) else atleast_2d result
  | [] => None
  end.
