(** Model of floor, ceil, sign (chumpy/ch_ops.py:102-114), the comparisons
    (ch_ops.py:766-791) and NanDivide (ch_ops.py:421-448) over the reals. *)
From Coq Require Import Reals.
From stdpp Require Import list list_numbers numbers gmap.
From Verif Require Import ArrModel ElemModel.

Inductive sfun := Sfloor | Sceil | Ssign.
(** np.floor, np.ceil, np.sign (ch_ops.py:107-114) *)
Definition s_f (f : sfun) (x : R) : R :=
  match f with
  | Sfloor => IZR (Int_part x)
  | Sceil => (- IZR (Int_part (- x)))%R
  | Ssign => if Rlt_dec 0 x then 1%R else if Rlt_dec x 0 then (-1)%R else 0%R
  end.
(** compute_r *)
Definition step_r (f : sfun) (a : arr R) : arr R := amap (s_f f) a.
(** Simpleton.compute_dr_wrt (ch_ops.py:104-105) *)
Definition step_jac (f : sfun) (a : arr R) : option spm := None.

Inductive cfun := Cgreater | Cgreater_equal | Cless | Cless_equal | Cequal | Cnot_equal.
(** np.greater and so on (ch_ops.py:775-791); True is 1, False is 0 *)
Definition c_f (f : cfun) (x y : R) : R :=
  match f with
  | Cgreater => if Rlt_dec y x then 1%R else 0%R
  | Cgreater_equal => if Rle_dec y x then 1%R else 0%R
  | Cless => if Rlt_dec x y then 1%R else 0%R
  | Cless_equal => if Rle_dec x y then 1%R else 0%R
  | Cequal => if Req_EM_T x y then 1%R else 0%R
  | Cnot_equal => if Req_EM_T x y then 0%R else 1%R
  end.
(** BinaryElemwiseNoDrv.compute_r and compute_dr_wrt (ch_ops.py:769-773) *)
Definition cmp_r (f : cfun) (a b : arr R) : arr R := bop (c_f f) a b.
Definition cmp_jac (f : cfun) (wa wb : bool) (a b : arr R) : option spm := None.

(** Division of numpy: [None] stands for inf, -inf and nan. *)
Definition quot (x y : R) : option R := if Req_EM_T y 0 then None else Some (x / y)%R.
(** result\[np.isinf(result)\] = 0; result\[np.isnan(result)\] = 0 (ch_ops.py:430-431, 442-443) *)
Definition cleaned (o : option R) : R := default 0%R o.
(** NanDivide.compute_r (ch_ops.py:424-432) *)
Definition nandiv_r (a b : arr R) : arr R := amap cleaned (bop quot a b).
(** NanDivide.compute_dr_wrt (ch_ops.py:434-444) with divide.compute_dr_wrt
    (ch_ops.py:403-416) *)
Definition nandiv_jac (wa wb : bool) (a b : arr R) : option spm :=
  if eqb wa wb then None
  else let '(IS, JS) := broadcast_setup (sh a) (sh b) wa wb in
       let data := if wa then elems (bop quot (ones (sh a)) b)
                   else elems (bop (λ x y, quot (- x) (y * y)%R) a b) in
       Some (coo (size (default [] (bshape (sh a) (sh b)))) (if wa then asize a else asize b) (cleaned <$> data) IS JS).
