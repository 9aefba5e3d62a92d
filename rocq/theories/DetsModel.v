(** Model of det and slogdet of several matrices (chumpy/linalg.py:119-151, 277-287).
    Exact arithmetic; np.linalg.det and inv of each matrix are those of LinModel. *)
From Coq Require Import Reals.
From stdpp Require Import list list_numbers numbers gmap.
From Verif Require Import ArrModel ElemModel ReorderModel DotModel LinModel ConcModel.

(** np.linalg.det of an array of matrices: one number for each, in the leading axes;
    Det.compute_r (linalg.py:146-147) *)
Definition np_dets (a : arr R) : option (arr R) :=
  '(pre, n) ← squares (sh a); Some (Arr_ pre (λ t, detn n (blk a n t))).
(** np.linalg.slogdet of an array of matrices: the logarithms; None when one of them is
    minus infinity.  LogAbsDet.on_changed and compute_r (linalg.py:122-126) *)
Definition np_logdets (a : arr R) : option (arr R) :=
  '(pre, n) ← squares (sh a);
  ls ← mapM (λ t, let d := detn n (blk a n t) in if Req_EM_T d 0 then None else Some (ln (Rabs d))) (seq 0 (size pre));
  Some (of_list 0%R pre ls).

(** row (utils.py:9-10): all elements in one row *)
Definition row (a : arr R) : spm := dense 1 (asize a) (λ _ q, dat a q).
(** x.T of an array: all axes reversed *)
Definition turned (a : arr R) : option (arr R) := reorder 0%R (Transpose None) a.
(** r * x of arrays, None if the shapes do not go together *)
Definition times (a b : arr R) : option (arr R) := _ ← bshape (sh a) (sh b); Some (bop Rmult a b).
(** Det.compute_dr_wrt (linalg.py:149-151) *)
Definition dets_jac (a : arr R) : option spm :=
  r ← np_dets a; X ← np_inv a; T ← turned X; p ← times r T; Some (row p).
(** LogAbsDet.compute_dr_wrt (linalg.py:128-130) *)
Definition logdets_jac (a : arr R) : option spm := X ← np_inv a; T ← turned X; Some (row T).

(** The value of the second result of slogdet (linalg.py:277-287); several arguments go
    through ch_concatenate (reordering.py:435-445). *)
Definition slogdet (l : list (arr R)) : option (arr R) :=
  match l with
  | [a] => np_logdets a
  | _ => vs ← mapM np_logdets l; concat 0 vs
  end.
