(** Reductions, extrema and clip as classes of the array library; by C29 the
    dictionary dr_cache of sum and mean makes no difference. *)
From Coq Require Import Reals.
From stdpp Require Import gmap strings list list_numbers.
From Verif Require Import EngineModel ArrModel ElemModel ReorderModel NpModel RedModel.

(** The term axis: missing means None. *)
Definition axis_term (tms : list (option nval)) : option (option Z) :=
  match tms with
  | [None] => Some None
  | [Some (NZs [k])] => Some (Some k)
  | _ => None
  end.
(** sum and mean (ch_ops.py:307-372) *)
Definition op_red (m : rfun) : npop := {|
  np_dt := ["x"%string]; np_tm := ["axis"%string]; np_perm := false;
  np_r tms vs := ax ← axis_term tms; match vs with [a] => red_r m ax a | _ => None end;
  np_jac tms vs _ := ax ← axis_term tms; match vs with [a] => Some <$> red_jac m ax a | _ => None end
|}.
(** cumsum (ch_ops.py:186-216) *)
Definition op_cumsum : npop := {|
  np_dt := ["a"%string]; np_tm := ["axis"%string]; np_perm := false;
  np_r tms vs := ax ← axis_term tms; match vs with [a] => cumsum_r ax a | _ => None end;
  np_jac tms vs _ := ax ← axis_term tms; match vs with [a] => Some <$> cumsum_jac ax a | _ => None end
|}.
(** SumOfSquares (ch_ops.py:386-394) *)
Definition op_sos : npop := {|
  np_dt := ["x"%string]; np_tm := []; np_perm := false;
  np_r _ vs := match vs with [a] => Some (sos_r a) | _ => None end;
  np_jac _ vs _ := match vs with [a] => Some (Some (sos_jac a)) | _ => None end
|}.
(** amax and amin (ch_ops.py:613-664) *)
Definition op_ext (mx : bool) : npop := {|
  np_dt := ["a"%string]; np_tm := ["axis"%string]; np_perm := false;
  np_r tms vs := ax ← axis_term tms; match vs with [a] => ext_r mx ax a | _ => None end;
  np_jac tms vs _ := ax ← axis_term tms; match vs with [a] => Some <$> ext_jac mx ax a | _ => None end
|}.
(** maximum and minimum (ch_ops.py:677-701) *)
Definition op_ext2 (mx : bool) : npop := {|
  np_dt := ["a"%string; "b"%string]; np_tm := []; np_perm := false;
  np_r _ vs := match vs with
    | [a; b] => match bshape (sh a) (sh b) with Some _ => Some (ext2_r mx a b) | None => None end
    | _ => None end;
  np_jac _ vs ws := match vs, ws with [a; b], [wa; wb] => Some (ext2_jac mx wa wb a b) | _, _ => None end
|}.
(** clip (ch_ops.py:294-305) *)
Definition op_clip : npop := {|
  np_dt := ["a"%string]; np_tm := ["a_min"%string; "a_max"%string]; np_perm := false;
  np_r tms vs := match tms, vs with [Some (NArr lo); Some (NArr hi)], [a] => Some (clip_r (dat lo 0) (dat hi 0) a) | _, _ => None end;
  np_jac tms vs _ := match tms, vs with [Some (NArr lo); Some (NArr hi)], [a] => Some <$> clip_jac (dat lo 0) (dat hi 0) a | _, _ => None end
|}.
