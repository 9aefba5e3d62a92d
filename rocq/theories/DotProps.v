(** Properties C31, C33 and C35: products of arrays. *)
From Coq Require Import Reals Lra.
From stdpp Require Import gmap strings list list_numbers numbers.
From Verif Require Import EngineModel EngineSpec GraphSpec ArrModel Curve ArrThms ElemModel ReorderModel ReorderSpec NpModel NpSpec
  DotModel DotSpec DotThms DotThms2 TensorThms DotOps.

(** C31. The value of dot is defined exactly for fitting shapes, and sums the last axis of
    the left operand against the last but one (or only) axis of the right one. *)
Theorem C31_value a b : (is_Some (np_dot a b) ↔ dot_shapes (sh a) (sh b)) ∧ ∀ y, np_dot a b = Some y → is_dot a b y.
Proof. exact (dot_value a b). Qed.
Print Assumptions C31_value.
(** For a vector or matrix on the right, and an array of any rank on the left, dot's
    Jacobians have the right dimensions and are its derivatives. *)
Theorem C31_jacobian a b y : np_dot a b = Some y → length (sh b) ≤ 2 → 0 < nth 0 (sh b) 0 →
  ∃ Ja Jb, dot_jac true false a b = Some (Some Ja) ∧ dot_jac false true a b = Some (Some Jb) ∧
    fits Ja (asize y) (asize a) ∧ fits Jb (asize y) (asize b) ∧ diff2 (λ u v, default u (np_dot u v)) Ja Jb a b.
Proof. exact (dot_both a b y). Qed.
Print Assumptions C31_jacobian.
(** ... and when both operands are the same object. *)
Theorem C31_same a y : np_dot a a = Some y → length (sh a) ≤ 2 → 0 < nth 0 (sh a) 0 →
  ∃ J, dot_jac true true a a = Some (Some J) ∧ fits J (asize y) (asize a) ∧ diff1 (λ x, default x (np_dot x x)) J a.
Proof. exact (dot_same_right a y). Qed.
Print Assumptions C31_same.
Example C31_case : let a := of_list 0%R [2; 2] [1; 2; 3; 4]%R in let v := of_list 0%R [2] [5; 6]%R in
  (∃ y, np_dot a v = Some y ∧ elems y = [17; 39]%R) ∧ (∃ y, np_dot v a = Some y ∧ elems y = [23; 34]%R) ∧
  (∃ y, np_dot v v = Some y ∧ sh y = [] ∧ elems y = [61]%R) ∧ is_Some (np_dot a a) ∧
  (match dot_jac true false v a with Some (Some J) => fst <$> trip J | _ => [] end) = [(0, 0); (0, 1); (1, 0); (1, 1)] ∧
  (match dot_jac false true a a with Some (Some J) => fst <$> trip J | _ => [] end) = [(0, 0); (1, 1); (0, 2); (1, 3); (2, 0); (3, 1); (2, 2); (3, 3)].
Proof.
  split_and!; [eexists; split; [reflexivity|]; unfold elems; cbn; repeat f_equal; lra..| |by eexists|by vm_compute|by vm_compute].
  eexists. split; [reflexivity|]. split; [done|]. unfold elems. cbn. repeat f_equal; lra.
Qed.
(** With more than two dimensions on the right, it is not. *)
Theorem C31_rank_refuted : ∃ a b Ja Jb, length (sh b) = 3 ∧ is_Some (np_dot a b) ∧ dot_jac true false a b = Some (Some Ja) ∧ dot_jac false true a b = Some (Some Jb) ∧
  ¬ diff2 (λ u v, default u (np_dot u v)) Ja Jb a b.
Proof. exact dot_wrong. Qed.
Print Assumptions C31_rank_refuted.
(** If the summed axis is empty the value is zero but the Jacobian raises. *)
Theorem C31_empty_refuted : ∃ a b y, np_dot a b = Some y ∧ length (sh a) = 2 ∧ length (sh b) = 2 ∧ dot_jac true false a b = None.
Proof. exact dot_empty. Qed.
Print Assumptions C31_empty_refuted.
(** A sparse matrix times a vector. *)
Theorem C31_matvec m v y : in_range m → matvec_r m v = Some y →
  (asize y = nrow m ∧ ncol m = asize v ∧ ∀ i, dat y i = mact m (elem v) i) ∧
  fits m (asize y) (asize v) ∧ diff1 (λ x, default x (matvec_r m x)) m v.
Proof. exact (λ Hr Hy, conj (matvec_value m v y Hy) (matvec_right m v y Hr Hy)). Qed.
Print Assumptions C31_matvec.
(** The result has the columns of the operand if that has more than one. *)
Theorem C31_matvec_shape m v y : matvec_r m v = Some y →
  (∀ n c rest, sh v = n :: c :: rest → 1 < c → ∃ k, sh y = [k; c] ∧ k * c = nrow m) ∧
  ((∀ n c rest, sh v = n :: c :: rest → c ≤ 1) → sh y = [nrow m]).
Proof. exact (matvec_shape m v y). Qed.
Print Assumptions C31_matvec_shape.
Example C31_matvec_case : let m := Spm 4 6 [(0, 1, 2%R); (3, 5, 7%R)] in let v := of_list 0%R [3; 2] [1; 2; 3; 4; 5; 6]%R in
  in_range m ∧ ∃ y, matvec_r m v = Some y ∧ sh y = [2; 2] ∧ elems y = [4; 0; 0; 42]%R.
Proof.
  intros m v. split; [by repeat constructor; simpl; lia|]. exists (Arr_ [2; 2] (mact m (elem v))). split; [reflexivity|]. split; [done|].
  change ([mact m (elem v) 0; mact m (elem v) 1; mact m (elem v) 2; mact m (elem v) 3] = [4; 0; 0; 42]%R).
  unfold mact, rsum. cbn. unfold elem, m. simpl. repeat f_equal; lra.
Qed.
(** C19_dr_wrt_is_jacobian_arrays applies to graphs with these classes. *)
Theorem C19_dot_is_right (g : graph) x c q1 q2 a b y : g !! x = Some c → c_cls nplib c = NOp op_dot → c_dt nplib c = ["a"; "b"]%string → c_tm nplib c = [] →
  c_attr nplib c !! "a"%string = Some (@ARef nplib q1) → c_attr nplib c !! "b"%string = Some (@ARef nplib q2) →
  denotes nplib g q1 QR a → denotes nplib g q2 QR b → np_dot a b = Some y → length (sh b) ≤ 2 → 0 < nth 0 (sh b) 0 → fine_at g x.
Proof. exact (fine_dot g x c q1 q2 a b y). Qed.
Print Assumptions C19_dot_is_right.
Theorem C19_matvec_is_right (g : graph) x c m q v y : g !! x = Some c → c_cls nplib c = NOp (op_matvec m) → c_dt nplib c = ["vec"]%string → c_tm nplib c = [] →
  c_attr nplib c !! "vec"%string = Some (@ARef nplib q) → denotes nplib g q QR v → in_range m → matvec_r m v = Some y → fine_at g x.
Proof. exact (fine_matvec g x c m q v y). Qed.
Print Assumptions C19_matvec_is_right.
Theorem C19_cross_is_right (g : graph) x c q1 q2 a b y : g !! x = Some c → c_cls nplib c = NOp op_cross → c_dt nplib c = ["a"; "b"]%string → c_tm nplib c = [] →
  c_attr nplib c !! "a"%string = Some (@ARef nplib q1) → c_attr nplib c !! "b"%string = Some (@ARef nplib q2) → q1 ≠ q2 →
  denotes nplib g q1 QR a → denotes nplib g q2 QR b → np_cross a b = Some y → fine_at g x.
Proof. exact (fine_cross g x c q1 q2 a b y). Qed.
Print Assumptions C19_cross_is_right.

(** C33. cross takes the cross product of each pair of rows, ... *)
Theorem C33_value h a b : sh a = [h; 3] → sh b = [h; 3] → ∃ y, np_cross a b = Some y ∧ sh y = [h; 3] ∧
  ∀ r c, r < h → c < 3 → at_ y [r; c] = cross3 (λ k, at_ a [r; k]) (λ k, at_ b [r; k]) c.
Proof. exact (cross_value h a b). Qed.
Print Assumptions C33_value.
(** ... and its Jacobians are its derivatives, if the operands are two objects. *)
Theorem C33_jacobian a b y : np_cross a b = Some y → ∃ Ja Jb, cross_jac true false a b = Some (Some Ja) ∧ cross_jac false true a b = Some (Some Jb) ∧
  fits Ja (asize y) (asize a) ∧ fits Jb (asize y) (asize b) ∧ diff2 (λ u v, default u (np_cross u v)) Ja Jb a b.
Proof. exact (cross_right a b y). Qed.
Print Assumptions C33_jacobian.
Example C33_case : let a := of_list 0%R [2; 3] [1; 2; 3; 4; 5; 6]%R in let b := of_list 0%R [2; 3] [1; 0; 0; 0; 2; 0]%R in
  ∃ y, np_cross a b = Some y ∧ elems y = [0; 3; -2; -12; 0; 8]%R ∧
  match cross_jac true false a b with Some (Some J) => fst <$> trip J | _ => [] end =
    [(0, 0); (0, 1); (0, 2); (1, 0); (1, 1); (1, 2); (2, 0); (2, 1); (2, 2); (3, 3); (3, 4); (3, 5); (4, 3); (4, 4); (4, 5); (5, 3); (5, 4); (5, 5)].
Proof. eexists. split; [reflexivity|]. split; [|by vm_compute]. unfold elems. cbn. repeat f_equal; lra. Qed.
(** With one object twice, only the first use is counted. *)
Theorem C33_same_refuted : ∃ a J y, np_cross a a = Some y ∧ cross_jac true true a a = Some (Some J) ∧ ¬ diff1 (λ x, default x (np_cross x x)) J a.
Proof. exact cross_same_wrong. Qed.
Print Assumptions C33_same_refuted.

(** C35. tensordot is defined exactly if the axes exist, are distinct, and agree in length
    pair by pair (and none is empty); its element at [ix ++ jx] is the sum over all
    indices of the contracted axes of the products. *)
Theorem C35_tensordot x a b : let '(la, lb) := axes_lists x in
  (is_Some (tensordot x a b) ↔ ∃ axa axb, axes_ok a b la lb axa axb) ∧
  ∀ axa axb y, axes_ok a b la lb axa axb → tensordot x a b = Some y → is_tensordot axa axb a b y.
Proof. exact (tensordot_right x a b). Qed.
Print Assumptions C35_tensordot.
(** A number of axes means the last ones of the left and the first ones of the right operand. *)
Theorem C35_number n (a b : arr R) axa axb : axes_ok a b (axes_lists (ANum (Z.of_nat n))).1 (axes_lists (ANum (Z.of_nat n))).2 axa axb →
  axa = seq (length (sh a) - n) n ∧ axb = seq 0 n ∧ n ≤ length (sh a) ∧ n ≤ length (sh b).
Proof. exact (tensordot_num n a b axa axb). Qed.
Print Assumptions C35_number.
(** The multi-index of an operand is determined by its parts. *)
Theorem C35_unique axs mx mx' ix cx : length mx = length mx' → made_of axs mx ix cx → made_of axs mx' ix cx → mx = mx'.
Proof. exact (made_of_unique axs mx mx' ix cx). Qed.
Print Assumptions C35_unique.
Example C35_case : let a := of_list 0%R [2; 3; 2] [1; 2; 3; 4; 5; 6; 7; 8; 9; 10; 11; 12]%R in let b := of_list 0%R [3; 2] [1; 0; 0; 1; 0; 2]%R in
  axes_ok a b [-2; 0]%Z [0; 1]%Z [1; 0] [0; 1] ∧
  (∃ y, tensordot (ALists [-2; 0]%Z [0; 1]%Z) a b = Some y ∧ sh y = [2] ∧ elems y = [32; 36]%R) ∧
  tensordot (ALists [1; 1]%Z [0; 0]%Z) a b = None ∧ tensordot (ANum 1) a b = None ∧
  (∃ y, tensordot (ANum 0) b b = Some y ∧ sh y = [3; 2; 3; 2]) ∧ made_of [1; 0] [0; 2; 1] [1] [2; 0].
Proof.
  split_and!.
  - unfold axes_ok. split_and!.
    + repeat constructor; simpl; lia.
    + repeat constructor; simpl; lia.
    + repeat constructor; set_solver.
    + repeat constructor; set_solver.
    + done.
    + intros [|[|i]] k l; simpl; [by intros [= <-] [= <-]..|done].
    + intros k Hk. assert (k = 1 ∨ k = 0) as [->| ->] by set_solver; done.
  - eexists. split; [reflexivity|]. split; [done|]. cbv -[Rplus Rmult IZR]. repeat f_equal; lra.
  - done.
  - done.
  - eexists. split; [reflexivity|]. done.
  - split; [intros [|[|i]] k; simpl; [by intros [= <-]..|done]|]. exists [2]. split_and!; [|repeat constructor|done|intros [|i] k; simpl; [by intros [= <-]|done]].
    intros k. rewrite elem_of_list_singleton. split; [intros ->; split; [simpl; lia|set_solver]|].
    intros [Hk Hn]. simpl in Hk. destruct k as [|[|[|k]]]; [set_solver..|lia].
Qed.
