(** Property C55: Python's protocols. *)
From Coq Require Import Reals Lra.
From stdpp Require Import list list_numbers numbers gmap.
From Verif Require Import ArrModel Curve ElemModel ElemSpec ReorderModel StepModel ProtoModel ProtoSpec ProtoThms.

(** C55. A loop over x ends after len(x) items, the rows of x in order. *)
Theorem C55_iter a n s fuel : sh a = n :: s → n < fuel → ∃ l,
  py_iter fuel 0 a = Some l ∧ py_len a = Some (length l) ∧ length l = n ∧ ∀ i b, l !! i = Some b → is_row a i b.
Proof. exact (iter_rows a n s fuel). Qed.
Print Assumptions C55_iter.
(** Their derivatives with respect to x pick the elements of the row. *)
Theorem C55_iter_jacobian n s fuel : n < fuel → ∃ l, py_iter_idxs fuel 0 (n :: s) = Some l ∧ length l = n ∧
  ∀ i idxs, l !! i = Some idxs → fits (select_jac idxs (size (n :: s))) (size s) (size (n :: s)) ∧
    ∀ jx kx, inside s jx → inside (n :: s) kx →
      entry (select_jac idxs (size (n :: s))) (ravel s jx) (ravel (n :: s) kx) = if decide (kx = i :: jx) then 1%R else 0%R.
Proof. exact (iter_jacobian n s fuel). Qed.
Print Assumptions C55_iter_jacobian.
(** The builtin sum adds up along the first axis. *)
Theorem C55_sum a n s fuel : sh a = S n :: s → S n < fuel → ∃ l c, py_iter fuel 0 a = Some l ∧ py_sum l = Some c ∧
  sh c = (match s with [] => [1] | _ => s end) ∧
  ∀ jx, inside s jx → dat c (ravel s jx) = sum_upto (S n) (λ i, at_ a (i :: jx)).
Proof. exact (sum_rows a n s fuel). Qed.
Print Assumptions C55_sum.
Example C55_iter_case : (length <$> py_iter 5 0 (of_list 0%R [2; 3] [1; 2; 3; 4; 5; 6]%R)) = Some 2 ∧
  (fmap (M:=list) elems <$> py_iter 5 0 (of_list 0%R [2; 3] [1; 2; 3; 4; 5; 6]%R)) = Some [[1; 2; 3]; [4; 5; 6]]%R ∧
  (fmap (M:=list) sh <$> py_iter 5 0 (of_list 0%R [2] [1; 2]%R)) = Some [[1]; [1]] ∧
  py_iter_idxs 5 0 [2; 3] = Some [[0; 1; 2]; [3; 4; 5]].
Proof. done. Qed.

(** float and int *)
Theorem C55_float a : (∀ x, py_float a = Some x ↔ asize a = 1 ∧ x = dat a 0) ∧ (py_float a = None ↔ asize a ≠ 1).
Proof. exact (float_value a). Qed.
Print Assumptions C55_float.
Theorem C55_int a k : py_int a = Some k → asize a = 1 ∧ cut_of (dat a 0) k.
Proof. exact (int_value a k). Qed.
Print Assumptions C55_int.
Example C55_float_case : py_float (Arr_ [1; 1] (λ _, 3%R)) = Some 3%R ∧ py_float (Arr_ [2] (λ _, 3%R)) = None ∧
  py_int (Arr_ [1] (λ _, -(1/2))%R) ≠ None ∧ ∀ k, cut_of (-(1/2))%R k → k = 0%Z.
Proof.
  split_and!; [done|done|done|]. intros k [_ H]. assert (IZR k - 1 < - (1 / 2) <= IZR k)%R as [H1 H2] by (apply H; lra).
  assert (k < 1)%Z by (apply lt_IZR; simpl; lra). assert (-1 < k)%Z by (apply lt_IZR; simpl; lra). lia.
Qed.

(** The comparison of two one-element objects holds 1 or 0 as the numbers compare, … *)
Theorem C55_compare f a b x : sh a = [1] → sh b = [1] → py_float a = Some x → ∀ y, py_float b = Some y →
  ∃ c v, py_compare f a b = Some c ∧ py_float c = Some v ∧ (v = 1%R ↔ stands_in f x y) ∧ (v = 0%R ↔ ¬ stands_in f x y).
Proof. exact (compare_float f a b x). Qed.
Print Assumptions C55_compare.
(** … but its truth is whether it has elements: *)
Theorem C55_truth a : sh a ≠ [] → ∃ t, py_truth a = Some t ∧ (t = true ↔ ∃ n s, sh a = n :: s ∧ n ≠ 0).
Proof. exact (truth_value a). Qed.
Print Assumptions C55_truth.
Theorem C55_if_always f a b c : asize a ≠ 0 → asize b ≠ 0 → py_compare f a b = Some c → py_truth c = Some true.
Proof. exact (compare_true f a b c). Qed.
Print Assumptions C55_if_always.
(** so "if a < b" holds although a is greater. *)
Theorem C55_if_refuted : ∃ a b c, sh a = [1] ∧ sh b = [1] ∧ py_compare Cless a b = Some c ∧ py_truth c = Some true ∧
  ¬ (dat a 0 < dat b 0)%R.
Proof. exact if_wrong. Qed.
Print Assumptions C55_if_refuted.
Example C55_if_case : ∃ c, py_compare Cless (Arr_ [2] (λ _, 2%R)) (Arr_ [1] (λ _, 1%R)) = Some c ∧ sh c = [2].
Proof. by eexists. Qed.
(** max and min both return the last object. *)
Theorem C55_max_min s l x : size s ≠ 0 → Forall (λ b, sh b = s) (l ++ [x]) → py_max (l ++ [x]) = Some x ∧ py_min (l ++ [x]) = Some x.
Proof. exact (maxmin_last s l x). Qed.
Print Assumptions C55_max_min.
Theorem C55_max_refuted : ∃ a b m, sh a = [1] ∧ sh b = [1] ∧ py_max [a; b] = Some m ∧ (dat m 0 < dat a 0)%R.
Proof. exact max_wrong. Qed.
Print Assumptions C55_max_refuted.
Example C55_max_case : Forall (λ b : arr R, sh b = [1]) ([Arr_ [1] (λ _, 2%R); Arr_ [1] (λ _, 3%R)] ++ [Arr_ [1] (λ _, 1%R)]).
Proof. repeat constructor. Qed.
