(** Property C76: what is assigned is what is read, in double precision. *)
From Coq Require Import ZArith Reals Lra Lia.
From Flocq Require Import Core IEEE754.BinarySingleNaN.
From Verif Require Import Dog64 StoreModel StoreSpec StoreThms.
From stdpp Require Import list numbers.

(** Ch(v) or Ch(x=v), then assignments of arrays and items.  Missing: floats put into arrays of
    integers, views. *)
Theorem C76_stored_partial (named : bool) v os h' : fits64 v → Forall op_fits os → let h := if named then by_name v else by_position v in
  tame (of_floats h) os → run h os = Some h' → ∃ l, doubles v l ∧ meant_all l os (floats h').
Proof. exact (run_built named v os h'). Qed.
Print Assumptions C76_stored_partial.
Example C76_stored_case : ∃ v os h', fits64 v ∧ Forall op_fits os ∧ tame (of_floats (by_position v)) os ∧ run (by_position v) os = Some h' ∧
  os = [SetItem [2; 0] (Flts false [half64; of_int 7]); SetX (Ints true [4; 5]%Z); SetItem [1] (Ints false [-3]%Z)].
Proof.
  exists (Ints false [1; 2; 3]%Z). eexists _, _. split; [simpl; repeat constructor; lia|]. split; [|split; [|split; [|reflexivity]]]; [repeat constructor; simpl; repeat constructor; lia| |reflexivity].
  simpl. split_and!; try done; [|by left|apply NoDup_singleton|by right]. apply (NoDup_cons_2 2 [0]); [by intros [? | []%elem_of_nil]%elem_of_cons|apply NoDup_singleton].
Qed.
(** integers up to 2**53 come back exactly; the order is kept *)
Theorem C76_exact z : (Z.abs z ≤ 2 ^ 53)%Z → fin64 (of_int z) ∧ B2R (of_int z) = IZR z.
Proof. exact (of_int_exact z). Qed.
Print Assumptions C76_exact.
Theorem C76_order z z' : (- 2 ^ 63 ≤ z < 2 ^ 63)%Z → (- 2 ^ 63 ≤ z' < 2 ^ 63)%Z → (z ≤ z')%Z → (B2R (of_int z) <= B2R (of_int z'))%R.
Proof. exact (of_int_le z z'). Qed.
Print Assumptions C76_order.
(** 2**53 + 1 does not, and equals another *)
Theorem C76_big_refuted : ∃ z, (- 2 ^ 63 ≤ z < 2 ^ 63)%Z ∧ B2R (of_int z) ≠ IZR z ∧ ∃ z', z' ≠ z ∧ B2R (of_int z') = B2R (of_int z).
Proof. exact big_lost. Qed.
Print Assumptions C76_big_refuted.
(** c = Ch(x=np.array(\[1, 2, 3\])); c\[0\] = 0.5 stores 0, *)
Theorem C76_ints_refuted : ∃ v ps w h', fits64 v ∧ run (by_name v) [SetItem ps (Flts true [w])] = Some h' ∧ ps = [0] ∧ fin64 w ∧
  ∃ y, floats h' !! 0 = Some y ∧ Beqb y w = false ∧ Beqb y (of_int 0) = true.
Proof. exact ints_cut. Qed.
Print Assumptions C76_ints_refuted.
(** also for c.x = np.array(\[1, 2, 3\]) after Ch(...). *)
Theorem C76_ints_later_refuted : ∃ v ps w h', run (by_position (Ints true [1; 2; 3]%Z)) [SetX v; SetItem ps (Flts true [w])] = Some h' ∧ ps = [0] ∧ fin64 w ∧
  ∃ y, floats h' !! 0 = Some y ∧ Beqb y w = false.
Proof. exact ints_cut_later. Qed.
Print Assumptions C76_ints_later_refuted.
(** What is stored then: fractions are cut off, always. *)
Theorem C76_ints ps a l b vs h' : setitem ps (Flts b vs) (Ints a l) = Some h' → NoDup ps → ∀ p i w, ps !! p = Some i → vs !! p = Some w →
  ∃ z, floats h' !! i = Some (of_int z) ∧ fin64 w ∧ z = Ztrunc (B2R w).
Proof. exact (item_ints ps a l b vs h'). Qed.
Print Assumptions C76_ints.

(** Assignment through views: exact if the old and the new number have a double as sum.
    Missing: all others. *)
Theorem C76_view_partial ps v h h' : setview ps v h = Some h' → NoDup ps → ∀ p i w x, ps !! p = Some i → floats v !! p = Some w → floats h !! i = Some x →
  fin64 x → fin64 w → generic_format radix2 fexp64 (B2R x + B2R w) → (Rabs (B2R x + B2R w) < bpow radix2 1024)%R → ∃ y, floats h' !! i = Some y ∧ fin64 y ∧ B2R y = B2R w.
Proof. exact (view_exact ps v h h'). Qed.
Print Assumptions C76_view_partial.
(** in particular integers up to 2**52 *)
Theorem C76_small_partial ps v h h' : setview ps v h = Some h' → NoDup ps → ∀ p i w x m n, ps !! p = Some i → floats v !! p = Some w → floats h !! i = Some x →
  fin64 x → fin64 w → B2R x = IZR m → B2R w = IZR n → (Z.abs m ≤ 2 ^ 52)%Z → (Z.abs n ≤ 2 ^ 52)%Z → ∃ y, floats h' !! i = Some y ∧ fin64 y ∧ B2R y = B2R w.
Proof. exact (view_small ps v h h'). Qed.
Print Assumptions C76_small_partial.
(** and otherwise off by a fraction of both numbers, the old one too *)
Theorem C76_near_partial ps v h h' : setview ps v h = Some h' → NoDup ps → ∀ p i w x, ps !! p = Some i → floats v !! p = Some w → floats h !! i = Some x →
  fin64 x → fin64 w → (Rabs (B2R x) <= bpow radix2 1021)%R → (Rabs (B2R w) <= bpow radix2 1021)%R → ∃ y, floats h' !! i = Some y ∧ fin64 y ∧
  (Rabs (B2R y - B2R w) <= bpow radix2 (-51) * (Rabs (B2R x) + Rabs (B2R w)) + bpow radix2 (-1072))%R.
Proof. exact (view_near ps v h h'). Qed.
Print Assumptions C76_near_partial.
(** NaN and infinities are written over finite numbers, *)
Theorem C76_inf ps v h h' : setview ps v h = Some h' → NoDup ps → ∀ p i w x, ps !! p = Some i → floats v !! p = Some w → floats h !! i = Some x →
  fin64 x → ¬ fin64 w → floats h' !! i = Some w.
Proof. exact (view_inf ps v h h'). Qed.
Print Assumptions C76_inf.
(** but nothing is written over them: the result is NaN. *)
Theorem C76_stuck ps v h h' : setview ps v h = Some h' → NoDup ps → ∀ p i w x, ps !! p = Some i → floats v !! p = Some w → floats h !! i = Some x →
  ¬ fin64 x → floats h' !! i = Some B754_nan.
Proof. exact (view_stuck ps v h h'). Qed.
Print Assumptions C76_stuck.
Theorem C76_stuck_refuted : ∃ h ps w h', run h [SetView ps (Flts true [w])] = Some h' ∧ ps = [0] ∧ fin64 w ∧ floats h' !! 0 = Some B754_nan.
Proof. exact nan_stays. Qed.
Print Assumptions C76_stuck_refuted.
(** 1 written over 2**54 reads 0 *)
Theorem C76_digits_refuted : ∃ h ps w h', run h [SetView ps (Flts true [w])] = Some h' ∧ ps = [0] ∧ floats h = [large] ∧ fin64 w ∧ Beqb w (of_int 1) = true ∧
  ∃ y, floats h' !! 0 = Some y ∧ Beqb y (of_int 0) = true.
Proof. exact digits_lost. Qed.
Print Assumptions C76_digits_refuted.
(** The other elements keep their numbers, NaN and infinities too. *)
Theorem C76_others ps v h h' : setview ps v h = Some h' → NoDup ps → length (floats h') = length (floats h) ∧
  ∀ i x, i ∉ ps → floats h !! i = Some x → ∃ y, floats h' !! i = Some y ∧ same_num x y.
Proof. exact (view_others ps v h h'). Qed.
Print Assumptions C76_others.
(** A view makes the stored array one of floats: later items are stored as they are. *)
Theorem C76_types ps v h h' : setview ps v h = Some h' → is_array h' = true ∧ h' = Flts true (floats h').
Proof. exact (view_types ps v h h'). Qed.
Print Assumptions C76_types.
(** After c.x = \[1.0, 2.0\] assigning through views raises, while c\[0\] = 3 works. *)
Theorem C76_list_refuted ps v h : is_array h = false → setview ps v h = None.
Proof. exact (list_raises ps v h). Qed.
Print Assumptions C76_list_refuted.
Example C76_list_case : ∃ h, run (by_position (Ints true [1; 2; 3]%Z)) [SetX h] = Some h ∧ is_array h = false ∧ setitem [0] (Ints true [3]%Z) h ≠ None.
Proof. exists (Flts false [half64; half64]). done. Qed.
(** small integers and NaN, assigned through a view of an array of integers *)
Example C76_view_case : ∃ ps v h h', setview ps v h = Some h' ∧ NoDup ps ∧ ps = [2; 0] ∧ h = Ints true [1; 2; 3]%Z ∧ v = Flts true [half64; B754_nan] ∧
  generic_format radix2 fexp64 (B2R (of_int 3) + B2R (of_int 4)).
Proof.
  exists [2; 0], (Flts true [half64; B754_nan]), (Ints true [1; 2; 3]%Z). eexists. split; [reflexivity|]. split; [apply (NoDup_cons_2 2 [0]); [by intros [? | []%elem_of_nil]%elem_of_cons|apply NoDup_singleton]|]. split_and!; try done.
  destruct (of_int_exact 3) as [_ ->]; [lia|]. destruct (of_int_exact 4) as [_ ->]; [lia|]. rewrite <- plus_IZR. apply fmt_int. simpl. lia.
Qed.
Example C76_stuck_case : ∃ h h', setview [0] (Ints true [1]%Z) h = Some h' ∧ h = Flts true [B754_infinity false] ∧ ¬ fin64 (B754_infinity false).
Proof. eexists _, _. split; [|done]. reflexivity. Qed.
