(** C81: programs that mix numpy arrays, numpy functions and objects. *)
From stdpp Require Import list numbers gmap.
From Verif Require Import BlendModel BlendSpec BlendThms.

(** Whatever is mixed, the value when the expression has been run is numpy's; where numpy
    would raise, reading raises. *)
Theorem C81_value : ∀ (N : numpy) (e : nat → arrays N) (p : prog N) x,
  run e p = Some x → array_of e x = meaning e p.
Proof. intros N. exact value_now. Qed.
Print Assumptions C81_value.
(** np.square(x) - x * [3, 3], with x = [4, 5] *)
Example C81_value_ex : ∃ x,
  run (N:=toy) (λ _, [4; 5]%Z) (POper Minus (PNp1 1 (PVar 0)) (POper Times (PVar 0) (toy_array [3; 3]%Z))) = Some x
  ∧ array_of (N:=toy) (λ _, [4; 5]%Z) x = Some [4; 10]%Z.
Proof. eexists. split; reflexivity. Qed.

(** An expression raises only where numpy raises, if no array is divided by an object. *)
Theorem C81_raises_partial : ∀ (N : numpy) (e : nat → arrays N) (p : prog N),
  divides_objects p → is_Some (meaning e p) → is_Some (run e p).
Proof. intros N. exact runs. Qed.
Print Assumptions C81_raises_partial.
Example C81_raises_partial_ex :
  divides_objects (N:=toy) (POper Divide (PVar 0) (PNp1 1 (PVar 1)))
  ∧ meaning (N:=toy) (λ i, [Z.of_nat i * 6 + 3; 8]%Z) (POper Divide (PVar 0) (PNp1 1 (PVar 1))) = Some [0; 0]%Z.
Proof. split; [|reflexivity]. repeat split. all: cbn; intros; exact I. Qed.

(** array / object raises, whatever the values. *)
Theorem C81_divide_always : ∀ (N : numpy) (e : nat → arrays N) (p q : prog N),
  is_object q → ¬ is_object p → run e (POper Divide p q) = None.
Proof. intros N. exact divide_raises_all. Qed.
Print Assumptions C81_divide_always.
Example C81_divide_always_ex :
  is_object (N:=toy) (POper Plus (toy_array [1]%Z) (PVar 0)) ∧ ¬ is_object (N:=toy) (PNp1 0 (PVar 1)).
Proof. cbn. tauto. Qed.
Theorem C81_divide_refuted : ∃ (N : numpy) (e : nat → arrays N) (p : prog N),
  is_Some (meaning e p) ∧ run e p = None.
Proof. exists toy, (λ _, [2]%Z), (POper Divide (toy_array [6]%Z) (PVar 0)). split; [eexists|]; reflexivity. Qed.
Print Assumptions C81_divide_refuted.

(** After the values have changed from [e0] to [e]: what is below numpy's functions and
    ch.array stays, everything else follows. *)
Theorem C81_since : ∀ (N : numpy) (e0 e : nat → arrays N) (p : prog N) x,
  run e0 p = Some x → array_of e x = meaning_since e0 e p.
Proof. intros N. exact since_value. Qed.
Print Assumptions C81_since.
(** x + ch.array(x): the first x follows, the second does not. *)
Example C81_since_ex : ∃ x,
  run (N:=toy) (λ _, [1]%Z) (POper Plus (PVar 0) (PArray (PVar 0))) = Some x
  ∧ array_of (N:=toy) (λ _, [10]%Z) x = Some [11]%Z.
Proof. eexists. split; reflexivity. Qed.

(** So expressions that name no object below those follow all later values. *)
Theorem C81_follows_partial : ∀ (N : numpy) (e0 e : nat → arrays N) (p : prog N) x,
  open p → run e0 p = Some x → array_of e x = meaning e p.
Proof. intros N. exact open_value. Qed.
Print Assumptions C81_follows_partial.
(** [1, 2] + ch.asarray(x) ** np.square([1, 1]) *)
Example C81_follows_partial_ex : ∃ x,
  let p : prog toy := POper Plus (toy_array [1; 2]%Z) (POper Power (PAsarray (PVar 0)) (PNp1 1 (toy_array [1; 1]%Z))) in
  open p ∧ run (N:=toy) (λ _, [0; 0]%Z) p = Some x ∧ array_of (N:=toy) (λ _, [5; 6]%Z) x = Some [6; 8]%Z.
Proof. eexists. cbn. split; [done|]. split; reflexivity. Qed.

(** Full statement, false: every expression follows.  np.square(x) does not, *)
Theorem C81_numpy_refuted : ∃ (N : numpy) (e0 e : nat → arrays N) f x,
  run e0 (PNp1 f (PVar 0)) = Some x ∧ array_of e x ≠ meaning e (PNp1 f (PVar 0)).
Proof. exists toy, (λ _, [1]%Z), (λ _, [2]%Z), 1. eexists. split; [reflexivity|]. vm_compute. discriminate. Qed.
Print Assumptions C81_numpy_refuted.
(** and neither does ch.array(x). *)
Theorem C81_array_refuted : ∃ (N : numpy) (e0 e : nat → arrays N) x,
  run e0 (PArray (PVar 0)) = Some x ∧ array_of e x ≠ meaning e (PArray (PVar 0)).
Proof. exists toy, (λ _, [1]%Z), (λ _, [2]%Z). eexists. split; [reflexivity|]. vm_compute. discriminate. Qed.
Print Assumptions C81_array_refuted.

(** An expression depends on exactly the objects named outside numpy's functions and
    ch.array, in order, *)
Theorem C81_depends : ∀ (N : numpy) (e : nat → arrays N) (p : prog N) x,
  run e p = Some x → depends_on x = named_outside p.
Proof. intros N. exact depends_outside. Qed.
Print Assumptions C81_depends.
Example C81_depends_ex : ∃ x,
  run (N:=toy) (λ _, [1]%Z) (PCh2 2 (POper Plus (PVar 3) (PNp1 0 (PVar 1))) (PAsarray (PVar 2))) = Some x
  ∧ depends_on x = [3; 2].
Proof. eexists. split; reflexivity. Qed.
(** that is on all it names if none is below those; *)
Theorem C81_depends_partial : ∀ (N : numpy) (e : nat → arrays N) (p : prog N) x,
  open p → run e p = Some x → depends_on x = named p.
Proof. intros N. exact open_depends. Qed.
Print Assumptions C81_depends_partial.
Example C81_depends_partial_ex :
  let p : prog toy := POper Plus (toy_array [1]%Z) (POper Times (PVar 4) (PVar 4)) in
  open p ∧ ∃ x, run (N:=toy) (λ _, [1]%Z) p = Some x ∧ depends_on x = [4; 4].
Proof. split; [done|]. eexists. split; reflexivity. Qed.
(** values of other objects do not matter to it. *)
Theorem C81_only : ∀ (N : numpy) (e0 e e' : nat → arrays N) (p : prog N) x,
  run e0 p = Some x → (∀ i, i ∈ named_outside p → e i = e' i) → array_of e x = array_of e' x.
Proof. intros N. exact only_outside. Qed.
Print Assumptions C81_only.
Example C81_only_ex : ∃ x,
  run (N:=toy) (λ _, [1]%Z) (POper Plus (PVar 0) (PNp1 0 (PVar 1))) = Some x
  ∧ (∀ i, i ∈ named_outside (N:=toy) (POper Plus (PVar 0) (PNp1 0 (PVar 1))) →
       (λ i, [Z.of_nat i]) i = (λ i, if decide (i = 0) then [0%Z] else [7%Z]) i).
Proof. eexists. split; [reflexivity|]. cbn. intros i Hi. apply elem_of_list_singleton in Hi. by subst. Qed.
