(** Specification of ChLambda: the expression with the current argument objects in
    place of the handles, and what may be asked of it.  Nothing here mentions caches. *)
From stdpp Require Import gmap strings list relations.
From Verif Require Import EngineModel EngineSpec LamModel.

Section spec.
Context (L : lib) (is_lam is_handle : Cls L → bool).
Notation graph := (gmap oid (core L)).
Implicit Types (g : graph) (reg : registry).

(** The contract of the two classes (ch.py:1224-1273), and no @depends_on properties
    in the library. *)
Record lam_lib_ok : Prop := {
  ll_props : ∀ c, prop_deps L c = ∅;
  ll_lam : ∀ c, is_lam c = true → is_base L c = false ∧ is_handle c = false ∧
    (∀ ts, compute_r L c ts = PAsk (RChild "_result"%string) PRet) ∧
    ∀ dt tm, "_result"%string ∈ dt → class_ok L c dt tm;
  ll_handle : ∀ c, is_handle c = true → is_base L c = false ∧
    ∀ ts, compute_r L c ts = PAsk (RChild "x"%string) PRet
}.

Definition gattr g (o : oid) (k : name) : option (aval L) :=
  match g !! o with Some c => c_attr L c !! k | None => None end.

(** Handing the current arguments to the handles in [S]. *)
Definition put (v : option (aval L)) (c : core L) : core L :=
  match v with Some v => write L "x"%string v c | None => c end.
Definition current g reg (hd : oid) : option (aval L) :=
  match reg !! hd with Some (f, k) => gattr g f k | None => None end.
Definition hand reg (S : gset oid) g : graph :=
  map_imap (λ o c, Some (if decide (o ∈ S) then put (current g reg o) c else c)) g.

(** The object graph with every handle standing for the current argument. *)
Definition substituted reg g : graph := hand reg (dom reg) g.

(** A handle that still holds an earlier argument. *)
Definition behind reg g (hd : oid) : Prop :=
  ∃ f k, reg !! hd = Some (f, k) ∧ gattr g hd "x"%string ≠ gattr g f k.

(** [exposed g hd x]: from [x] one can reach the handle [hd], which is behind, without
    entering the body through its lambda object. *)
Inductive exposed reg g (hd : oid) : oid → Prop :=
| ex_here : behind reg g hd → exposed reg g hd hd
| ex_step x d y : edge L g x d y →
    (∀ k, reg !! hd = Some (x, k) → d ≠ "_result"%string) →
    exposed reg g hd y → exposed reg g hd x.

(** [x] does not use pieces of a lambda body from outside it (at a moment when the
    lambda object has been given a new argument and has not been read yet). *)
Definition safe reg g (x : oid) : Prop := ∀ hd, ¬ exposed reg g hd x.

(** A structural condition: the handle lies in a set of objects entered only through the
    _result of its lambda object. *)
Definition private reg g (hd : oid) (B : gset oid) : Prop :=
  hd ∈ B ∧ ∀ x d y, edge L g x d y → y ∈ B → x ∈ B ∨
    (d = "_result"%string ∧ ∃ k, reg !! hd = Some (x, k)).

(** Which calls make sense.  Attributes assigned are terms or dterms; nobody assigns to
    the handles of a lambda object but itself; what is read is safe. *)
Definition reserved : list name := ["_result"%string; "lmb"%string; "initial_args"%string].

Definition lop_ok (a : lop L) (ls : lstate L) : Prop :=
  let g := cores L (st_h L (ls_st L ls)) in
  match a with
  | LNew _ o c dt tm => o ∉ dom g ∧ class_ok L c dt tm
  | LSet _ o k v o' => assign_ok L g o k v o' ∧ o ∉ dom (ls_reg L ls) ∧
      ∃ c, g !! o = Some c ∧ is_tracked L c k
  | LRead _ _ o => safe (ls_reg L ls) g o
  | LMake _ c f args result =>
      f ∉ dom g ∧ is_lam c = true ∧ result ∈ dom g ∧
      NoDup args.*1 ∧ NoDup args.*2 ∧
      ∀ k hd, (k, hd) ∈ args → k ∉ reserved ∧ hd ∉ dom (ls_reg L ls) ∧
        ∃ ch p, g !! hd = Some ch ∧ is_handle (c_cls L ch) = true ∧
          c_dt L ch = ["x"%string] ∧ c_attr L ch !! "x"%string = Some (ARef p) ∧ p ∈ dom g
  end.

Fixpoint lvalid_from (l : list (lop L)) (ls : lstate L) : Prop :=
  match l with
  | [] => True
  | a :: l' => lop_ok a ls ∧ lvalid_from l' (lstep L is_lam a ls)
  end.
Definition lvalid (l : list (lop L)) : Prop := lvalid_from l (lstart L).

(** The state after a history, its attributes, and the values that can be read. *)
Definition lafter (l : list (lop L)) : lstate L := lexec L is_lam l (lstart L).
Definition lattrs (ls : lstate L) : graph := cores L (st_h L (ls_st L ls)).
Definition reads_l (ls : lstate L) (o : oid) (v : Arr L) : Prop :=
  ∃ n, (read_l L (ls_reg L ls) n o (ls_st L ls)).2 = Some v.

(** [R] matches the body of the lambda object [f] with an expression written out by hand
    with the current arguments: a handle of [f] is matched with the argument, any other
    object with itself or with one of the same class whose attributes match. *)
Definition attrs_match (R : oid → oid → Prop) (a b : option (aval L)) : Prop :=
  match a, b with
  | Some (ARef x), Some (ARef y) => R x y
  | Some (AVal s), Some (AVal t) => s = t
  | None, None => True
  | _, _ => False
  end.
Definition written_out reg g (f : oid) (R : oid → oid → Prop) : Prop :=
  ∀ a b, R a b →
    a = b ∨
    (∃ k, reg !! a = Some (f, k) ∧ gattr g f k = Some (ARef b)) ∨
    (reg !! a = None ∧ reg !! b = None ∧ ∃ ca cb, g !! a = Some ca ∧ g !! b = Some cb ∧
      c_cls L ca = c_cls L cb ∧ ∀ k, attrs_match R (c_attr L ca !! k) (c_attr L cb !! k)).

End spec.
