(** Vocabulary for "dr_wrt is the Jacobian": values as real arrays, Jacobians as
    linear maps, curves of values and their velocities. *)
From Coq Require Import Reals.
From stdpp Require Import gmap strings list relations.
From Verif Require Import EngineModel EngineSpec GraphSpec ArrModel Curve.

(** How the arrays and Jacobians of a library are read as vectors and linear maps. *)
Record real_sem (L : lib) := RealSem {
  vec : Arr L → nat → R;
  shape : Arr L → list nat;
  act : Jac L → (nat → R) → nat → R
}.
Global Arguments vec {L}. Global Arguments shape {L}. Global Arguments act {L}.

(** Sums and products of Jacobians are those of linear maps. *)
Record sem_ok {L : lib} (M : real_sem L) : Prop := {
  so_mul : ∀ a b v i, act M (jmul L a b) v i = act M a (act M b v) i;
  so_add : ∀ a b v i, act M (jadd L a b) v i = (act M a v i + act M b v i)%R;
  so_ext : ∀ a u v i, (∀ k, u k = v k) → act M a u i = act M a v i;
  so_zero : ∀ a i, act M a (λ _, 0%R) i = 0%R
}.

Section spec.
Context {L : lib} (M : real_sem L).
Notation graph := (gmap oid (core L)).

(** A curve of arrays of constant shape with velocity [v] at time 0. *)
Definition moves (y : R → Arr L) (v : nat → R) : Prop :=
  near (λ t, shape M (y t) = shape M (y 0%R)) ∧
  ∀ i, derivable_pt_lim (λ t, vec M (y t) i) 0%R (v i).

(** None stands for the zero Jacobian. *)
Definition jact (j : option (Jac L)) (v : nat → R) (i : nat) : R :=
  match j with Some j => act M j v i | None => 0%R end.

(** Evaluation when some objects are given their value from outside. *)
Fixpoint evale (env : oid → option (Arr L)) (n : nat) (g : graph) (o : oid) (w : what) : option (Arr L) :=
  match n with
  | O => None
  | S n' =>
    match (match w with QR => env o | _ => None end), g !! o with
    | Some v, _ => Some v
    | None, None => None
    | None, Some c =>
      match w with
      | QR => runp L (answer L (evale env n' g) o c) (compute_r L (c_cls L c) (plain L c))
      | QProp k =>
        match prop_deps L (c_cls L c) !! k with
        | None => None
        | Some _ => runp L (answer L (evale env n' g) o c) (compute_prop L (c_cls L c) k (plain L c))
        end
      end
    end
  end.
Definition denotes_env env (g : graph) (o : oid) (v : Arr L) : Prop := ∃ n, evale env n g o QR = Some v.

(** The objects among the dterms, once each. *)
Definition ref_of (c : core L) (k : name) : option oid :=
  match c_attr L c !! k with Some (ARef p) => Some p | _ => None end.
Definition operands (c : core L) : list oid := omap (ref_of c) (c_dt L c).

Definition sumR (l : list R) : R := foldr Rplus 0%R l.

(** The values of the operands, from outside. *)
Definition given (ps : list oid) (rho : oid → R → Arr L) (t : R) : oid → option (Arr L) :=
  λ p, if decide (p ∈ ps) then Some (rho p t) else None.

(** The class of [o] computes the right local Jacobians: when its operands move, its
    value moves with the velocity that compute_dr_wrt of the operands predicts. *)
Definition right_at (g : graph) (o : oid) : Prop :=
  ∃ c, g !! o = Some c ∧ ∃ J : oid → option (Jac L),
    (∀ p, p ∈ operands c → (∃ n, pdirect L n g o p = Some (J p)) ∧ (J p = None → not_view L g p)) ∧
    ∀ (rho : oid → R → Arr L) (V : oid → nat → R),
      (∀ p, p ∈ operands c → denotes L g p QR (rho p 0%R) ∧ moves (rho p) (V p)) →
      ∃ y, near (λ t, denotes_env (given (operands c) rho t) g o (y t)) ∧
           moves y (λ i, sumR ((λ p, jact (J p) (V p) i) <$> remove_dups (operands c))).

(** No object other than [w] is used as two operands of [o]. *)
Definition no_repeat (g : graph) (w o : oid) : Prop :=
  ∀ c, g !! o = Some c → NoDup (filter (λ p, p ≠ w) (operands c)).

Definition only (w : oid) (v : Arr L) : oid → option (Arr L) :=
  λ p, if decide (p = w) then Some v else None.
End spec.
