(** Specification: the sum of the squares of all elements, and derivatives along lines. *)
From Coq Require Import Reals String.
From stdpp Require Import list.
From Verif Require Import ArrModel DogExact MinModel.

(** the objects of an objective *)
Definition objects (o : objective) : list term := match o with Single t => [t] | Several l => l | Labelled l => snd <$> l end.
(** what is to be minimized *)
Definition total (o : objective) (x : vec) : R := rsum ((λ t, rsum ((λ a, a * a)%R <$> t_val t x)) <$> objects o).
(** how many elements there are at [x] *)
Definition count_elements (o : objective) (x : vec) : nat := foldr Nat.add 0 ((λ t, length (t_val t x)) <$> objects o).
(** the point [s] along [d] from [x] *)
Definition along (x d : vec) (s : R) : vec := λ i, (x i + s * d i)%R.
(** [g] is the gradient of [F] at [x], in [n] variables; [H] is the derivative of [G] *)
Definition gradient_at (n : nat) (F : vec → R) (x g : vec) : Prop := ∀ d, derivable_pt_lim (λ s, F (along x d s)) 0 (dot n g d).
Definition derivative_at (n : nat) (G : vec → vec) (x : vec) (H : mat) : Prop :=
  ∀ d i, i < n → derivable_pt_lim (λ s, G (along x d s) i) 0 (dot n (H i) d).
(** an object with as many elements everywhere, whose Jacobian is right at [x] *)
Definition smooth_at (n : nat) (x : vec) (t : term) : Prop :=
  ∃ m, (∀ y, length (t_val t y) = m) ∧ length (t_jac t x) = m ∧
    ∀ i v, t_jac t x !! i = Some v → ∀ d, derivable_pt_lim (λ s, default 0%R (t_val t (along x d s) !! i)) 0 (dot n v d).
(** an object whose elements are affine: its Jacobian is the same everywhere, and right *)
Definition affine (n : nat) (t : term) : Prop := ∃ J, (∀ x, t_jac t x = J) ∧ ∀ x, smooth_at n x t.
