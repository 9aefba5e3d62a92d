(** Property theorem file: nothing but the statements. *)
From Coq Require Import Reals.
From stdpp Require Import list list_numbers numbers gmap.
From Verif Require Import ArrModel Curve InterpModel InterpSpec InterpThms InterpDemo.

(** C52. At a grid point Interp3D returns the voxel. *)
Theorem C52_grid img loc y n r ix : interp_r img loc = Some y → sh loc = [n; 3] → r < n → inside (sh img) ix →
  (∀ c, c < 3 → at_ loc [r; c] = INR (nth c ix 0)) → sh y = [n] ∧ at_ y [r] = at_ img ix.
Proof. exact (interp_grid img loc y n r ix). Qed.
Print Assumptions C52_grid.
Example C52_grid_case : corner_case. Proof. exact corner_case_ok. Qed.
(** A volume that is an affine function of the position is evaluated exactly. *)
Theorem C52_affine img loc y n r a0 b0 b1 b2 : interp_r img loc = Some y → sh loc = [n; 3] → r < n → affine img a0 b0 b1 b2 →
  (∀ c, c < 3 → within (nth c (sh img) 0) (at_ loc [r; c])) →
  at_ y [r] = (a0 + b0 * at_ loc [r; 0%nat] + b1 * at_ loc [r; 1%nat] + b2 * at_ loc [r; 2%nat])%R.
Proof. exact (interp_affine img loc y n r a0 b0 b1 b2). Qed.
Print Assumptions C52_affine.
(** Locations beyond the border have the value of the closest point of the volume. *)
Theorem C52_closest img loc loc' y : interp_r img loc = Some y → sh loc' = sh loc →
  (∀ r c, inside (sh loc) [r; c] → closest (nth c (sh img) 0) (at_ loc [r; c]) (at_ loc' [r; c])) →
  ∃ y', interp_r img loc' = Some y' ∧ aeq y' y.
Proof. exact (interp_closest img loc loc' y). Qed.
Print Assumptions C52_closest.
Example C52_closest_case : edge_case. Proof. exact edge_case_ok. Qed.
(** The Jacobian is the derivative if every location is inside a cell. Missing: locations
    beyond the border, where it is false, see below. *)
Theorem C52_jacobian_partial img loc y : interp_r img loc = Some y →
  (∀ r c, inside (sh loc) [r; c] → in_cell (nth c (sh img) 0) (at_ loc [r; c])) →
  ∃ J, interp_jac img loc = Some J ∧ fits J (asize y) (asize loc) ∧ diff1 (λ x, default x (interp_r img x)) J loc.
Proof. exact (interp_jacobian img loc y). Qed.
Print Assumptions C52_jacobian_partial.
Example C52_case : here_case. Proof. exact here_case_ok. Qed.
(** Beyond the border the value does not depend on the coordinate but the Jacobian has the
    slope of the border cell: unless that happens to be 0, it is not the derivative,
    although there is one. *)
Theorem C52_outside img loc J r c : interp_jac img loc = Some J → between_grid img loc → inside (sh loc) [r; c] →
  beyond (nth c (sh img) 0) (at_ loc [r; c]) → entry J r (ravel (sh loc) [r; c]) ≠ 0%R →
  ¬ diff1 (λ x, default x (interp_r img x)) J loc ∧
  ∃ K, fits K (nrow J) (ncol J) ∧ diff1 (λ x, default x (interp_r img x)) K loc.
Proof. exact (interp_outside img loc J r c). Qed.
Print Assumptions C52_outside.
Example C52_outside_case : out_case. Proof. exact out_case_ok. Qed.
Theorem C52_outside_refuted : ∃ img loc y J, interp_r img loc = Some y ∧ interp_jac img loc = Some J ∧ between_grid img loc ∧
  ¬ diff1 (λ x, default x (interp_r img x)) J loc ∧ ∃ K, diff1 (λ x, default x (interp_r img x)) K loc.
Proof. exact out_refuted. Qed.
Print Assumptions C52_outside_refuted.
